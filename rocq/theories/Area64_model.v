(** Areas and intensities of a point pattern on binary64.  pointpattern.py 226-315
    (_mbb_area, _rot, _lambda_mbb, _hull_area, _lambda_hull). *)
From Coq Require Import ZArith List Bool Permutation.
From Flocq Require Import BinarySingleNaN.
From Verif Require Import F64_model K64_model.
Import ListNotations.

(** numpy adds the entries of an array in an order that depends on their number,
    here any way of adding two at a time, perhaps with additional zeros. *)
Inductive tree : Type := Leaf (x : f64) | Node (l r : tree).
Fixpoint leaves (t : tree) : list f64 := match t with Leaf x => [x] | Node l r => leaves l ++ leaves r end.
Fixpoint tsum (t : tree) : f64 := match t with Leaf x => x | Node l r => fadd (tsum l) (tsum r) end.
Definition zero64 (x : f64) : Prop := match x with B754_zero _ => True | _ => False end.
Definition Adds (t : tree) (l : list f64) : Prop := exists z, Forall zero64 z /\ Permutation (leaves t) (l ++ z).

(** 300-303: the ring is closed unless its first and last row are equal. *)
Definition feq : f64 -> f64 -> bool := @Beqb 53 1024.
Definition eq_row (p q : fpt) : bool := feq (fst p) (fst q) && feq (snd p) (snd q).
Definition close64 (h : list fpt) : list fpt :=
  match h with
  | [] => []
  | p :: _ => if eq_row p (last h p) then h else h ++ [p]
  end.
Fixpoint pairs {A : Type} (l : list A) : list (A * A) :=
  match l with a :: ((b :: _) as t) => (a, b) :: pairs t | _ => [] end.
(** 304: one term for each edge. *)
Definition cross64 (a b : fpt) : f64 := fsub (fmul (fst a) (snd b)) (fmul (fst b) (snd a)).
Definition terms64 (h : list fpt) : list f64 := map (fun e => cross64 (fst e) (snd e)) (pairs (close64 h)).
(** 305, for the order [t] of adding the terms. *)
Definition hull_area64 (t : tree) : f64 := fdiv (tsum t) (fint 2).
(** 313. *)
Definition lambda_hull64 (n : nat) (t : tree) : f64 := fdiv (fint (Z.of_nat n)) (hull_area64 t).

(** 231: the product of the sides; 249-250: a quarter of the smaller one; 258. *)
Definition side64 (c : fpt -> f64) (l : list fpt) : f64 :=
  match l with [] => fint 0 | p :: t => fsub (col_max c p t) (col_min c p t) end.
Definition mbb_area64 (l : list fpt) : f64 := fmul (side64 fst l) (side64 snd l).
Definition rot64 (l : list fpt) : f64 := fmul (fdyadic 1 (-2)) (fmin (side64 fst l) (side64 snd l)).
Definition lambda_mbb64 (l : list fpt) : f64 := fdiv (fint (Z.of_nat (length l))) (mbb_area64 l).
