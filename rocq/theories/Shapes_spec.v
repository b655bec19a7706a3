(** What C129 is about: the number of dimensions, rows and columns of an array,
    the points of an array with two columns, and the variance of a column. *)
From Coq Require Import Reals QArith List Arith.
From Verif Require Import Base Shapes_model.
Import ListNotations.

Definition ndim {A} (a : arr A) : nat := match a with A0 _ => 0 | A1 _ => 1 | A2 _ _ => 2 end.
(** [len(a)]; 0 for an array of no dimensions. *)
Definition nrows {A} (a : arr A) : nat :=
  match a with A0 _ => 0 | A1 l => List.length l | A2 _ rows => List.length rows end.
(** 0 unless there are two dimensions. *)
Definition ncols {A} (a : arr A) : nat := match a with A2 k _ => k | _ => 0 end.

(** The array with two columns that holds the given points. *)
Definition of_points {A} (pts : list (A * A)) : arr A := A2 2 (map (fun p => [fst p; snd p]) pts).

(** A list of rows of different lengths. *)
Definition ragged {A} (s : seqarg A) : Prop :=
  exists rows r r', s = SRows rows /\ In r rows /\ In r' rows /\ List.length r <> List.length r'.

Definition succeeds {A} (r : res A) : Prop := exists v, r = Ok v.

Section VAR.
Local Open Scope R_scope.
Definition mean (l : list R) : R := fold_right Rplus 0 l / INR (List.length l).
Definition variance (l : list R) : R := mean (map (fun x => (x - mean l) ^ 2) l).
Definition constant (l : list R) : Prop := forall x y, In x l -> In y l -> x = y.
End VAR.
