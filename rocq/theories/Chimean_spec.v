(** The quadrat statistic on a pattern of fixed and simulated points. *)
From Coq Require Import Reals Qreals ZArith QArith List Bool.
From Verif Require Import Base Quadrat_model Geometry_model Random_model Random_spec QStat_model Joint_spec.
Import ListNotations.
Local Open Scope R_scope.

(** The sum of f over a list. *)
Definition sum_over {A : Type} (l : list A) (f : A -> R) : R := fold_right Rplus 0 (map f l).
(** The cells of a tessellation and the cell a location is counted in. *)
Definition cells (m : manager) : list Z := match m with MRect r => rect_keys r | MHex h => hex_keys h end.
Definition cell_of (m : manager) (p : pt) : res Z := match m with MRect r => rect_cell_id r p | MHex h => Ok (hex_cell_id h p) end.
Definition in_cell (m : manager) (k : Z) (p : pt) : bool := match cell_of m p with Ok k' => Z.eqb k k' | Raise _ => false end.
Definition extent (m : manager) : box := match m with MRect r => rm_mbb r | MHex h => hx_mbb h end.
Definition within (b : box) (p : pt) : Prop := (bxmin b <= fst p <= bxmax b)%Q /\ (bymin b <= snd p <= bymax b)%Q.
(** Every location of the data box is in one of the cells. *)
Definition covers (m : manager) : Prop := forall p, within (extent m) p -> exists k, cell_of m p = Ok k /\ In k (cells m).
(** [n] points drawn by [poisson] in the window [h] are added to the points [frame]. *)
Definition framed {B : Type} (h : hull) (frame : list pt) (n : nat) (test : list pt -> list Q -> run B) (us : list Q) : run B :=
  rbind (poisson h None (SInt (Z.of_nat n)) us) (fun a us => test (frame ++ arr_points a) us).
Definition real_of (x : xq) : R := match x with Fin q => Q2R q | _ => 0 end.
