(** What G should be: fractions of distances below the support values. *)
From Coq Require Import Reals ZArith List.
From Flocq Require Import Core.
From Verif Require Import F64_model F64_proofs.
Import ListNotations.
Local Open Scope R_scope.

(** Distances from lo up to, not including, r; distances from lo to hi. *)
Definition from_below (d : list f64) (lo r : R) : nat :=
  length (filter (fun x => if Rle_dec lo (V x) then if Rlt_dec (V x) r then true else false else false) d).
Definition from_to (d : list f64) (lo hi : R) : nat :=
  length (filter (fun x => if Rle_dec lo (V x) then if Rle_dec (V x) hi then true else false else false) d).
(** Distances below r. *)
Definition below (d : list f64) (r : R) : nat := length (filter (fun x => if Rlt_dec (V x) r then true else false) d).
Definition at_i (s : list f64) (i : nat) : R := V (nth i s (fint 0)).
(** Finite non-decreasing support values. *)
Definition increasing (s : list f64) : Prop :=
  Forall fin s /\ forall i j, (i <= j < length s)%nat -> at_i s i <= at_i s j.
(** The number of distances that G counts at support value i. *)
Definition expected (d s : list f64) (i : nat) : nat :=
  if Nat.eqb (S i) (length s) then from_to d (at_i s 0) (at_i s i) else from_below d (at_i s 0) (at_i s i).
(** A range of numbers that is empty or not too small, and not too large. *)
Definition good_range (a b : f64) : Prop :=
  fin a /\ fin b /\ V a <= V b /\ Rabs (V a) <= bpow radix2 1021 /\ Rabs (V b) <= bpow radix2 1021 /\
  (V a = V b \/ bpow radix2 (-960) <= V b - V a).
