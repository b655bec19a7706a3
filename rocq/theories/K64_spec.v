(** Distances between points with binary64 coordinates, and counts of pairs. *)
From Coq Require Import Reals ZArith List.
From Flocq Require Import Core.
From Verif Require Import F64_model F64_proofs.
Import ListNotations.
Local Open Scope R_scope.

(** Finite coordinates of absolute value at most 2^500. *)
Definition usable (p : fpt) : Prop :=
  (fin (fst p) /\ Rabs (V (fst p)) <= bpow radix2 500) /\ (fin (snd p) /\ Rabs (V (snd p)) <= bpow radix2 500).
(** The Euclidean distance. *)
Definition D (p q : fpt) : R := sqrt ((V (fst p) - V (fst q)) ^ 2 + (V (snd p) - V (snd q)) ^ 2).
Fixpoint pairs (l : list fpt) : list (fpt * fpt) :=
  match l with [] => [] | p :: t => map (pair p) t ++ pairs t end.
(** The number of pairs less than [r] apart. *)
Definition nearer (l : list fpt) (r : R) : nat :=
  length (filter (fun pq => if Rlt_dec (D (fst pq) (snd pq)) r then true else false) (pairs l)).
(** Coordinates on a grid of step 2^j with differences up to 2^26 steps. *)
Definition on_steps (j : Z) (x : f64) : Prop := exists k, V x = IZR k * bpow radix2 j.
Definition step_apart (j : Z) (p q : fpt) : Prop :=
  Rabs (V (fst p) - V (fst q)) <= bpow radix2 (j + 26) /\ Rabs (V (snd p) - V (snd q)) <= bpow radix2 (j + 26).
(** Extent of the points in one coordinate. *)
Definition Extent (c : fpt -> f64) (l : list fpt) (w : R) : Prop :=
  exists p q, In p l /\ In q l /\ w = V (c q) - V (c p) /\ forall r, In r l -> V (c p) <= V (c r) <= V (c q).
