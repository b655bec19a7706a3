(** Boxes of floats and streams of random integers. *)
From Coq Require Import Reals ZArith List.
From Flocq Require Import Core.
From Verif Require Import F64_model F64_proofs Sample64_model.
Import ListNotations.
Local Open Scope R_scope.

Definition draws (us : list Z) : Prop := Forall (fun k => (0 <= k < 2 ^ 53)%Z) us.
(** Finite ends of absolute value at most 2^1022, in order. *)
Definition interval (a b : f64) : Prop := fin a /\ fin b /\ V a <= V b /\ Rabs (V a) <= bpow radix2 1022 /\ Rabs (V b) <= bpow radix2 1022.
Definition proper (b : box64) : Prop := interval (x0 b) (x1 b) /\ interval (y0 b) (y1 b).
Definition inside (b : box64) (p : fpt) : Prop :=
  fin (fst p) /\ fin (snd p) /\ V (x0 b) <= V (fst p) <= V (x1 b) /\ V (y0 b) <= V (snd p) <= V (y1 b).
(** Consecutive pairs of a stream. *)
Fixpoint in_pairs (n : nat) (us : list Z) : list (Z * Z) :=
  match n, us with S m, k :: l :: us' => (k, l) :: in_pairs m us' | _, _ => [] end.
