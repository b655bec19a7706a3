(** Exact weighted averages and total distances of floats. *)
From Coq Require Import Reals ZArith List.
From Flocq Require Import Core.
From Verif Require Import F64_model F64_proofs K64_spec Area64_spec.
Import ListNotations.
Local Open Scope R_scope.

(** The weighted average of [x], and of the absolute values. *)
Definition average (w x : list f64) : R := total (map (fun p => V (fst p) * V (snd p)) (combine w x)) / total (map V w).
Definition magnitude (w x : list f64) : R := total (map (fun p => V (fst p) * Rabs (V (snd p))) (combine w x)) / total (map V w).
(** Absolute values of the coordinates and their number, for products that underflow. *)
Definition room (x : list f64) : R := total (map (fun v => 2 * Rabs (V v) + 1) x).
(** The sum of the distances to [c]. *)
Definition total_distance (c : fpt) (l : list fpt) : R := total (map (fun p => D p c) l).
Definition good_weights (w : list f64) : Prop :=
  Forall (fun x => fin x /\ 0 <= V x) w /\ bpow radix2 (-900) <= total (map V w) <= bpow radix2 900.
