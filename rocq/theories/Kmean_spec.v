(** Close pairs of points, for the mean of Ripley's K. *)
From Coq Require Import Reals QArith List.
From Verif Require Import Base Joint_spec.
Import ListNotations.
Local Open Scope R_scope.

(** The number of pairs (earlier point, later point) of a pattern that are near. *)
Fixpoint close_pairs (near : pt -> pt -> bool) (l : list pt) : nat :=
  match l with [] => 0%nat | p :: t => (count (near p) t + close_pairs near t)%nat end.
