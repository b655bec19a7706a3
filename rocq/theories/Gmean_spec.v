(** Points without a near point, for the means of G and F. *)
From Coq Require Import Reals QArith List Bool.
From Verif Require Import Base Quadrat_model Random_model Joint_spec Blocks_spec.
Import ListNotations.
Local Open Scope R_scope.

(** No point of the list is near [x]. *)
Definition lone (near : pt -> pt -> bool) (x : pt) (l : list pt) : bool := forallb (fun q => negb (near x q)) l.
(** The probability that none of [n] random points is near a further one. *)
Definition empty_prob (G : list Q) (w : Q -> R) (mk : Q -> Q -> pt) (ok : pt -> bool) (near : pt -> pt -> bool) (n : nat) : R :=
  share G w mk ok (fun p => (1 - share G w mk ok (indicator (near p))) ^ n).
