(** Specifications: the same pattern in other coordinates, with its own unit on each axis,
    with exchanged axes, or in a mirror. *)
From Coq Require Import ZArith QArith List Bool Permutation.
From Verif Require Import Base.
Import ListNotations.
Local Open Scope Q_scope.

(** Other origin, and another unit on each axis. *)
Definition rescaled (cx cy a b : Q) (p q : pt) : Prop := fst q == cx * fst p + a /\ snd q == cy * snd p + b.
(** The same, points listed in any order. *)
Definition rescaled_pattern (cx cy a b : Q) (pts pts' : list pt) : Prop :=
  exists l, Permutation pts l /\ Forall2 (rescaled cx cy a b) l pts'.

(** Exchanged axes. *)
Definition swapped (p : pt) : pt := (snd p, fst p).
(** Mirror image: left and right exchanged. *)
Definition mirrored (k : Q) (p : pt) : pt := (k - fst p, snd p).

(** [x] is on one of the lines that separate [m] equal strips of [lo, hi]. *)
Definition on_line (lo hi : Q) (m : Z) (x : Q) : Prop :=
  exists i, (0 < i < m)%Z /\ x == lo + inject_Z i * ((hi - lo) / inject_Z m).
