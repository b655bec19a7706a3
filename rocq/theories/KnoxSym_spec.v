(** Specifications for C120: the same events in another order, at another origin and in
    other units of length and time, possibly rotated or with time running backwards. *)
From Coq Require Import ZArith QArith List Bool Permutation.
From Verif Require Import Base Spacetime_model Spacetime_spec.
Import ListNotations.
Local Open Scope Q_scope.

(** Event i of the new list is event [pi[i]] of the old one. *)
Definition old (pi : list nat) (i : nat) : nat := nth i pi 0%nat.
(** All squared distances are multiplied by the square of [k]. *)
Definition same_shape (pi : list nat) (k : Q) (c c' : list vec) : Prop :=
  List.length c' = List.length c /\
  forall i j, (i < List.length c)%nat -> (j < List.length c)%nat ->
    sqdist (row c' i) (row c' j) == k * k * sqdist (row c (old pi i)) (row c (old pi j)).
(** The same rearrangement of the events, in the new numbering. *)
Definition conjugate (n : nat) (pi rids rids' : list nat) : Prop :=
  perm_of n rids /\ perm_of n rids' /\ forall i, (i < n)%nat -> old pi (nth i rids' 0%nat) = nth (old pi i) rids 0%nat.
(** Times in the same order, or in the opposite one. *)
Definition same_order (back : bool) (pi : list nat) (t t' : list vec) : Prop :=
  forall i j, (i < List.length t)%nat -> (j < List.length t)%nat ->
    (time_of t' i < time_of t' j <->
     if back then time_of t (old pi j) < time_of t (old pi i) else time_of t (old pi i) < time_of t (old pi j)).
Definition turned (back : bool) (o : orientation) : orientation :=
  if back then match o with Lead => Lag | Lag => Lead | Coincident => Coincident end else o.
(** Moving the origin and changing the unit; [k] may be negative. *)
Definition moved_rows (pi : list nat) (k : Q) (shift : vec) (c c' : list vec) : Prop :=
  List.length c' = List.length c /\
  forall i, (i < List.length c)%nat -> List.length (row c (old pi i)) = List.length shift /\
    Forall2 Qeq (row c' i) (map (fun ab => k * fst ab + snd ab) (combine (row c (old pi i)) shift)).
(** A rotation of the plane by the angle with cosine [u] and sine [v], with reflection or without. *)
Definition turned_rows (pi : list nat) (u v : Q) (mirror : bool) (c c' : list vec) : Prop :=
  List.length c' = List.length c /\
  forall i, (i < List.length c)%nat -> exists x y, row c (old pi i) = [x; y] /\
    Forall2 Qeq (row c' i) [u * x - v * y; (if mirror then -1 else 1) * (v * x + u * y)].
