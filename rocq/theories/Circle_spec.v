(** Specifications for the minimum bounding circle. *)
From Coq Require Import Reals List.
From Verif Require Import Base CenterR_model CenterR_spec Circle_geom.
Import ListNotations.
Local Open Scope R_scope.

(** [a] is the angle at [q] between the directions to [p] and [r]. *)
Definition IsAngle (a : R) (p q r : rpt) : Prop := 0 <= a <= PI /\ dot p q r = rdist p q * rdist r q * cos a.

Definition at_ (l : list rpt) (i : nat) : rpt := nth i l (0, 0).
(** A strictly convex ring, given clockwise. *)
Definition ConvexCw (l : list rpt) : Prop :=
  forall i j k, (i < j)%nat -> (j < k)%nat -> (k < length l)%nat -> 0 < turn (at_ l i) (at_ l j) (at_ l k).
(** No three points of the list have an angle below 1e-5, or above pi - 1e-5. *)
Definition WideAngles (l : list rpt) : Prop :=
  forall p q r a, In p l -> In q l -> In r l -> p <> q -> q <> r -> p <> r ->
    IsAngle a p q r -> / 100000 <= a <= PI - / 100000.

(** The disc with centre [c] and radius [rho] contains the points. *)
Definition Encloses (c : rpt) (rho : R) (l : list rpt) : Prop := forall p, In p l -> rdist p c <= rho.
(** It is the smallest such disc, and the only one of that size. *)
Definition MinimumCircle (c : rpt) (rho : R) (l : list rpt) : Prop :=
  Encloses c rho l /\ forall c' rho', Encloses c' rho' l -> rho <= rho' /\ (rho' = rho -> c' = c).

(** Convex hull of a list of points. *)
Inductive InHull (l : list rpt) : rpt -> Prop :=
| hull_vertex : forall p, In p l -> InHull l p
| hull_segment : forall p q t, InHull l p -> InHull l q -> 0 <= t <= 1 ->
    InHull l ((1 - t) * fst p + t * fst q, (1 - t) * snd p + t * snd q).
