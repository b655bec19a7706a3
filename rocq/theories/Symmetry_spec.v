(** Specifications: patterns that are the same up to the order of the points, the origin
    and the unit of length. *)
From Coq Require Import ZArith QArith List Bool Permutation.
From Verif Require Import Base Quadrat_model Geometry_model Random_model DistStats_model Ripley_model.
Import ListNotations.
Local Open Scope Q_scope.

(** Same or scaled numbers. *)
Definition times (c : Q) (x y : Q) : Prop := y == c * x.
Definition xtimes (c : Q) (x y : xq) : Prop :=
  match x, y with
  | Fin x, Fin y => times c x y
  | PInf, PInf | NInf, NInf | NaN, NaN => True
  | _, _ => False
  end.

(** The same point in a system of coordinates with another unit and origin. *)
Definition moved (c a b : Q) (p q : pt) : Prop := fst q == c * fst p + a /\ snd q == c * snd p + b.
Definition moved_box (c a b : Q) (x y : box) : Prop :=
  moved c a b (bxmin x, bymin x) (bxmin y, bymin y) /\ moved c a b (bxmax x, bymax x) (bxmax y, bymax y).

(** Distances change with the unit and with nothing else. *)
Definition unit_of (dist : metric -> pt -> pt -> Q) (c a b : Q) : Prop :=
  forall m p q p' q', moved c a b p p' -> moved c a b q q' -> dist m p' q' == c * dist m p q.
Definition symmetric (dist : metric -> pt -> pt -> Q) : Prop := forall m p q, dist m p q == dist m q p.

(** Two patterns with the same mutual distances, up to the order of the points and a
    factor. *)
Definition same_distances (dist : pt -> pt -> Q) (c : Q) (pts pts' : list pt) : Prop :=
  exists l, Permutation pts l /\ List.length pts' = List.length l /\
    forall i j, (i < List.length l)%nat -> (j < List.length l)%nat ->
      dist (nth i pts' (0, 0)) (nth j pts' (0, 0)) == c * dist (nth i l (0, 0)) (nth j l (0, 0)).
(** The same pattern, points listed in another order and in other coordinates. *)
Definition same_pattern (c a b : Q) (pts pts' : list pt) : Prop :=
  exists l, Permutation pts l /\ Forall2 (moved c a b) l pts'.

(** The same hull in other coordinates. *)
Definition moved_hull (c a b : Q) (h h' : hull) : Prop :=
  (h_area h == 0 <-> h_area h' == 0) /\ h_np h = h_np h' /\ moved_box c a b (h_bbox h) (h_bbox h') /\
  forall p p', moved c a b p p' -> h_contains h' p' = h_contains h p.

(** The support argument in the other unit. *)
Definition same_support (c : Q) (s t : support_arg) : Prop :=
  match s, t with
  | SupNone, SupNone => True
  | SupInt n, SupInt n' => n = n'
  | SupStop b, SupStop b' => times c b b'
  | SupRange a b, SupRange a' b' => times c a a' /\ times c b b'
  | SupSteps a b n, SupSteps a' b' n' => times c a a' /\ times c b b' /\ n = n'
  | SupArr l, SupArr l' => Forall2 (times c) l l'
  | _, _ => False
  end.

(** Both fail in the same way or both return related values. *)
Definition same_res {A : Type} (P : A -> A -> Prop) (x y : res A) : Prop :=
  match x, y with Ok a, Ok b => P a b | Raise e, Raise e' => e = e' | _, _ => False end.
Definition same_run {A : Type} (P : A -> A -> Prop) (x y : run A) : Prop :=
  match x, y with
  | Val a us, Val b us' => P a b /\ us = us'
  | Exc e, Exc e' => e = e'
  | Short, Short => True
  | _, _ => False
  end.

(** A curve in the other unit: support times [c], values times [f]. *)
Definition same_curve (c f : Q) (x y : list Q * list xq) : Prop :=
  Forall2 (times c) (fst x) (fst y) /\ Forall2 (xtimes f) (snd x) (snd y).
(** The result of a test in the other unit; the p-values do not change. *)
Definition same_outcome (c f : Q) (x y : outcome xq) : Prop :=
  same_curve c f (o_support x, o_statistic x) (o_support y, o_statistic y) /\ o_pvalue y = o_pvalue x /\
  match o_sims x, o_sims y with
  | Some s, Some t => Forall2 (Forall2 (xtimes f)) s t
  | None, None => True
  | _, _ => False
  end.
