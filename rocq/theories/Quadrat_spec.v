(** Specifications used for the quadrat theorems.  They mention only
    coordinates, cell sizes and counts, not the model's functions. *)
From Coq Require Import ZArith QArith List Bool Qabs.
From Verif Require Import Base.
Import ListNotations.
Local Open Scope Q_scope.

(** [x] lies in slot number [c] of [m] consecutive slots of width [w] starting
    at [lo]: closed below, open above, the last slot closed. *)
Definition in_slot (lo w : Q) (m c : Z) (x : Q) : Prop :=
  (0 <= c < m)%Z /\ lo + inject_Z c * w <= x /\
  (x < lo + (inject_Z c + 1) * w \/ (c = m - 1)%Z /\ x == lo + inject_Z m * w).

(** The same as a boolean test (used to count points). *)
Definition in_slotb (lo w : Q) (m c : Z) (x : Q) : bool :=
  (0 <=? c)%Z && (c <? m)%Z && Qle_bool (lo + inject_Z c * w) x &&
  (negb (Qle_bool (lo + (inject_Z c + 1) * w) x)
   || ((c =? m - 1)%Z && Qeq_bool x (lo + inject_Z m * w))).

(** The point set has positive extent along the axis selected by [f]. *)
Definition spread (f : pt -> Q) (pts : list pt) : Prop :=
  exists p q, In p pts /\ In q pts /\ f p < f q.

(** [b] is the tight bounding interval of the [f]-coordinates. *)
Definition tight (f : pt -> Q) (pts : list pt) (lo hi : Q) : Prop :=
  (forall p, In p pts -> lo <= f p <= hi) /\
  (exists p, In p pts /\ f p == lo) /\ (exists p, In p pts /\ f p == hi).

(** A convex polygon given counter-clockwise contains a point iff the point is
    on the left of (or on) every edge. *)
Definition left_of (a b p : pt) : Prop :=
  0 <= (fst b - fst a) * (snd p - snd a) - (snd b - snd a) * (fst p - fst a).
Fixpoint left_of_all (first : pt) (poly : list pt) (p : pt) : Prop :=
  match poly with
  | [] => True
  | a :: rest =>
      match rest with
      | [] => left_of a first p
      | b :: _ => left_of a b p /\ left_of_all first rest p
      end
  end.
Definition in_ccw_polygon (poly : list pt) (p : pt) : Prop :=
  match poly with [] => False | a :: _ => left_of_all a poly p end.

(** A point belongs to a drawn cell [c] of a grid over a data box with upper
    corner ([xhi],[yhi]): lower and left sides belong to the cell, upper and
    right sides only if they lie on the upper or right side of the data box. *)
Definition in_drawn_cell (x0 y0 x1 y1 xhi yhi : Q) (p : pt) : Prop :=
  (x0 <= fst p /\ (fst p < x1 \/ fst p == x1 /\ x1 == xhi)) /\
  (y0 <= snd p /\ (snd p < y1 \/ snd p == y1 /\ y1 == yhi)).

(** Strict version of polygon containment: the point is in the interior. *)
Definition strictly_left_of (a b p : pt) : Prop :=
  0 < (fst b - fst a) * (snd p - snd a) - (snd b - snd a) * (fst p - fst a).
Fixpoint strictly_left_of_all (first : pt) (poly : list pt) (p : pt) : Prop :=
  match poly with
  | [] => True
  | a :: rest =>
      match rest with
      | [] => strictly_left_of a first p
      | b :: _ => strictly_left_of a b p /\ strictly_left_of_all first rest p
      end
  end.
Definition inside_ccw_polygon (poly : list pt) (p : pt) : Prop :=
  match poly with [] => False | a :: _ => strictly_left_of_all a poly p end.

(** The half-open hexagon with centre [c], side [l] and half height [s]: the lower edge
    and the two left edges belong to it, the upper edge and the two right edges do not. *)
Definition owned_by (l s : Q) (c p : pt) : Prop :=
  let dx := fst p - fst c in let dy := snd p - snd c in
  - s <= dy < s /\ l / 2 * Qabs dy < s * (l - dx) /\ l / 2 * Qabs dy <= s * (l + dx).
