(** Specifications for the Ripley tests as a whole. *)
From Coq Require Import ZArith QArith Qreals Reals List Bool.
From Verif Require Import Base Spec Order_spec Quadrat_model Geometry_model Random_model DistStats_model DistStats_spec Pattern_spec.
Import ListNotations.
Local Open Scope Q_scope.

(** A tree that answers correctly, with any tie-breaking, for every metric. *)
Definition good_tree (query : metric -> list pt -> pt -> nat -> row) (dist : metric -> pt -> pt -> Q) : Prop :=
  forall m pts p k, (k <= List.length pts)%nat ->
    nearest (List.length pts) k (fun j => dist m p (nth j pts (0, 0))) (map snd (query m pts p k)) /\
    forall d j, In (d, j) (query m pts p k) -> d == dist m p (nth j pts (0, 0)).

(** [l] lists, for every query point, the distance to the closest of those points of
    the pattern that [ok] allows. *)
Definition closest (dist : pt -> pt -> Q) (ok : nat -> nat -> Prop) (pts qs : list pt) (l : list Q) : Prop :=
  List.length l = List.length qs /\
  forall i, (i < List.length qs)%nat -> exists j, (j < List.length pts)%nat /\ ok i j /\
    nth i l 0 == dist (nth i qs (0, 0)) (nth j pts (0, 0)) /\
    forall k, (k < List.length pts)%nat -> ok i k ->
      dist (nth i qs (0, 0)) (nth j pts (0, 0)) <= dist (nth i qs (0, 0)) (nth k pts (0, 0)).
Definition any_point (i j : nat) : Prop := True.
Definition other_number (i j : nat) : Prop := j <> i.

(** The cumulative fractions of the distances [d] on the support [sup]. *)
Definition cumulative (sup d : list Q) (v : list xq) : Prop :=
  List.length v = List.length sup /\ nth 0 v NaN = Fin 0 /\
  forall k a b, (1 <= k < List.length sup)%nat -> Counts (counted sup k) d a ->
    Counts (counted sup (List.length sup - 1)) d b ->
    nth k v NaN = xdiv (inject_Z (Z.of_nat a)) (inject_Z (Z.of_nat b)).

(** [q] is twice the number of pairs closer than [s], over n squared, times the area
    of the bounding box. *)
Definition is_K (dist : pt -> pt -> Q) (pts : list pt) (s : Q) (q : Q) : Prop :=
  exists b c, tight_box b pts /\
    Counts (fun ij => dist (nth (fst ij) pts (0, 0)) (nth (snd ij) pts (0, 0)) < s)
      (concat (map (fun i => map (fun j => (i, j)) (seq (S i) (List.length pts - S i))) (seq 0 (List.length pts)))) c /\
    q * inject_Z (Z.of_nat (List.length pts)) * inject_Z (Z.of_nat (List.length pts)) ==
      (bxmax b - bxmin b) * (bymax b - bymin b) * 2 * inject_Z (Z.of_nat c).

(** Folded Monte Carlo p-values from simulated curves. *)
Definition mc_pvalues (ns : Z) (obs : list xq) (sims : list (list xq)) (pv : list xq) : Prop :=
  List.length pv = List.length obs /\
  forall j c, (j < List.length obs)%nat -> Counts (fun v => at_least (nth j v NaN) (nth j obs NaN)) sims c ->
    exists p, nth j pv NaN = Fin p /\ p * inject_Z (ns + 1) == inject_Z (Z.min (Z.of_nat c + 1) (ns - Z.of_nat c)).

(** A simulated pattern: as many points as observed, all in the hull. *)
Definition drawn_in (h : hull) (n : nat) (p : list pt) : Prop :=
  List.length p = n /\ forall x, In x p -> h_contains h x = true.

(** [sup] has [z] evenly spaced values from 0 to the greatest of the distances. *)
Definition support_to_max (d : list Q) (z : Z) (sup : list Q) : Prop :=
  List.length sup = Z.to_nat z /\
  exists top, evenly 0 top sup /\ (exists y, In y d /\ y == top) /\ forall y, In y d -> y <= top.

(** [v] lists the quotients (1 - g) / (1 - f): infinite where only f is 1, not a number
    where both are. *)
Definition ratios (gv fv v : list xq) : Prop :=
  List.length v = List.length fv /\
  forall j, (j < List.length fv)%nat ->
    match nth j gv NaN, nth j fv NaN with
    | Fin g, Fin f =>
        (~ f == 1 -> exists q, nth j v NaN = Fin q /\ q * (1 - f) == 1 - g) /\
        (f == 1 -> g == 1 -> nth j v NaN = NaN) /\
        (f == 1 -> g < 1 -> nth j v NaN = PInf)
    | NaN, _ | _, NaN => nth j v NaN = NaN
    | _, _ => True
    end.

(** [l] is the L value that belongs to the K value [k] at distance [s]: the radius of a
    disc of area [k], less [s] if linearized. *)
Definition is_L (linearized : bool) (s : Q) (k : xq) (l : option R) : Prop :=
  exists q r, k = Fin q /\ l = Some (r - (if linearized then Q2R s else 0))%R /\ (0 <= r)%R /\ (PI * r * r = Q2R q)%R.
