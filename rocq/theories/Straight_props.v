(** Theorems on patterns whose points lie on one line. *)
From Coq Require Import ZArith QArith List Bool String Reals Qreals Lia Lqa Lra Arith.
From Verif Require Import Base BaseLemmas Quadrat_model Geometry_model Pattern_model Pattern_spec Pattern_props Geometry_props
  CenterR_model CenterR_spec Circle_geom Circle_spec Circle_model Circle_proofs Circle_props Straight_model.
Import ListNotations.
Local Open Scope Q_scope.

(** ** Specification *)
(** No three points form a triangle. *)
Definition Straight (pts : list pt) : Prop := forall a b c, In a pts -> In b pts -> In c pts -> orient a b c == 0.
(** All points satisfy the equation of one line. *)
Definition OnLine (pts : list pt) : Prop :=
  exists u v w, ~ (u == 0 /\ v == 0) /\ forall p, In p pts -> u * fst p + v * snd p == w.
(** A strictly convex ring of points of the pattern, counter-clockwise, with the whole
    pattern on the left of every edge. *)
Definition HullRing (pts h : list pt) : Prop :=
  (3 <= List.length h)%nat /\ (forall p, In p h -> In p pts) /\
  (forall i j k, (i < j)%nat -> (j < k)%nat -> (k < List.length h)%nat -> 0 < orient (nth i h (0, 0)) (nth j h (0, 0)) (nth k h (0, 0))) /\
  (forall p0 t, h = p0 :: t -> forall a b p, consecutive (h ++ [p0]) a b -> In p pts -> 0 <= orient a b p).
(** What scipy promises. *)
Definition Qhull (qhull : list pt -> res (list nat)) : Prop :=
  qhull [] = Raise ValueError /\
  (forall pts, pts <> [] -> Straight pts -> qhull pts = Raise RuntimeError) /\
  (forall pts, ~ Straight pts -> exists v, qhull pts = Ok v /\ HullRing pts (map (fun i => nth i pts (0, 0)) v)).

(** ** Lemmas *)
Lemma straight_dec : forall pts, Straight pts \/ ~ Straight pts.
Proof.
  intro pts.
  assert (D : forall (P : pt -> Prop), (forall p, P p \/ ~ P p) -> (forall p, In p pts -> P p) \/ ~ (forall p, In p pts -> P p)).
  { intros P H. induction pts as [|p l IH]; [left; intros p []|]. destruct IH as [A|A].
    - destruct (H p) as [B|B]; [left; intros q [<-|I]; auto|right; intro X; apply B, X; left; reflexivity].
    - right. intro X. apply A. intros q I. apply X. right; exact I. }
  destruct (D (fun a => forall b, In b pts -> forall c, In c pts -> orient a b c == 0)) as [A|A].
  - intro a. apply (D (fun b => forall c, In c pts -> orient a b c == 0)). intro b. apply (D (fun c => orient a b c == 0)). intro c.
    destruct (Qeq_dec (orient a b c) 0); auto.
  - left. intros a b c I J K. apply A; assumption.
  - right. intro X. apply A. intros a I b J c K. apply X; assumption.
Qed.

Lemma turn_orient : forall a b c, turn (to_r c) (to_r b) (to_r a) = Q2R (orient a b c).
Proof.
  intros a b c. unfold turn, orient, to_r. cbn [fst snd]. rewrite Q2R_minus, !Q2R_mult, !Q2R_minus. ring.
Qed.

Lemma far : forall (A : Type) (f : A -> R) (l : list A), l <> [] -> exists x, In x l /\ forall y, In y l -> (f y <= f x)%R.
Proof.
  intros A f l. induction l as [|a l IH]; intro N; [contradiction N; reflexivity|]. destruct l as [|b l].
  - exists a. split; [left; reflexivity|]. intros y [<-|[]]. lra.
  - destruct IH as [x [I M]]; [discriminate|]. destruct (Rle_dec (f x) (f a)).
    + exists a. split; [left; reflexivity|]. intros y [<-|J]; [lra|]. specialize (M y J). lra.
    + exists x. split; [right; exact I|]. intros y [<-|J]; [lra|auto].
Qed.

Lemma rdist_sq : forall p q, (0 <= rdist p q)%R /\ (rdist p q * rdist p q = (fst p - fst q) ^ 2 + (snd p - snd q) ^ 2)%R.
Proof.
  intros p q. unfold rdist. split; [apply sqrt_pos|]. apply sqrt_sqrt. apply Rplus_le_le_0_compat; apply pow2_ge_0.
Qed.

(** The smallest disc around points on a line. *)
Lemma straight_circle : forall pts : list pt, pts <> [] -> Straight pts ->
  exists p q, In p pts /\ In q pts /\
    MinimumCircle ((Q2R (fst p) + Q2R (fst q)) / 2, (Q2R (snd p) + Q2R (snd q)) / 2)%R (rdist (to_r p) (to_r q) / 2) (map to_r pts).
Proof.
  intros pts NE ST.
  destruct (far (pt * pt) (fun pq => rdist (to_r (fst pq)) (to_r (snd pq))) (list_prod pts pts)) as [[p q] [I M]].
  { destruct pts; [contradiction NE; reflexivity|discriminate]. }
  apply in_prod_iff in I. destruct I as [IP IQ]. exists p, q. split; [exact IP|]. split; [exact IQ|]. cbn [fst snd] in M.
  set (P := to_r p) in *. set (Q := to_r q) in *. set (D := rdist P Q) in *. destruct (rdist_sq P Q) as [D0 DD]. fold D in D0, DD.
  change (MinimumCircle ((fst P + fst Q) / 2, (snd P + snd Q) / 2)%R (D / 2) (map to_r pts)).
  split.
  - intros s' I'. apply in_map_iff in I'. destruct I' as [s [<- IS]]. set (T := to_r s).
    destruct (rdist_sq P T) as [A0 AA]. destruct (rdist_sq T Q) as [B0 BB].
    assert (AL : (rdist P T <= D)%R) by (apply (M (p, s)); apply in_prod; assumption).
    assert (BL : (rdist T Q <= D)%R) by (apply (M (s, q)); apply in_prod; assumption).
    assert (TU : turn P Q T = 0%R).
    { unfold P, Q, T. rewrite turn_orient. rewrite <- (RMicromega.Q2R_0). apply Qeq_eqR, ST; assumption. }
    unfold turn in TU.
    set (wx := (fst T - fst P)%R). set (wy := (snd T - snd P)%R). set (dx := (fst Q - fst P)%R) in *. set (dy := (snd Q - snd P)%R) in *.
    assert (E1 : (wx * wx + wy * wy <= dx * dx + dy * dy)%R).
    { assert (rdist P T * rdist P T <= D * D)%R by nra. unfold wx, wy, dx, dy. nra. }
    assert (E2 : ((wx - dx) * (wx - dx) + (wy - dy) * (wy - dy) <= dx * dx + dy * dy)%R).
    { assert (rdist T Q * rdist T Q <= D * D)%R by nra. unfold wx, wy, dx, dy. nra. }
    assert (E3 : (dy * wx = dx * wy)%R) by (unfold wx, wy; lra).
    assert (E4 : ((wx * dx + wy * dy) * (wx * dx + wy * dy) = (wx * wx + wy * wy) * (dx * dx + dy * dy))%R).
    { transitivity ((wx * wx + wy * wy) * (dx * dx + dy * dy) - (dy * wx - dx * wy) * (dy * wx - dx * wy))%R; [ring|]. rewrite E3. ring. }
    assert (E5 : (wx * wx + wy * wy <= wx * dx + wy * dy)%R).
    { assert (0 <= wx * wx + wy * wy)%R by nra. assert (0 <= wx * dx + wy * dy)%R by nra.
      destruct (Rle_dec (wx * wx + wy * wy) (wx * dx + wy * dy)); [assumption|]. exfalso.
      assert ((wx * wx + wy * wy) * (wx * wx + wy * wy) <= (wx * wx + wy * wy) * (dx * dx + dy * dy))%R by nra. nra. }
    destruct (rdist_sq T ((fst P + fst Q) / 2, (snd P + snd Q) / 2)%R) as [C0 CC]. cbn [fst snd] in CC.
    assert (rdist T ((fst P + fst Q) / 2, (snd P + snd Q) / 2)%R * rdist T ((fst P + fst Q) / 2, (snd P + snd Q) / 2)%R <= D / 2 * (D / 2))%R.
    { rewrite CC. replace (D / 2 * (D / 2))%R with (D * D / 4)%R by field. rewrite DD. unfold wx, wy, dx, dy in E5. nra. }
    nra.
  - intros c' r' EN. pose proof (EN P (in_map to_r _ _ IP)) as HP. pose proof (EN Q (in_map to_r _ _ IQ)) as HQ.
    destruct (rdist_sq P c') as [A0 AA]. destruct (rdist_sq Q c') as [B0 BB].
    assert (SQ : (((fst P + fst Q) / 2 - fst c') ^ 2 + ((snd P + snd Q) / 2 - snd c') ^ 2 + D * D / 4 <= r' * r')%R).
    { assert (rdist P c' * rdist P c' <= r' * r')%R by nra. assert (rdist Q c' * rdist Q c' <= r' * r')%R by nra. rewrite DD. nra. }
    assert (r0 : (0 <= r')%R) by lra. split.
    + assert (X1 : (0 <= ((fst P + fst Q) / 2 - fst c') ^ 2)%R) by apply pow2_ge_0. assert (X2 : (0 <= ((snd P + snd Q) / 2 - snd c') ^ 2)%R) by apply pow2_ge_0. nra.
    + intros ->. assert (X1 : (((fst P + fst Q) / 2 - fst c') ^ 2 + ((snd P + snd Q) / 2 - snd c') ^ 2 <= 0)%R) by nra.
      destruct c' as [cx cy]. cbn [fst snd] in *.
      pose proof (pow2_ge_0 ((fst P + fst Q) / 2 - cx)) as Y1. pose proof (pow2_ge_0 ((snd P + snd Q) / 2 - cy)) as Y2.
      assert (Z1 : ((fst P + fst Q) / 2 - cx = 0)%R) by (apply Rsqr_0_uniq; unfold Rsqr; lra).
      assert (Z2 : ((snd P + snd Q) / 2 - cy = 0)%R) by (apply Rsqr_0_uniq; unfold Rsqr; lra).
      f_equal; lra.
Qed.

Lemma to_r_default : to_r (0, 0) = (0, 0)%R.
Proof. unfold to_r. cbn [fst snd]. rewrite RMicromega.Q2R_0. reflexivity. Qed.

Lemma at_map : forall h i, at_ (map to_r h) i = to_r (nth i h (0, 0)).
Proof. intros h i. unfold at_. rewrite <- to_r_default. apply map_nth. Qed.

(** The ring read backwards is convex and clockwise. *)
Lemma ring_clockwise : forall pts h, HullRing pts h -> ConvexCw (rev (map to_r h)) /\ NoDup (rev (map to_r h)).
Proof.
  intros pts h [L [_ [C _]]].
  assert (A : forall i j k, (i < j)%nat -> (j < k)%nat -> (k < List.length h)%nat -> (0 < turn (at_ (map to_r h) k) (at_ (map to_r h) j) (at_ (map to_r h) i))%R).
  { intros i j k I J K. rewrite !at_map, turn_orient. rewrite <- RMicromega.Q2R_0. apply Qlt_Rlt. apply C; assumption. }
  split.
  - intros i j k I J K. rewrite rev_length, map_length in K.
    assert (RV : forall m, (m < List.length h)%nat -> at_ (rev (map to_r h)) m = at_ (map to_r h) (List.length h - S m)).
    { intros m M. unfold at_. rewrite rev_nth by (rewrite map_length; exact M). rewrite map_length. reflexivity. }
    rewrite !RV by lia. apply A; lia.
  - apply NoDup_rev. apply (NoDup_nth (map to_r h) (0, 0)%R). rewrite map_length.
    assert (B : forall i j, (i < j)%nat -> (j < List.length h)%nat -> nth i (map to_r h) (0, 0)%R <> nth j (map to_r h) (0, 0)%R).
    { intros i j I J E. destruct (Nat.eq_dec (S i) j) as [N|N].
      - destruct (Nat.eq_dec i 0) as [I0|I0].
        + assert (X := A i j (S j) I ltac:(lia) ltac:(lia)). unfold at_ in X. rewrite E in X. unfold turn in X. lra.
        + assert (X := A 0%nat i j ltac:(lia) I J). unfold at_ in X. rewrite E in X. unfold turn in X. lra.
      - assert (X := A i (S i) j ltac:(lia) ltac:(lia) J). unfold at_ in X. rewrite E in X. unfold turn in X. lra. }
    intros i j I J E. destruct (lt_eq_lt_dec i j) as [[H|H]|H]; [|exact H|].
    + contradiction (B i j H J E).
    + contradiction (B j i H I (eq_sym E)).
Qed.

Section C157.
Variable qhull : list pt -> res (list nat).
Hypothesis scipy : Qhull qhull.
Notation hull_array := (hull_array qhull).
Notation hull_area_array := (hull_area_array qhull).
Notation lambda_hull_array := (lambda_hull_array qhull).
Notation circle_array := (circle_array qhull).
Notation prepare_hull_array := (prepare_hull_array qhull).

(** ** C157 *)
(** Everything that needs the convex hull works for patterns with a triangle: the hull
    has a positive area, the intensity is the number of points over it, and the loop of
    minimum_bounding_circle returns. *)
Theorem C157_triangle : forall pts, ~ Straight pts ->
  (exists h, hull_array pts = Ok h /\ HullRing pts h) /\
  (exists a, hull_area_array pts = Ok a /\ 0 < a /\ exists q, lambda_hull_array pts = Ok (Fin q) /\ q * a == inject_Z (Z.of_nat (List.length pts)) /\ 0 < q) /\
  (forall numba, exists c r, circle_array numba pts = Some (Ok (c, r))) /\
  (forall t, prepare_hull_array pts (HStr ("convex" ++ t)) = Ok RNewConvex).
Proof using scipy.
  intros pts NS. destruct scipy as [_ [_ S3]]. destruct (S3 pts NS) as [v [QV HR]]. set (h := map (fun i => nth i pts (0, 0)) v) in *.
  assert (HA : hull_array pts = Ok h) by (unfold Straight_model.hull_array; rewrite QV; reflexivity).
  split; [exists h; split; assumption|].
  assert (AR : 0 < hull_area_of h).
  { destruct HR as [L [IN [C LE]]]. destruct (C23_hull_area h) as [_ [_ [_ [_ [_ G]]]]].
    assert (CC : ccw_convex h) by (intros p0 t E a b w CO IW; apply (LE p0 t E a b w CO); apply IN, IW).
    destruct h as [|x [|y [|z t]]] eqn:EH; cbn in L; try lia.
    apply (G CC x (y :: z :: t) x y z eq_refl).
    - exists [], (z :: t ++ [x]). reflexivity.
    - right; right; left; reflexivity.
    - apply (C 0%nat 1%nat 2%nat); cbn; lia. }
  assert (HAA : hull_area_array pts = Ok (hull_area_of h)).
  { unfold Straight_model.hull_area_array. rewrite HA. cbn [bind]. destruct HR as [L _]. destruct h; [cbn in L; lia|reflexivity]. }
  split; [|split].
  - exists (hull_area_of h). split; [exact HAA|]. split; [exact AR|].
    exists (inject_Z (Z.of_nat (List.length pts)) / hull_area_of h). split; [|split].
    + unfold Straight_model.lambda_hull_array. rewrite HAA. cbn [bind]. unfold xdiv.
      destruct (Qeq_bool (hull_area_of h) 0) eqn:E; [apply Qeq_bool_iff in E; Lqa.lra|]. reflexivity.
    + field. Lqa.lra.
    + apply Qlt_shift_div_l; [exact AR|]. rewrite Qmult_0_l. change 0 with (inject_Z 0). rewrite <- Zlt_Qlt.
      destruct HR as [L [IN _]]. destruct h as [|x t]; [cbn in L; lia|]. specialize (IN x (or_introl eq_refl)). destruct pts; [destruct IN|cbn; lia].
  - intro numba. unfold Straight_model.circle_array. rewrite HA. destruct (ring_clockwise pts h HR) as [CW ND].
    assert (L3 : (3 <= List.length (map to_r h))%nat) by (rewrite map_length; apply HR).
    unfold minimum_bounding_circle. rewrite (is_clockwise_rev _ L3 CW), (is_clockwise_convex _ CW).
    destruct (C22_terminates numba (rev (map to_r h)) ND ltac:(rewrite rev_length; lia)) as (rho & x & y & rest & gone & p & q & r & i & E & _).
    unfold skyum_loop in E. exists (x, y), rho. destruct numba; rewrite E; reflexivity.
  - intro t. unfold Straight_model.prepare_hull_array, prepare_hull. cbn [String.eqb append Ascii.eqb Bool.eqb].
    cbn. rewrite QV. reflexivity.
Qed.
Print Assumptions C157_triangle.

(** Points on one line, in particular fewer than three: all of it raises RuntimeError
    (QhullError), although the pattern has a smallest disc, the one between its two
    farthest points, and a bounding box. *)
Theorem C157_straight_refuted : forall pts, pts <> [] -> Straight pts ->
  hull_array pts = Raise RuntimeError /\ hull_area_array pts = Raise RuntimeError /\ lambda_hull_array pts = Raise RuntimeError /\
  (forall numba, circle_array numba pts = Some (Raise RuntimeError)) /\
  (forall t, prepare_hull_array pts (HStr ("convex" ++ t)) = Raise RuntimeError) /\
  (exists p q, In p pts /\ In q pts /\
     MinimumCircle ((Q2R (fst p) + Q2R (fst q)) / 2, (Q2R (snd p) + Q2R (snd q)) / 2)%R (rdist (to_r p) (to_r q) / 2) (map to_r pts)) /\
  exists b, prepare_hull_array pts HNone = Ok (RBox b).
Proof using scipy.
  intros pts NE ST. destruct scipy as [_ [S2 _]]. pose proof (S2 pts NE ST) as QV.
  assert (HA : hull_array pts = Raise RuntimeError) by (unfold Straight_model.hull_array; rewrite QV; reflexivity).
  assert (HAA : hull_area_array pts = Raise RuntimeError) by (unfold Straight_model.hull_area_array; rewrite HA; reflexivity).
  split; [exact HA|]. split; [exact HAA|]. split; [unfold Straight_model.lambda_hull_array; rewrite HAA; reflexivity|].
  split; [intro numba; unfold Straight_model.circle_array; rewrite HA; reflexivity|]. split; [|split].
  - intro t. unfold Straight_model.prepare_hull_array. cbn. rewrite QV. reflexivity.
  - apply straight_circle; assumption.
  - destruct pts as [|p l]; [contradiction NE; reflexivity|]. eexists. reflexivity.
Qed.
Print Assumptions C157_straight_refuted.

(** No points: ValueError. Any other hull argument does not ask for a convex hull. *)
Theorem C157_others : (hull_array [] = Raise ValueError /\ hull_area_array [] = Raise ValueError /\ lambda_hull_array [] = Raise ValueError /\
    (forall numba, circle_array numba [] = Some (Raise ValueError))) /\
  (forall pts h, (forall t, h <> HStr ("convex" ++ t)) -> prepare_hull_array pts h = prepare_hull pts h).
Proof using scipy.
  destruct scipy as [S1 _]. split.
  - unfold Straight_model.lambda_hull_array, Straight_model.hull_area_array, Straight_model.circle_array, Straight_model.hull_array. rewrite S1. repeat split.
  - intros pts h N. unfold Straight_model.prepare_hull_array. destruct (prepare_hull pts h) as [r|e] eqn:E; [|reflexivity].
    destruct r; try reflexivity. exfalso. destruct (C28_dispatch pts h) as [D _]. specialize (D _ E).
    destruct h as [|[a|a]|i|s|i|i]; try contradiction. destruct D as [t ->]. exact (N t eq_refl).
Qed.
Print Assumptions C157_others.
End C157.

(** Which patterns these are: those on a line; all with fewer than three points; and
    the order of the points and repeated points do not matter. *)
Theorem C157_which :
  (forall pts, Straight pts <-> OnLine pts) /\ (forall pts, (List.length pts <= 2)%nat -> Straight pts) /\
  (forall pts pts', (forall p, In p pts <-> In p pts') -> (Straight pts <-> Straight pts')).
Proof.
  split; [|split].
  - intro pts. split.
    + intro ST.
      assert (D : (exists a b, In a pts /\ In b pts /\ ~ (fst a == fst b /\ snd a == snd b)) \/ (forall a b, In a pts -> In b pts -> fst a == fst b /\ snd a == snd b)).
      { clear ST. induction pts as [|p l IH]; [right; intros a b []|].
        destruct IH as [[a [b [I [J N]]]]|S]; [left; exists a, b; split; [right; exact I|split; [right; exact J|exact N]]|].
        destruct l as [|q l]; [right; intros a b [<-|[]] [<-|[]]; split; reflexivity|].
        destruct (Qeq_dec (fst p) (fst q)) as [E1|E1], (Qeq_dec (snd p) (snd q)) as [E2|E2].
        1: { right. intros a b [<-|I] [<-|J].
             - split; reflexivity.
             - destruct (S q b (or_introl eq_refl) J) as [X Y]. split; [rewrite E1; exact X|rewrite E2; exact Y].
             - destruct (S a q I (or_introl eq_refl)) as [X Y]. split; [rewrite E1; exact X|rewrite E2; exact Y].
             - apply S; assumption. }
        all: left; exists p, q; split; [left; reflexivity|split; [right; left; reflexivity|intros [X Y]; contradiction]]. }
      destruct D as [[a [b [I [J N]]]]|S].
      * exists (snd b - snd a), (fst a - fst b), ((snd b - snd a) * fst a + (fst a - fst b) * snd a). split.
        { intros [X Y]. apply N. split; Lqa.lra. }
        intros p IP. specialize (ST a b p I J IP). unfold orient in ST. Lqa.lra.
      * destruct pts as [|p l].
        { exists 1, 0, 0. split; [intros [X _]; Lqa.lra|intros p []]. }
        exists 1, 0, (fst p). split; [intros [X _]; Lqa.lra|]. intros q IQ. destruct (S q p IQ (or_introl eq_refl)) as [X _]. Lqa.lra.
    + intros [u [v [w [N L]]]] a b c I J K. pose proof (L a I) as LA. pose proof (L b J) as LB. pose proof (L c K) as LC. unfold orient.
      assert (E1 : u * ((fst b - fst a) * (snd c - snd a) - (fst c - fst a) * (snd b - snd a)) == 0).
      { assert (X1 : u * (fst b - fst a) == - (v * (snd b - snd a))) by Lqa.lra. assert (X2 : u * (fst c - fst a) == - (v * (snd c - snd a))) by Lqa.lra.
        transitivity (u * (fst b - fst a) * (snd c - snd a) - u * (fst c - fst a) * (snd b - snd a)); [ring|]. rewrite X1, X2. ring. }
      assert (E2 : v * ((fst b - fst a) * (snd c - snd a) - (fst c - fst a) * (snd b - snd a)) == 0).
      { assert (X1 : v * (snd b - snd a) == - (u * (fst b - fst a))) by Lqa.lra. assert (X2 : v * (snd c - snd a) == - (u * (fst c - fst a))) by Lqa.lra.
        transitivity ((fst b - fst a) * (v * (snd c - snd a)) - (fst c - fst a) * (v * (snd b - snd a))); [ring|]. rewrite X1, X2. ring. }
      destruct (Qeq_dec u 0) as [U|U].
      * destruct (Qeq_dec v 0) as [V|V]; [contradiction N; split; assumption|]. apply Qmult_integral in E2. destruct E2 as [E2|E2]; [contradiction|exact E2].
      * apply Qmult_integral in E1. destruct E1 as [E1|E1]; [contradiction|exact E1].
  - intros [|p [|q [|r l]]] L a b c I J K; cbn in L; try lia; cbn in I, J, K; unfold orient.
    + destruct I.
    + destruct I as [<-|[]], J as [<-|[]], K as [<-|[]]. ring.
    + destruct I as [<-|[<-|[]]], J as [<-|[<-|[]]], K as [<-|[<-|[]]]; ring.
  - intros pts pts' S. split; intros ST a b c I J K; apply ST; apply S; assumption.
Qed.
Print Assumptions C157_which.

(** Three points on a diagonal have the smallest disc around (2, 2); with a fourth point
    beside it they are no longer straight. *)
Example C157_case : Straight [(0, 0); (1, 1); (4, 4)] /\ ~ Straight [(0, 0); (1, 1); (4, 4); (0, 3)] /\
  (forall qhull, Qhull qhull -> circle_array qhull false [(0, 0); (1, 1); (4, 4)] = Some (Raise RuntimeError)) /\
  HullRing [(0, 0); (1, 1); (4, 4); (0, 3)] [(0, 0); (4, 4); (0, 3)].
Proof.
  assert (S : Straight [(0, 0); (1, 1); (4, 4)]).
  { apply (proj1 C157_which). exists 1, (-1), 0. split; [intros [X _]; discriminate X|]. intros p [<-|[<-|[<-|[]]]]; vm_compute; reflexivity. }
  split; [exact S|]. split; [|split].
  - intro X. unfold Straight in X. specialize (X (0, 0) (4, 4) (0, 3) ltac:(cbn; auto) ltac:(cbn; auto) ltac:(cbn; auto)). discriminate X.
  - intros qhull Q. destruct (C157_straight_refuted qhull Q [(0, 0); (1, 1); (4, 4)] ltac:(discriminate) S) as [_ [_ [_ [C _]]]]. apply C.
  - split; [cbn; lia|]. split; [intros p [<-|[<-|[<-|[]]]]; cbn; auto|]. split.
    + intros i j k I J K. cbn in K. assert (i = 0 /\ j = 1 /\ k = 2)%nat as [-> [-> ->]] by lia. reflexivity.
    + intros p0 t E a b p [l1 [l2 C]] IP. injection E as <- <-. cbn [app] in C.
      destruct l1 as [|u1 [|u2 [|u3 l1]]]; cbn [app] in C.
      * injection C as <- <- _. destruct IP as [<-|[<-|[<-|[<-|[]]]]]; vm_compute; discriminate.
      * injection C as _ <- <- _. destruct IP as [<-|[<-|[<-|[<-|[]]]]]; vm_compute; discriminate.
      * injection C as _ _ <- <- _. destruct IP as [<-|[<-|[<-|[<-|[]]]]]; vm_compute; discriminate.
      * apply (f_equal (@List.length pt)) in C. cbn [List.length] in C. rewrite app_length in C. cbn [List.length] in C. lia.
Qed.
Print Assumptions C157_case.
