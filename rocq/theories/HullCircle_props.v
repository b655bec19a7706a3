(** The minimum bounding circle of a pattern, with the convex hull of scipy. *)
From Coq Require Import ZArith QArith List Bool Lia Lqa Arith Reals Qreals Lra.
From Verif Require Import Base Geometry_model Pattern_model Pattern_spec CenterR_model CenterR_spec Circle_geom Circle_spec Circle_model Circle_proofs Circle_props
  Straight_model Straight_props HullExists_proofs HullExists_props HullArea_props.
Import ListNotations.
Local Open Scope Q_scope.

(** ** Specification *)
(** No three corners of the pattern form an angle below 1e-5 or above pi - 1e-5. *)
Definition WideCorners (pts : list pt) : Prop :=
  forall p q r a, In p pts -> In q pts -> In r pts -> Corner pts p -> Corner pts q -> Corner pts r ->
    to_r p <> to_r q -> to_r q <> to_r r -> to_r p <> to_r r -> IsAngle a (to_r p) (to_r q) (to_r r) -> (/ 100000 <= a <= PI - / 100000)%R.

(** ** Lemmas *)
Lemma crossing : forall (u : nat -> Q) n, 0 <= u 1%nat -> u (S n) <= 0 -> (1 <= n)%nat -> exists i, (1 <= i <= n)%nat /\ 0 <= u i /\ u (S i) <= 0.
Proof.
  intros u. induction n as [|n IH]; intros U1 UN N; [lia|]. destruct (Nat.eq_dec n 0) as [->|NZ]; [exists 1%nat; split; [lia|split; assumption]|].
  destruct (Qlt_le_dec (u (S n)) 0) as [G|G].
  - destruct (IH U1 ltac:(Lqa.lra) ltac:(lia)) as (i & I & A). exists i. split; [lia|exact A].
  - exists (S n). split; [lia|split; assumption].
Qed.
(** Every point of the pattern lies in a triangle of the fan of the ring. *)
Lemma in_fan : forall pts h p, HullRing pts h -> In p pts ->
  exists i, (1 <= i)%nat /\ (S i < length h)%nat /\ 0 <= orient (nth 0 h (0, 0)) (nth i h (0, 0)) p /\ 0 <= orient (nth i h (0, 0)) (nth (S i) h (0, 0)) p /\ 0 <= orient (nth (S i) h (0, 0)) (nth 0 h (0, 0)) p /\
    0 < orient (nth 0 h (0, 0)) (nth i h (0, 0)) (nth (S i) h (0, 0)).
Proof.
  intros pts h p HR P. pose proof HR as (L3 & IN & TR & ED). destruct h as [|p0 t] eqn:EH; [cbn in L3; lia|]. rewrite <- EH in *.
  specialize (ED p0 t EH). set (n := length h) in *.
  assert (EDGE : forall i, (S i < n)%nat -> 0 <= orient (nth i h (0, 0)) (nth (S i) h (0, 0)) p).
  { intros i I. apply ED; [|exact P]. rewrite <- (app_nth1 h [p0] (0, 0) (n := i)), <- (app_nth1 h [p0] (0, 0) (n := S i)) by (fold n; lia). apply consecutive_nth. rewrite app_length. cbn [length]. fold n. lia. }
  assert (LAST : 0 <= orient (nth (n - 1) h (0, 0)) (nth 0 h (0, 0)) p).
  { apply ED; [|exact P]. pose proof (consecutive_nth (h ++ [p0]) (n - 1)) as C. rewrite app_length in C. cbn [length] in C. fold n in C. specialize (C ltac:(lia)).
    replace (S (n - 1)) with n in C by lia. rewrite (app_nth1 h [p0]) in C by (fold n; lia). rewrite (app_nth2 h [p0]) in C by (fold n; lia). fold n in C. rewrite Nat.sub_diag in C. rewrite EH. rewrite EH in C. exact C. }
  destruct (crossing (fun i => orient (nth 0 h (0, 0)) (nth i h (0, 0)) p) (n - 2)) as (i & I & A & B).
  - apply EDGE. lia.
  - replace (S (n - 2)) with (n - 1)%nat by lia. unfold orient in *. Lqa.lra.
  - lia.
  - exists i. split; [lia|]. split; [lia|]. split; [exact A|]. split; [apply EDGE; lia|]. split; [unfold orient in *; Lqa.lra|]. apply TR; fold n; lia.
Qed.
Lemma in_triangle : forall (l : list rpt) (x y z q : rpt) (u v w : R), In x l -> In y l -> In z l -> (0 <= u)%R -> (0 <= v)%R -> (0 <= w)%R -> (u + v + w = 1)%R ->
  fst q = (u * fst x + v * fst y + w * fst z)%R -> snd q = (u * snd x + v * snd y + w * snd z)%R -> InHull l q.
Proof.
  intros l x y z [q1 q2] u v w X Y Zz U V W S1 E1 E2. cbn [fst snd] in E1, E2. subst q1 q2.
  destruct (Req_dec (v + w) 0) as [N|N].
  - assert (v = 0%R) by lra. assert (w = 0%R) by lra. subst v w. replace u with 1%R by lra.
    replace (1 * fst x + 0 * fst y + 0 * fst z)%R with (fst x) by ring. replace (1 * snd x + 0 * snd y + 0 * snd z)%R with (snd x) by ring. destruct x as [x1 x2]. apply hull_vertex, X.
  - set (m := ((1 - w / (v + w)) * fst y + w / (v + w) * fst z, (1 - w / (v + w)) * snd y + w / (v + w) * snd z)%R).
    assert (HM : InHull l m).
    { apply hull_segment; [apply hull_vertex, Y|apply hull_vertex, Zz|]. assert (I0 : (0 < / (v + w))%R) by (apply Rinv_0_lt_compat; lra). split.
      - unfold Rdiv. apply Rmult_le_pos; lra.
      - apply Rmult_le_reg_r with (v + w)%R; [lra|]. unfold Rdiv. rewrite Rmult_assoc, Rinv_l by exact N. lra. }
    replace (u * fst x + v * fst y + w * fst z, u * snd x + v * snd y + w * snd z)%R with ((1 - (v + w)) * fst x + (v + w) * fst m, (1 - (v + w)) * snd x + (v + w) * snd m)%R.
    + apply hull_segment; [apply hull_vertex, X|exact HM|lra].
    + unfold m. cbn [fst snd]. replace u with (1 - (v + w))%R by lra. f_equal; field; exact N.
Qed.
Lemma ring_hull : forall pts h, HullRing pts h -> forall p, In p pts -> InHull (map to_r h) (to_r p).
Proof.
  intros pts h HR p P. destruct (in_fan pts h p HR P) as (i & I1 & I2 & A & B & C & T).
  set (x := nth 0 h (0, 0)) in *. set (y := nth i h (0, 0)) in *. set (z := nth (S i) h (0, 0)) in *. set (D := orient x y z) in *.
  assert (NZ : ~ D == 0) by Lqa.lra.
  assert (POS : forall a, 0 <= a -> (0 <= Q2R (a / D))%R).
  { intros a A0. rewrite <- RMicromega.Q2R_0. apply Qle_Rle. apply Qle_shift_div_l; [exact T|]. Lqa.lra. }
  apply (in_triangle _ (to_r x) (to_r y) (to_r z) _ (Q2R (orient y z p / D)) (Q2R (orient z x p / D)) (Q2R (orient x y p / D))).
  - apply in_map, nth_In. lia.
  - apply in_map, nth_In. lia.
  - apply in_map, nth_In. lia.
  - apply POS, B.
  - apply POS, C.
  - apply POS, A.
  - rewrite <- !Q2R_plus. rewrite <- RMicromega.Q2R_1. apply Qeq_eqR. unfold D, orient in *. field. exact NZ.
  - unfold to_r. cbn [fst]. rewrite <- !Q2R_mult, <- !Q2R_plus. apply Qeq_eqR. unfold D, orient in *. field. exact NZ.
  - unfold to_r. cbn [snd]. rewrite <- !Q2R_mult, <- !Q2R_plus. apply Qeq_eqR. unfold D, orient in *. field. exact NZ.
Qed.

(** ** C160 *)
(** With any convex hull routine within scipy's contract, minimum_bounding_circle returns
    the smallest disc around the pattern. *)
Theorem C160_minimum : forall qhull numba pts, Qhull qhull -> ~ Straight pts -> WideCorners pts ->
  exists c rho, circle_array qhull numba pts = Some (Ok (c, rho)) /\ MinimumCircle c rho (map to_r pts).
Proof.
  intros qhull numba pts QH NS WC. destruct (hull_defined qhull pts QH NS) as [h EH]. pose proof (hull_ring qhull pts h QH EH) as HR.
  destruct (C158_corners qhull pts h QH EH) as (_ & CQ & _). unfold circle_array. rewrite EH. destruct (ring_clockwise pts h HR) as [CW ND].
  assert (NDH : NoDup (map to_r h)) by (apply NoDup_rev in ND; rewrite rev_involutive in ND; exact ND).
  apply (C86_minimum numba (fun _ => map to_r h) (map to_r pts)).
  - exact NDH.
  - rewrite map_length. destruct HR as [L _]. lia.
  - right. exact CW.
  - intros p q r a P Q0 R0 N1 N2 N3 IA. apply in_map_iff in P, Q0, R0. destruct P as (p' & <- & P). destruct Q0 as (q' & <- & Q0). destruct R0 as (r' & <- & R0).
    apply (WC p' q' r' a); try assumption; apply CQ; assumption.
  - intros p P. apply in_map_iff in P. destruct P as (p' & <- & P). apply (ring_hull pts h HR), P.
  - intros p P. apply in_map_iff in P. destruct P as (p' & <- & P). apply in_map, HR, P.
Qed.
Print Assumptions C160_minimum.

Lemma to_r_at : forall p q, At p q -> to_r p = to_r q.
Proof. intros p q [E1 E2]. unfold to_r. rewrite (Qeq_eqR _ _ E1), (Qeq_eqR _ _ E2). reflexivity. Qed.
Lemma corner_at : forall pts p q, At p q -> Corner pts p -> Corner pts q.
Proof.
  intros pts p q [E1 E2] (s & t & H). exists s, t. intros x X. destruct (H x X) as [H1 H2]. unfold At in *. rewrite <- E1, <- E2. split; assumption.
Qed.
(** Hence it depends neither on the routine and the loop nor on the order and the
    repetitions, and points that are no corners may be left out. *)
Theorem C160_unique : forall qhull qhull' numba numba' pts pts', Qhull qhull -> Qhull qhull' -> ~ Straight pts -> WideCorners pts ->
  (forall p, In p pts' -> In p pts) -> (forall p, In p pts -> Corner pts p -> exists q, In q pts' /\ At q p) ->
  circle_array qhull' numba' pts' = circle_array qhull numba pts.
Proof.
  intros qhull qhull' numba numba' pts pts' QH QH' NS WC SUB COV.
  destruct (C160_minimum qhull numba pts QH NS WC) as (c & rho & EC & [EN MN]). rewrite EC.
  destruct (hull_defined qhull pts QH NS) as [h EH]. pose proof (hull_ring qhull pts h QH EH) as HR. destruct (C158_corners qhull pts h QH EH) as (_ & CQ & _).
  assert (COVH : forall p, In p h -> exists q, In q pts' /\ At q p) by (intros p P; apply COV; apply CQ, P).
  assert (NS' : ~ Straight pts').
  { intro ST. apply (ring_not_straight pts h HR). intros x y z X Y Zz. destruct (COVH x X) as (x' & X' & [A1 A2]). destruct (COVH y Y) as (y' & Y' & [B1 B2]). destruct (COVH z Zz) as (z' & Z' & [C1 C2]).
    pose proof (ST x' y' z' X' Y' Z') as E. unfold orient in *. rewrite A1, A2, B1, B2, C1, C2 in E. exact E. }
  destruct (hull_defined qhull' pts' QH' NS') as [h' EH']. pose proof (hull_ring qhull' pts' h' QH' EH') as HR'. destruct (C158_corners qhull' pts' h' QH' EH') as (RC' & CQ' & _).
  assert (CC : forall p, In p h' -> Corner pts p).
  { intros p P. destruct (CQ' p P) as [P' (s & t & H)]. destruct (least_all pts h s t HR) as (m & M & LM). destruct (COVH m M) as (m' & M' & [E1 E2]).
    destruct (H m' M') as [G1 G2]. pose proof (LM p (SUB p P')) as G3. rewrite E1, E2 in G1, G2. destruct G2 as [F1 F2]; [Lqa.lra|].
    apply (corner_at pts m p); [split; Lqa.lra|]. apply CQ, M. }
  assert (HH : forall x, In x (map to_r h) -> In x (map to_r h')).
  { intros x X. apply in_map_iff in X. destruct X as (p & <- & P). destruct (COVH p P) as (q & Q0 & A).
    assert (C : Corner pts' q). { apply (corner_subset pts); [exact SUB|]. apply (corner_at pts p q); [destruct A; split; symmetry; assumption|apply CQ, P]. }
    destruct (proj2 (RC' q Q0) C) as (r & R0 & B). apply in_map_iff. exists r. split; [|exact R0]. rewrite (to_r_at r q B). apply to_r_at, A. }
  unfold circle_array. rewrite EH'. destruct (ring_clockwise pts' h' HR') as [CW ND].
  assert (NDH : NoDup (map to_r h')) by (apply NoDup_rev in ND; rewrite rev_involutive in ND; exact ND).
  destruct (C86_minimum numba' (fun _ => map to_r h') (map to_r pts)) as (c' & rho' & EC' & [EN' MN']).
  - exact NDH.
  - rewrite map_length. destruct HR' as [L _]. lia.
  - right. exact CW.
  - intros p q r a P Q0 R0 N1 N2 N3 IA. apply in_map_iff in P, Q0, R0. destruct P as (p' & <- & P). destruct Q0 as (q' & <- & Q0). destruct R0 as (r' & <- & R0).
    apply (WC p' q' r' a); try assumption; try (apply CC; assumption); apply SUB, CQ'; assumption.
  - intros p P. apply in_map_iff in P. destruct P as (p' & <- & P). apply (hull_mono (map to_r h)); [exact HH|]. apply (ring_hull pts h HR), P.
  - intros p P. apply in_map_iff in P. destruct P as (p' & <- & P). apply in_map, SUB, CQ', P.
  - change (minimum_bounding_circle numba' (fun _ : list rpt => map to_r h') (map to_r pts')) with (minimum_bounding_circle numba' (fun _ : list rpt => map to_r h') (map to_r pts)).
    rewrite EC'. destruct (MN c' rho' EN') as [L1 E1]. destruct (MN' c rho EN) as [L2 E2].
    assert (rho' = rho) by lra. rewrite (E1 H). subst rho'. reflexivity.
Qed.
Print Assumptions C160_unique.

(** A right triangle with a point inside: the hypotheses hold, so with every routine and
    loop the circle is returned, and it is at most as large as the disc over the longest
    side. *)
Example C160_case : forall qhull numba, Qhull qhull -> exists c rho, circle_array qhull numba [(0, 0); (4, 0); (0, 3); (1, 1)] = Some (Ok (c, rho)) /\ (rho <= 5 / 2)%R.
Proof.
  intros qhull numba QH. set (pts := [(0, 0); (4, 0); (0, 3); (1, 1)] : list pt).
  assert (NS : ~ Straight pts). { intro X. specialize (X (0, 0) (4, 0) (0, 3) ltac:(cbn; auto) ltac:(cbn; auto) ltac:(cbn; auto)). discriminate X. }
  assert (MR : map to_r pts = [(0, 0); (4, 0); (0, 3); (1, 1)]%R) by (unfold pts, to_r, Q2R; cbn [map fst snd Qnum Qden]; repeat f_equal; lra).
  assert (WA : WideAngles (map to_r pts)).
  { rewrite MR. apply wide_check. intros p q s P Q0 S0 PQ QS PS. cbn [In] in P, Q0, S0.
    assert (K : forall t d : R, (1 <= t \/ t <= -1)%R -> (-90000 < d < 90000)%R -> (t <> 0 /\ -90000 * Rabs t < d < 90000 * Rabs t)%R).
    { intros t d [T|T] D0; split; try lra; unfold Rabs; destruct Rcase_abs; lra. }
    repeat (destruct P as [P|P]; [subst p|]); try contradiction;
    repeat (destruct Q0 as [Q0|Q0]; [subst q|]); try contradiction;
    repeat (destruct S0 as [S0|S0]; [subst s|]); try contradiction; try congruence;
    apply K; unfold turn, dot; cbn [fst snd]; lra. }
  destruct (C160_minimum qhull numba pts QH NS) as (c & rho & E & [_ MN]).
  - intros p q r a P Q0 R0 _ _ _ N1 N2 N3 IA. apply (WA (to_r p) (to_r q) (to_r r) a); auto using in_map.
  - exists c, rho. split; [exact E|]. apply (MN (2, 3 / 2)%R (5 / 2)%R). rewrite MR. intros p P. rewrite Circle_proofs.rdist_sq. replace (5 / 2)%R with (sqrt (25 / 4)) by (replace (25 / 4)%R with (5 / 2 * (5 / 2))%R by field; apply sqrt_square; lra).
    apply sqrt_le_1_alt. unfold sq. destruct P as [<-|[<-|[<-|[<-|[]]]]]; cbn [fst snd]; lra.
Qed.
