(** Theorems about minimum_bounding_circle for GeoPandas objects: the returned polygon. *)
From Coq Require Import ZArith Reals Ratan List Bool Arith Lia Lra.
From Flocq Require Import Core.
From Verif Require Import Base CenterR_model CenterR_spec Circle_geom Circle_model Circle_spec Circle_proofs Circle_props GeoCenter_model GeoCenter_props.
Import ListNotations.
Local Open Scope R_scope.

Lemma pair_eq : forall p q : rpt, fst p = fst q -> snd p = snd q -> p = q.
Proof. intros [a b] [c d]. cbn. congruence. Qed.
Lemma sum_sq_zero : forall x y, x ^ 2 + y ^ 2 = 0 -> x = 0 /\ y = 0.
Proof. intros x y H. assert (0 <= x ^ 2) by apply pow2_ge_0. assert (0 <= y ^ 2) by apply pow2_ge_0. split; nra. Qed.

(** A disc is strictly convex: the only points of a hull of points of the disc that lie on
    the circle are among these points. *)
Lemma hull_disc : forall l c rho, (forall v, In v l -> sq v c <= rho) -> forall p, InHull l p ->
  sq p c <= rho /\ (sq p c = rho -> In p l).
Proof.
  intros l c rho B p H. induction H as [p P|p q t HP IP HQ IQ T].
  - split; auto.
  - destruct IP as [P1 P2], IQ as [Q1 Q2].
    set (x := ((1 - t) * fst p + t * fst q, (1 - t) * snd p + t * snd q)).
    assert (E : sq x c = (1 - t) * sq p c + t * sq q c - t * (1 - t) * sq p q) by (unfold sq, x; cbn [fst snd]; ring).
    assert (S : 0 <= sq p q) by (unfold sq; assert (0 <= (fst p - fst q) ^ 2) by apply pow2_ge_0; assert (0 <= (snd p - snd q) ^ 2) by apply pow2_ge_0; lra).
    assert (M1 : (1 - t) * sq p c <= (1 - t) * rho) by (apply Rmult_le_compat_l; lra).
    assert (M2 : t * sq q c <= t * rho) by (apply Rmult_le_compat_l; lra).
    assert (M3 : 0 <= t * (1 - t) * sq p q) by (apply Rmult_le_pos; [apply Rmult_le_pos; lra|auto]).
    split; [lra|]. intro X. rewrite E in X.
    destruct (Req_dec t 0) as [Z|Z].
    { assert (x = p) as -> by (apply pair_eq; unfold x; cbn [fst snd]; rewrite Z; ring). apply P2. rewrite Z in X. lra. }
    destruct (Req_dec t 1) as [O|O].
    { assert (x = q) as -> by (apply pair_eq; unfold x; cbn [fst snd]; rewrite O; ring). apply Q2. rewrite O in X. lra. }
    assert (T0 : 0 < t * (1 - t)) by (apply Rmult_lt_0_compat; lra).
    assert (Y : sq p q = 0). { assert (t * (1 - t) * sq p q = 0) by lra. apply Rmult_integral in H. destruct H; [lra|auto]. }
    destruct (sum_sq_zero _ _ Y) as [Y1 Y2].
    assert (PQ : p = q) by (apply pair_eq; lra). subst q.
    assert (x = p) as -> by (apply pair_eq; unfold x; cbn [fst snd]; ring). apply P2. lra.
Qed.

Lemma buffer_on_circle : forall c r q v, In v (buffer c r q) -> sq v c = r ^ 2.
Proof.
  intros c r q v H. apply in_map_iff in H. destruct H as [k [<- _]]. unfold buffer_vertex, sq. cbn [fst snd].
  set (a := - (2 * PI * INR k / INR (4 * q))). pose proof (sin2_cos2 a) as S. unfold Rsqr in S.
  replace ((fst c + r * cos a - fst c) ^ 2 + (snd c + r * sin a - snd c) ^ 2) with (r ^ 2 * (sin a * sin a + cos a * cos a)) by ring.
  rewrite S. ring.
Qed.

(** ** C110 *)
(** A point on the circle is covered by the polygon only if it is one of its vertices; nothing
    outside the circle is covered. *)
Theorem C110_touching : forall c r q p, 0 <= r -> InHull (buffer c r q) p ->
  rdist p c <= r /\ (rdist p c = r -> In p (buffer c r q)).
Proof.
  intros c r q p R0 H.
  destruct (hull_disc (buffer c r q) c (r ^ 2) (fun v V => Req_le _ _ (buffer_on_circle c r q v V)) p H) as [A B].
  assert (E : rdist p c = sqrt (sq p c)) by reflexivity. rewrite E. split.
  - rewrite <- (sqrt_pow2 r) by auto. apply sqrt_le_1_alt, A.
  - intro X. apply B. rewrite <- X, pow2_sqrt; [reflexivity|]. unfold sq.
    assert (0 <= (fst p - fst c) ^ 2) by apply pow2_ge_0. assert (0 <= (snd p - snd c) ^ 2) by apply pow2_ge_0. lra.
Qed.
Print Assumptions C110_touching.

(** Powers of complex numbers. *)
Fixpoint cpow (z : R * R) (n : nat) : R * R :=
  match n with
  | O => (1, 0)
  | S n => let w := cpow z n in (fst z * fst w - snd z * snd w, fst z * snd w + snd z * fst w)
  end.
Lemma de_moivre : forall r a n, cpow (r * cos a, r * sin a) n = (r ^ n * cos (INR n * a), r ^ n * sin (INR n * a)).
Proof.
  intros r a. induction n as [|n IH].
  - cbn [cpow pow]. cbn [INR]. rewrite Rmult_0_l, cos_0, sin_0. f_equal; ring.
  - cbn [cpow]. rewrite IH. cbn [fst snd]. rewrite S_INR. replace ((INR n + 1) * a) with (a + INR n * a) by ring.
    rewrite cos_plus, sin_plus. cbn [pow]. f_equal; ring.
Qed.
Fixpoint zpow (z : Z * Z) (n : nat) : Z * Z :=
  match n with
  | O => (1, 0)%Z
  | S n => let w := zpow z n in (fst z * fst w - snd z * snd w, fst z * snd w + snd z * fst w)%Z
  end.
Lemma zpow_cpow : forall a b n, cpow (IZR a, IZR b) n = (IZR (fst (zpow (a, b) n)), IZR (snd (zpow (a, b) n))).
Proof.
  intros a b. induction n as [|n IH]; [reflexivity|]. cbn [cpow zpow]. rewrite IH. cbn [fst snd].
  rewrite minus_IZR, plus_IZR, !mult_IZR. reflexivity.
Qed.
(** 3 + 4i is not 5 times a root of unity: its powers are congruent to 3 + 4i modulo 5. *)
Lemma pow_34 : forall n, exists u v, zpow (3, 4)%Z (S n) = (3 + 5 * u, 4 + 5 * v)%Z.
Proof.
  induction n as [|n [u [v IH]]]; [exists 0%Z, 0%Z; reflexivity|].
  exists (-2 + 3 * u - 4 * v)%Z, (4 + 3 * v + 4 * u)%Z.
  change (zpow (3, 4)%Z (S (S n))) with (let w := zpow (3, 4)%Z (S n) in (3 * fst w - 4 * snd w, 3 * snd w + 4 * fst w)%Z).
  rewrite IH. cbn [fst snd]. f_equal; ring.
Qed.
Lemma not_a_vertex : forall q, (1 <= q)%nat -> ~ In (3, 4) (buffer (0, 0) 5 q).
Proof.
  intros q Q H. apply in_map_iff in H. destruct H as [k [E _]]. unfold buffer_vertex in E. cbn [fst snd] in E.
  set (a := - (2 * PI * INR k / INR (4 * q))) in E. rewrite !Rplus_0_l in E.
  pose proof (de_moivre 5 a (4 * q)) as M. rewrite E in M.
  assert (A : INR (4 * q) * a = - (0 + 2 * INR k * PI)).
  { unfold a. field. apply not_0_INR. lia. }
  rewrite A, sin_neg, sin_period, sin_0 in M. change (3, 4) with (IZR 3, IZR 4) in M. rewrite zpow_cpow in M.
  destruct (4 * q)%nat as [|n] eqn:N; [lia|]. destruct (pow_34 n) as [u [v Z]]. rewrite Z in M. apply (f_equal snd) in M. unfold snd in M.
  assert (X : IZR (4 + 5 * v) = IZR 0) by (rewrite M; ring). apply eq_IZR in X. lia.
Qed.

(** Three points on the circle of radius 5 around the origin: whatever the number of segments,
    the polygon returned for them does not cover the first one. *)
Definition three : list rpt := [(3, 4); (3, -4); (-5, 0)].
Lemma three_minimum : forall c r, MinimumCircle c r three -> c = (0, 0) /\ r = 5.
Proof.
  intros c r [M1 M2].
  assert (S5 : sqrt 25 = 5) by (replace 25 with (5 * 5) by ring; apply sqrt_square; lra).
  assert (EN : Encloses (0, 0) 5 three).
  { intros p P. unfold rdist. rewrite <- S5. apply sqrt_le_1_alt. cbn in P. destruct P as [<-|[<-|[<-|[]]]]; cbn [fst snd]; lra. }
  destruct (M2 _ _ EN) as [L1 L2].
  assert (R0 : 0 <= r) by (pose proof (M1 (3, 4) ltac:(cbn; auto)) as D; assert (0 <= rdist (3, 4) c) by apply sqrt_pos; lra).
  pose proof (M1 (3, 4) ltac:(cbn; auto)) as D1. pose proof (M1 (3, -4) ltac:(cbn; auto)) as D2. pose proof (M1 (-5, 0) ltac:(cbn; auto)) as D3.
  rewrite rdist_le in D1, D2, D3 by auto. unfold sq in D1, D2, D3. cbn [fst snd] in D1, D2, D3.
  assert (r = 5). { assert (0 <= fst c ^ 2) by apply pow2_ge_0. assert (0 <= snd c ^ 2) by apply pow2_ge_0. nra. }
  split; [symmetry; apply L2; lra|auto].
Qed.
Lemma three_circle : forall numba gs, Layer gs three -> minimum_bounding_circle numba (fun l => l) (get_coordinates gs) = Some (Ok ((0, 0), 5)).
Proof.
  intros numba gs LY. rewrite (layer_coords _ _ _ LY).
  destruct (C86_minimum numba (fun l => l) three) as (c & r & E & M).
  - unfold three. repeat constructor; cbn; intro H; repeat (destruct H as [H|H]; [injection H; lra|]); auto.
  - cbn. lia.
  - left. intros i j k I J K. cbn [three length] in K.
    destruct i as [|[|i]]; destruct j as [|[|[|j]]]; destruct k as [|[|[|k]]]; try lia;
      unfold at_, three, turn; cbn [nth fst snd]; lra.
  - apply wide_check. intros p q s P Q S PQ QS PS. unfold three in P, Q, S. cbn [In] in P, Q, S.
    assert (K : forall t d : R, t = 64 \/ t = -64 -> -100 < d < 100 -> t <> 0 /\ -90000 * Rabs t < d < 90000 * Rabs t).
    { intros t d [-> | ->] D; split; try lra; unfold Rabs; destruct Rcase_abs; lra. }
    repeat (destruct P as [P|P]; [subst p|]); try contradiction;
    repeat (destruct Q as [Q|Q]; [subst q|]); try contradiction;
    repeat (destruct S as [S|S]; [subst s|]); try contradiction; try congruence;
    apply K; unfold turn, dot; cbn [fst snd]; lra.
  - intros p P. apply hull_vertex, P.
  - auto.
  - destruct (three_minimum c r M) as [-> ->]. exact E.
Qed.
Theorem C110_not_covered_refuted : forall numba q gs, (1 <= q)%nat -> Layer gs three ->
  exists poly, minimum_bounding_circle_geo numba (fun l => l) q gs = Some (Ok poly) /\ length poly = (4 * q)%nat /\
    In (3, 4) (get_coordinates gs) /\ ~ InHull poly (3, 4).
Proof.
  intros numba q gs Q LY. exists (buffer (0, 0) 5 q). unfold minimum_bounding_circle_geo. rewrite three_circle by auto.
  split; [reflexivity|]. split; [unfold buffer; rewrite map_length, seq_length; reflexivity|].
  split; [rewrite (layer_coords _ _ _ LY); cbn; auto|]. intro H.
  destruct (C110_touching (0, 0) 5 q (3, 4) ltac:(lra) H) as [_ X]. apply (not_a_vertex q Q), X.
  unfold rdist. cbn [fst snd]. replace ((3 - 0) ^ 2 + (4 - 0) ^ 2) with (5 * 5) by ring. apply sqrt_square. lra.
Qed.
Print Assumptions C110_not_covered_refuted.

(** The polygon covers the disc of radius [r * cos (pi / (4 * q))]. *)
Lemma vertex_in : forall c r q k, (1 <= q)%nat -> (k <= 4 * q)%nat -> InHull (buffer c r q) (buffer_vertex c r q k).
Proof.
  intros c r q k Q K. apply hull_vertex. destruct (Nat.eq_dec k (4 * q)) as [E|E].
  - apply in_map_iff. exists 0%nat. split; [|apply in_seq; lia]. unfold buffer_vertex. subst k.
    assert (N : INR (4 * q) <> 0) by (apply not_0_INR; lia).
    replace (- (2 * PI * INR (4 * q) / INR (4 * q))) with (- (0 + 2 * INR 1 * PI)) by (cbn [INR]; field; auto).
    replace (- (2 * PI * INR 0 / INR (4 * q))) with (- 0) by (cbn [INR]; field; auto).
    rewrite !cos_neg, !sin_neg, cos_period, sin_period. reflexivity.
  - apply in_map_iff. exists k. split; [reflexivity|apply in_seq; lia].
Qed.
Lemma center_in : forall c r q, (1 <= q)%nat -> InHull (buffer c r q) c.
Proof.
  intros c r q Q. assert (N : INR (4 * q) <> 0) by (apply not_0_INR; lia).
  pose proof (hull_segment (buffer c r q) _ _ (1 / 2) (vertex_in c r q 0 Q ltac:(lia)) (vertex_in c r q (2 * q) Q ltac:(lia)) ltac:(lra)) as H.
  match type of H with InHull _ ?x => assert (E : x = c) end; [|rewrite E in H; exact H].
  unfold buffer_vertex. cbn [fst snd].
  replace (- (2 * PI * INR (2 * q) / INR (4 * q))) with (- PI) by (rewrite !mult_INR in *; cbn [INR] in *; field; lra).
  replace (- (2 * PI * INR 0 / INR (4 * q))) with (- 0) by (cbn [INR]; field; auto).
  rewrite !cos_neg, !sin_neg, cos_PI, sin_PI, cos_0, sin_0. apply pair_eq; cbn [fst snd]; field.
Qed.
Lemma triangle_in : forall l c v w al be, InHull l c -> InHull l v -> InHull l w -> 0 <= al -> 0 <= be -> al + be <= 1 ->
  InHull l (fst c + al * (fst v - fst c) + be * (fst w - fst c), snd c + al * (snd v - snd c) + be * (snd w - snd c)).
Proof.
  intros l c v w al be C V W A B S. destruct (Req_dec (al + be) 0) as [Z|Z].
  - assert (al = 0) by lra. assert (be = 0) by lra. subst. destruct c as [cx cy]. cbn [fst snd].
    replace (cx + 0 * _ + 0 * _) with cx by ring. replace (cy + 0 * _ + 0 * _) with cy by ring. exact C.
  - assert (T : 0 <= be / (al + be) <= 1).
    { split; [apply Rmult_le_pos; [auto|left; apply Rinv_0_lt_compat; lra]|]. apply (Rmult_le_reg_r (al + be)); [lra|]. unfold Rdiv. rewrite Rmult_assoc, Rinv_l by auto. lra. }
    pose proof (hull_segment l _ _ _ V W T) as H1. pose proof (hull_segment l _ _ (al + be) C H1 ltac:(lra)) as H2. cbn [fst snd] in H2.
    match type of H2 with InHull _ ?x => match goal with |- InHull _ ?y => replace y with x; [exact H2|] end end.
    apply pair_eq; cbn [fst snd]; field; auto.
Qed.
(** Polar coordinates, clockwise. *)
Lemma polar : forall x y, exists rho phi, 0 <= rho /\ rho ^ 2 = x ^ 2 + y ^ 2 /\ 0 <= phi <= 2 * PI /\ x = rho * cos phi /\ y = - (rho * sin phi).
Proof.
  intros x y. set (rho := sqrt (x ^ 2 + y ^ 2)).
  assert (P : 0 <= x ^ 2 + y ^ 2) by (assert (0 <= x ^ 2) by apply pow2_ge_0; assert (0 <= y ^ 2) by apply pow2_ge_0; lra).
  assert (S : rho ^ 2 = x ^ 2 + y ^ 2) by (apply pow2_sqrt, P). assert (R0 : 0 <= rho) by apply sqrt_pos.
  pose proof PI_RGT_0 as PP. destruct (Req_dec rho 0) as [Z|Z].
  - exists 0, 0. rewrite Z in S. assert (x ^ 2 + y ^ 2 = 0) by lra. destruct (sum_sq_zero x y H) as [-> ->]. split; [lra|]. split; [ring|]. split; [lra|]. split; ring.
  - assert (RP : 0 < rho) by lra. assert (B : -1 <= x / rho <= 1).
    { split; apply (Rmult_le_reg_r rho); auto; unfold Rdiv; rewrite Rmult_assoc, Rinv_l by auto; nra. }
    assert (C : rho * cos (acos (x / rho)) = x) by (rewrite cos_acos by auto; field; auto).
    assert (SN : rho * sin (acos (x / rho)) = Rabs y).
    { rewrite sin_acos by auto. rewrite <- (sqrt_Rsqr rho) at 1 by auto. rewrite <- sqrt_mult_alt by apply Rle_0_sqr.
      rewrite <- sqrt_Rsqr_abs. f_equal. unfold Rsqr. replace (rho * rho * (1 - x / rho * (x / rho))) with (rho ^ 2 - x ^ 2) by (field; auto). rewrite S. ring. }
    pose proof (acos_bound (x / rho)) as AB. exists rho.
    destruct (Rle_dec y 0) as [Y|Y].
    + exists (acos (x / rho)). rewrite C, SN, Rabs_left1 by auto. repeat split; auto; lra.
    + exists (2 * PI - acos (x / rho)). assert (E : 2 * PI - acos (x / rho) = - acos (x / rho) + 2 * INR 1 * PI) by (cbn [INR]; ring).
      rewrite E, cos_period, sin_period, cos_neg, sin_neg, C. rewrite <- E. repeat split; auto; try lra.
      replace (- (rho * - sin (acos (x / rho)))) with (rho * sin (acos (x / rho))) by ring. rewrite SN, Rabs_right; lra.
Qed.

Theorem C110_covered : forall c r q p, (1 <= q)%nat -> 0 < r -> rdist p c <= r * cos (PI / INR (4 * q)) -> InHull (buffer c r q) p.
Proof.
  intros c r q p Q R0 D. pose proof PI_RGT_0 as PP.
  assert (N4 : 4 <= INR (4 * q)) by (rewrite mult_INR; change (INR 4) with (2 * 2) || idtac; assert (1 <= INR q) by (change 1 with (INR 1); apply le_INR; auto); cbn [INR]; lra).
  set (n := INR (4 * q)) in *. set (dl := 2 * PI / n).
  assert (DP : 0 < dl) by (unfold dl; apply Rdiv_lt_0_compat; lra).
  assert (DU : dl <= PI / 2).
  { unfold dl. apply (Rmult_le_reg_r n); [lra|]. unfold Rdiv at 1. rewrite Rmult_assoc, Rinv_l by lra. nra. }
  destruct (polar (fst p - fst c) (snd p - snd c)) as [rho [phi [RH [RS [PH [PX PY]]]]]].
  assert (RD : rdist p c = rho) by (unfold rdist; rewrite <- RS; apply sqrt_pow2; auto).
  rewrite RD in D.
  (* the sector of the point *)
  set (z := Zfloor (phi / dl)).
  assert (ZB : IZR z * dl <= phi <= (IZR z + 1) * dl).
  { pose proof (Zfloor_lb (phi / dl)) as L. pose proof (Zfloor_ub (phi / dl)) as U. fold z in L, U.
    assert (E : phi = phi / dl * dl) by (field; lra). split.
    - rewrite E. apply Rmult_le_compat_r; lra.
    - rewrite E at 1. apply Rmult_le_compat_r; lra. }
  assert (K : exists k, (k < 4 * q)%nat /\ INR k * dl <= phi <= (INR k + 1) * dl).
  { assert (Z0 : (0 <= z)%Z). { apply Zfloor_lub. cbn. apply Rmult_le_pos; [lra|left; apply Rinv_0_lt_compat; auto]. }
    destruct (Z_lt_le_dec z (Z.of_nat (4 * q))) as [L|L].
    - exists (Z.to_nat z). split; [lia|]. rewrite INR_IZR_INZ, Z2Nat.id by auto. exact ZB.
    - exists (4 * q - 1)%nat. split; [lia|]. rewrite minus_INR by lia. fold n. cbn [INR].
      assert (E : n * dl = 2 * PI) by (unfold dl; field; lra).
      assert (LN : n <= IZR z) by (unfold n; rewrite INR_IZR_INZ; apply IZR_le; auto).
      assert (n * dl <= IZR z * dl) by (apply Rmult_le_compat_r; lra). split; nra. }
  destruct K as [k [KL [KA KB]]].
  set (A := INR k * dl) in *. set (B := (INR k + 1) * dl) in *.
  assert (BA : B = A + dl) by (unfold A, B; ring).
  assert (VK : buffer_vertex c r q k = (fst c + r * cos A, snd c - r * sin A)).
  { unfold buffer_vertex. fold n. replace (2 * PI * INR k / n) with A by (unfold A, dl; field; lra). rewrite cos_neg, sin_neg. apply pair_eq; cbn [fst snd]; ring. }
  assert (VS : buffer_vertex c r q (S k) = (fst c + r * cos B, snd c - r * sin B)).
  { unfold buffer_vertex. fold n. rewrite S_INR. replace (2 * PI * (INR k + 1) / n) with B by (unfold B, dl; field; lra). rewrite cos_neg, sin_neg. apply pair_eq; cbn [fst snd]; ring. }
  assert (SD : 0 < sin dl) by (apply sin_gt_0; lra).
  set (al := rho * sin (B - phi) / (r * sin dl)). set (be := rho * sin (phi - A) / (r * sin dl)).
  assert (RSD : 0 < r * sin dl) by (apply Rmult_lt_0_compat; auto).
  assert (A0 : 0 <= al). { apply Rmult_le_pos; [apply Rmult_le_pos; [auto|apply sin_ge_0; lra]|left; apply Rinv_0_lt_compat; auto]. }
  assert (B0 : 0 <= be). { apply Rmult_le_pos; [apply Rmult_le_pos; [auto|apply sin_ge_0; lra]|left; apply Rinv_0_lt_compat; auto]. }
  assert (H2 : PI / n = dl / 2) by (unfold dl; field; lra). rewrite H2 in D.
  assert (CH : 0 < cos (dl / 2)) by (apply cos_gt_0; lra).
  assert (SH : 0 < sin (dl / 2)) by (apply sin_gt_0; lra).
  assert (SS : sin (B - phi) + sin (phi - A) = 2 * sin (dl / 2) * cos ((A + B) / 2 - phi)).
  { replace (B - phi) with (dl / 2 + ((A + B) / 2 - phi)) by (rewrite BA; field).
    replace (phi - A) with (dl / 2 - ((A + B) / 2 - phi)) by (rewrite BA; field). rewrite (sin_plus (dl / 2)), (sin_minus (dl / 2)). ring. }
  assert (DD : sin dl = 2 * sin (dl / 2) * cos (dl / 2)) by (rewrite <- sin_2a; f_equal; field).
  assert (AB : al + be <= 1).
  { assert (E : al + be = rho * (sin (B - phi) + sin (phi - A)) / (r * sin dl)) by (unfold al, be; field; split; lra).
    rewrite E, SS, DD.
    replace (rho * (2 * sin (dl / 2) * cos ((A + B) / 2 - phi)) / (r * (2 * sin (dl / 2) * cos (dl / 2))))
      with (rho * cos ((A + B) / 2 - phi) / (r * cos (dl / 2))) by (field; repeat split; lra).
    assert (RC : 0 < r * cos (dl / 2)) by (apply Rmult_lt_0_compat; auto).
    apply (Rmult_le_reg_r (r * cos (dl / 2))); [auto|]. unfold Rdiv. rewrite Rmult_assoc, Rinv_l by lra.
    pose proof (COS_bound ((A + B) / 2 - phi)) as [_ CB]. assert (rho * cos ((A + B) / 2 - phi) <= rho * 1) by (apply Rmult_le_compat_l; auto). lra. }
  pose proof (triangle_in _ c _ _ al be (center_in c r q Q) (vertex_in c r q k Q ltac:(lia)) (vertex_in c r q (S k) Q ltac:(lia)) A0 B0 AB) as H.
  rewrite VK, VS in H. cbn [fst snd] in H.
  match type of H with InHull _ ?x => assert (E : x = p) end; [|rewrite E in H; exact H].
  assert (SBA : sin dl = sin B * cos A - cos B * sin A) by (rewrite <- sin_minus; f_equal; lra).
  assert (PX' : fst p = fst c + rho * cos phi) by lra. assert (PY' : snd p = snd c - rho * sin phi) by lra.
  apply pair_eq; cbn [fst snd].
  - rewrite PX'. unfold al, be. rewrite (sin_minus B phi), (sin_minus phi A), SBA. field. rewrite <- SBA. split; lra.
  - rewrite PY'. unfold al, be. rewrite (sin_minus B phi), (sin_minus phi A), SBA. field. rewrite <- SBA. split; lra.
Qed.
Print Assumptions C110_covered.
(** Hence a radius larger by the factor [1 / cos (pi / (4 * q))] covers every point that the
    circle encloses. *)
Theorem C110_scaled : forall c r q l, (1 <= q)%nat -> 0 < r -> Encloses c r l ->
  forall p, In p l -> InHull (buffer c (r / cos (PI / INR (4 * q))) q) p.
Proof.
  intros c r q l Q R0 EN p P. pose proof PI_RGT_0 as PP.
  assert (N4 : 4 <= INR (4 * q)) by (rewrite mult_INR; assert (1 <= INR q) by (change 1 with (INR 1); apply le_INR; auto); cbn [INR]; lra).
  assert (B : 0 < PI / INR (4 * q) < PI / 2).
  { split; [apply Rdiv_lt_0_compat; lra|]. apply (Rmult_lt_reg_r (INR (4 * q))); [lra|]. unfold Rdiv at 1. rewrite Rmult_assoc, Rinv_l by lra. nra. }
  assert (CH : 0 < cos (PI / INR (4 * q))) by (apply cos_gt_0; lra).
  apply C110_covered; [auto|apply Rdiv_lt_0_compat; auto|].
  replace (r / cos (PI / INR (4 * q)) * cos (PI / INR (4 * q))) with r by (field; lra). apply EN, P.
Qed.
Print Assumptions C110_scaled.
(** The default of 16 segments per quadrant, with a missing row: 64 vertices, the first point is not covered,
    the centre is. *)
Example C110_case : exists poly, minimum_bounding_circle_geo true (fun l => l) 16
    [Some (GPoint (Some (3, 4))); None; Some (GPoint (Some (3, -4))); Some (GPoint (Some (-5, 0)))] = Some (Ok poly) /\
  length poly = 64%nat /\ ~ InHull poly (3, 4) /\ InHull (buffer (0, 0) 5 16) (0, 0).
Proof.
  destruct (C110_not_covered_refuted true 16 [Some (GPoint (Some (3, 4))); None; Some (GPoint (Some (3, -4))); Some (GPoint (Some (-5, 0)))]) as [poly [E [L [_ N]]]]; [lia|repeat constructor|].
  exists poly. repeat split; auto. apply center_in. lia.
Qed.
