(** Theorems about minimum_rotated_rectangle. *)
From Coq Require Import Reals Ratan List Bool ZArith Lra Lia Psatz.
From Flocq Require Import Core.
From Verif Require Import Base Float_model Float_proofs Rectangle_model.
Import ListNotations.
Local Open Scope R_scope.

(** The vector (vx, vy) points in direction [a] (radians). *)
Definition Dir (vx vy a : R) : Prop := exists l, 0 < l /\ vx = l * cos a /\ vy = l * sin a.
(** Corners of a rectangle in order, either orientation. *)
Definition Rect (p0 p1 p2 p3 : rpoint) : Prop :=
  fst p1 - fst p0 = fst p2 - fst p3 /\ snd p1 - snd p0 = snd p2 - snd p3 /\
  (fst p1 - fst p0) * (fst p2 - fst p1) + (snd p1 - snd p0) * (snd p2 - snd p1) = 0 /\
  p0 <> p1 /\ p1 <> p2.

Lemma dir_exists : forall vx vy, (vx <> 0 \/ vy <> 0) -> Dir vx vy (atan2 vy vx).
Proof.
  intros vx vy N. unfold atan2, Dir.
  assert (G : forall c s t, 0 < c -> s = t * c -> forall w, 0 < w -> exists l, 0 < l /\ w = l * c /\ t * w = l * s).
  { intros c s t C S w W. exists (w / c). split; [apply Rdiv_lt_0_compat; auto|]. subst s. split; field; lra. }
  assert (T : forall t, 0 < cos (atan t) /\ sin (atan t) = t * cos (atan t)).
  { intro t. assert (C : 0 < cos (atan t)) by (pose proof (atan_bound t); apply cos_gt_0; lra). split; auto.
    pose proof (tan_atan t) as H. unfold tan in H. rewrite <- H at 2. field. lra. }
  destruct (Rlt_dec 0 vx) as [P|P].
  - destruct (T (vy / vx)) as [C S]. destruct (G _ _ _ C S vx P) as [l [L [E1 E2]]]. exists l. split; auto. split; auto.
    rewrite <- E2. field. lra.
  - destruct (Rlt_dec vx 0) as [Q|Q].
    + destruct (T (vy / vx)) as [C S]. destruct (G _ _ _ C S (- vx) ltac:(lra)) as [l [L [E1 E2]]].
      assert (E3 : vy / vx * - vx = - vy) by (field; lra). rewrite E3 in E2.
      destruct (Rlt_dec vy 0) as [Y|Y]; exists l; (split; [auto|]).
      * rewrite cos_minus, sin_minus, cos_PI, sin_PI. lra.
      * rewrite neg_cos, neg_sin. lra.
    + assert (vx = 0) by lra. subst vx. destruct N as [N|N]; [lra|]. destruct (Rlt_dec 0 vy) as [Y|Y].
      * exists vy. rewrite cos_PI2, sin_PI2. lra.
      * destruct (Rlt_dec vy 0) as [Y'|Y']; [|lra]. exists (- vy). rewrite cos_neg, sin_neg, cos_PI2, sin_PI2. lra.
Qed.
Lemma dir_unique : forall vx vy a b, Dir vx vy a -> Dir vx vy b -> exists k : Z, a - b = IZR k * PI.
Proof.
  intros vx vy a b [l [L [A1 A2]]] [m [M [B1 B2]]]. apply sin_eq_0_0. rewrite sin_minus.
  apply (Rmult_eq_reg_l (l * m)); [|nra]. rewrite Rmult_0_r.
  replace (l * m * (sin a * cos b - cos a * sin b)) with ((l * sin a) * (m * cos b) - (l * cos a) * (m * sin b)) by ring.
  rewrite <- A1, <- A2, <- B1, <- B2. ring.
Qed.
Lemma dir_perp : forall vx vy a c, Dir vx vy a -> 0 < c -> Dir (- c * vy) (c * vx) (a + PI / 2).
Proof.
  intros vx vy a c [l [L [A1 A2]]] C. exists (c * l). split; [nra|]. rewrite cos_plus, sin_plus, cos_PI2, sin_PI2. subst. split; ring.
Qed.
Lemma dir_neg : forall vx vy a c, Dir vx vy a -> 0 < c -> Dir (- c * vx) (- c * vy) (a + PI).
Proof.
  intros vx vy a c [l [L [A1 A2]]] C. exists (c * l). split; [nra|]. rewrite neg_cos, neg_sin. subst. split; ring.
Qed.

Lemma rmod_range : forall a, 0 <= rmod a 90 < 90.
Proof.
  intros a. unfold rmod. pose proof (Zfloor_lb (a / 90)). pose proof (Zfloor_ub (a / 90)).
  assert (E : a = a / 90 * 90) by field. set (q := a / 90) in *. rewrite E. lra.
Qed.
Lemma rmod_shift : forall a k, rmod (a + 90 * IZR k) 90 = rmod a 90.
Proof.
  intros a k. unfold rmod. replace ((a + 90 * IZR k) / 90) with (a / 90 + IZR k) by field.
  assert (F : Zfloor (a / 90 + IZR k) = (Zfloor (a / 90) + k)%Z).
  { apply Zfloor_imp. rewrite !plus_IZR. pose proof (Zfloor_lb (a / 90)). pose proof (Zfloor_ub (a / 90)). lra. }
  rewrite F, plus_IZR. ring.
Qed.
(** Directions that differ by a multiple of a right angle give the same angle. *)
Lemma same_mod : forall a b k, a - b = IZR k * (PI / 2) -> rmod (degrees a) 90 = rmod (degrees b) 90.
Proof.
  intros a b k H. assert (E : degrees a = degrees b + 90 * IZR k).
  { unfold degrees. replace a with (b + IZR k * (PI / 2)) by lra. field. apply PI_neq0. }
  rewrite E. apply rmod_shift.
Qed.
Lemma mod_dir : forall vx vy a, Dir vx vy a -> rmod (degrees (atan2 vy vx)) 90 = rmod (degrees a) 90.
Proof.
  intros vx vy a D. assert (N : vx <> 0 \/ vy <> 0).
  { destruct D as [l [L [-> ->]]]. destruct (Req_dec (cos a) 0) as [C|C]; [right|left]; [|intro E; apply Rmult_integral in E; lra].
    intro E. apply Rmult_integral in E. destruct E as [E|E]; [lra|]. pose proof (sin2_cos2 a) as S. unfold Rsqr in S. rewrite C, E in S. lra. }
  destruct (dir_unique _ _ _ _ (dir_exists _ _ N) D) as [k H]. apply (same_mod _ _ (2 * k)%Z). rewrite mult_IZR. lra.
Qed.
Lemma rect_edges : forall p0 p1 p2 p3, Rect p0 p1 p2 p3 ->
  let vx := fst p1 - fst p0 in let vy := snd p1 - snd p0 in
  (vx <> 0 \/ vy <> 0) /\
  exists c, c <> 0 /\ fst p2 - fst p1 = - c * vy /\ snd p2 - snd p1 = c * vx.
Proof.
  intros [x0 y0] [x1 y1] [x2 y2] [x3 y3] [H1 [H2 [H3 [H4 H5]]]]. cbn [fst snd] in *.
  assert (N : x1 - x0 <> 0 \/ y1 - y0 <> 0).
  { destruct (Req_dec (x1 - x0) 0); [|auto]. right. intro. apply H4. f_equal; lra. }
  split; auto. set (vx := x1 - x0) in *. set (vy := y1 - y0) in *. set (wx := x2 - x1) in *. set (wy := y2 - y1) in *.
  assert (W : wx <> 0 \/ wy <> 0).
  { destruct (Req_dec wx 0) as [E|]; [|auto]. right. intro. apply H5. unfold wx, wy in *. f_equal; lra. }
  assert (S : 0 < vx * vx + vy * vy) by (destruct N; nra).
  exists ((vx * wy - vy * wx) / (vx * vx + vy * vy)).
  assert (P : vx * wx = - (vy * wy)) by lra.
  assert (E1 : wx = - ((vx * wy - vy * wx) / (vx * vx + vy * vy)) * vy).
  { apply (Rmult_eq_reg_l (vx * vx + vy * vy)); [|lra].
    transitivity (vx * (vx * wx) + vy * vy * wx); [ring|]. rewrite P. field. lra. }
  assert (E2 : wy = (vx * wy - vy * wx) / (vx * vx + vy * vy) * vx).
  { apply (Rmult_eq_reg_l (vx * vx + vy * vy)); [|lra].
    transitivity (vx * vx * wy - vy * (- (vy * wy))); [ring|]. rewrite <- P. field. lra. }
  split; [|auto]. intro Z. rewrite Z in E1, E2. destruct W; lra.
Qed.

(** ** C24 *)
(** The angle is in [0, 90) and the first edge points that way up to right angles;
    no other number in [0, 90) has this property. *)
Theorem C24_angle : forall p0 p1 p2 p3, Rect p0 p1 p2 p3 ->
  exists th, mrr_angle [p0; p1; p2; p3] = Ok th /\ 0 <= th < 90 /\
    (exists k : Z, Dir (fst p1 - fst p0) (snd p1 - snd p0) ((th + 90 * IZR k) * PI / 180)) /\
    (forall th' k', 0 <= th' < 90 -> Dir (fst p1 - fst p0) (snd p1 - snd p0) ((th' + 90 * IZR k') * PI / 180) -> th' = th).
Proof.
  intros p0 p1 p2 p3 R. destruct (rect_edges _ _ _ _ R) as [N _].
  pose proof (dir_exists _ _ N) as D. cbn [mrr_angle]. eexists. split; [reflexivity|].
  set (a := atan2 (snd p1 - snd p0) (fst p1 - fst p0)) in *. split; [apply rmod_range|]. split.
  - exists (Zfloor (degrees a / 90)). replace ((rmod (degrees a) 90 + 90 * IZR (Zfloor (degrees a / 90))) * PI / 180) with a; auto.
    unfold rmod, degrees. field. apply PI_neq0.
  - intros th' k' B D'. apply mod_dir in D'. fold a in D'. rewrite D'.
    assert (E : degrees ((th' + 90 * IZR k') * PI / 180) = th' + 90 * IZR k') by (unfold degrees; field; apply PI_neq0).
    rewrite E, rmod_shift. unfold rmod. replace (Zfloor (th' / 90)) with 0%Z; [lra|]. symmetry. apply Zfloor_imp. cbn. split.
    + apply Rmult_le_reg_r with 90; [lra|]. unfold Rdiv. rewrite Rmult_assoc, Rinv_l, Rmult_1_r; lra.
    + apply Rmult_lt_reg_r with 90; [lra|]. unfold Rdiv. rewrite Rmult_assoc, Rinv_l, Rmult_1_r; lra.
Qed.
Print Assumptions C24_angle.

Lemma rect_next : forall p0 p1 p2 p3, Rect p0 p1 p2 p3 -> Rect p1 p2 p3 p0.
Proof.
  intros [x0 y0] [x1 y1] [x2 y2] [x3 y3] R. pose proof R as [H1 [H2 [H3 [H4 H5]]]]. unfold Rect in *. cbn [fst snd] in *.
  split; [lra|]. split; [lra|]. split; [nra|]. split; auto. intro E. apply H4. injection E as E1 E2. f_equal; lra.
Qed.
Lemma rect_rev : forall p0 p1 p2 p3, Rect p0 p1 p2 p3 -> Rect p3 p2 p1 p0.
Proof.
  intros [x0 y0] [x1 y1] [x2 y2] [x3 y3] R. pose proof R as [H1 [H2 [H3 [H4 H5]]]]. unfold Rect in *. cbn [fst snd] in *.
  split; [lra|]. split; [lra|]. split; [nra|]. split; intro E; [apply H4|apply H5]; injection E as E1 E2; f_equal; lra.
Qed.
Lemma angle_next : forall p0 p1 p2 p3, Rect p0 p1 p2 p3 -> mrr_angle [p1; p2; p3; p0] = mrr_angle [p0; p1; p2; p3].
Proof.
  intros p0 p1 p2 p3 R. destruct (rect_edges _ _ _ _ R) as [N [c [C [E1 E2]]]]. pose proof (dir_exists _ _ N) as D.
  cbn [mrr_angle]. f_equal. rewrite E1, E2. set (vx := fst p1 - fst p0) in *. set (vy := snd p1 - snd p0) in *.
  set (a := atan2 vy vx) in *.
  destruct (Rlt_dec 0 c) as [P|P].
  - pose proof (dir_perp _ _ _ c D P) as D'. rewrite (mod_dir _ _ _ D'). apply (same_mod _ _ 1). cbn. lra.
  - pose proof (dir_perp _ _ _ 1 D ltac:(lra)) as D1. pose proof (dir_neg _ _ _ (- c) D1 ltac:(lra)) as D2.
    replace (- - c * (- (1) * vy)) with (- c * vy) in D2 by ring. replace (- - c * (1 * vx)) with (c * vx) in D2 by ring.
    rewrite (mod_dir _ _ _ D2). apply (same_mod _ _ 3). cbn. lra.
Qed.
Lemma angle_rev : forall p0 p1 p2 p3, Rect p0 p1 p2 p3 -> mrr_angle [p3; p2; p1; p0] = mrr_angle [p0; p1; p2; p3].
Proof. intros p0 p1 p2 p3 [H1 [H2 _]]. cbn [mrr_angle]. rewrite H1, H2. reflexivity. Qed.

(** Any corner may come first and the ring may run either way. *)
Theorem C24_all_edges : forall p0 p1 p2 p3, Rect p0 p1 p2 p3 ->
  let th := mrr_angle [p0; p1; p2; p3] in
  mrr_angle [p1; p2; p3; p0] = th /\ mrr_angle [p2; p3; p0; p1] = th /\ mrr_angle [p3; p0; p1; p2] = th /\
  mrr_angle [p3; p2; p1; p0] = th /\ mrr_angle [p2; p1; p0; p3] = th /\ mrr_angle [p1; p0; p3; p2] = th /\ mrr_angle [p0; p3; p2; p1] = th.
Proof.
  intros p0 p1 p2 p3 R th. pose proof (rect_next _ _ _ _ R) as R1. pose proof (rect_next _ _ _ _ R1) as R2. pose proof (rect_next _ _ _ _ R2) as R3.
  pose proof (angle_next _ _ _ _ R) as A1. pose proof (angle_next _ _ _ _ R1) as A2. pose proof (angle_next _ _ _ _ R2) as A3.
  rewrite (angle_rev _ _ _ _ R), (angle_rev _ _ _ _ R1), (angle_rev _ _ _ _ R2), (angle_rev _ _ _ _ R3). unfold th. rewrite A3, A2, A1. repeat split.
Qed.
Print Assumptions C24_all_edges.

(** Turning the rectangle by [phi] adds [phi] modulo 90; moving and scaling it change nothing. *)
Definition turned (phi s tx ty : R) (p : rpoint) : rpoint :=
  (s * (cos phi * fst p - sin phi * snd p) + tx, s * (sin phi * fst p + cos phi * snd p) + ty).
Theorem C24_rotation : forall phi s tx ty p0 p1 p2 p3 th, Rect p0 p1 p2 p3 -> 0 < s ->
  mrr_angle [p0; p1; p2; p3] = Ok th ->
  mrr_angle (map (turned phi s tx ty) [p0; p1; p2; p3]) = Ok (rmod (th + degrees phi) 90).
Proof.
  intros phi s tx ty p0 p1 p2 p3 th R S H. destruct (rect_edges _ _ _ _ R) as [N _]. destruct (dir_exists _ _ N) as [l [L [E1 E2]]].
  cbn [mrr_angle map] in *. injection H as <-. f_equal. set (a := atan2 (snd p1 - snd p0) (fst p1 - fst p0)) in *.
  assert (D : Dir (fst (turned phi s tx ty p1) - fst (turned phi s tx ty p0)) (snd (turned phi s tx ty p1) - snd (turned phi s tx ty p0)) (phi + a)).
  { exists (s * l). split; [nra|]. unfold turned. cbn [fst snd]. rewrite cos_plus, sin_plus. split.
    - transitivity (s * (cos phi * (fst p1 - fst p0) - sin phi * (snd p1 - snd p0))); [ring|]. rewrite E1, E2. ring.
    - transitivity (s * (sin phi * (fst p1 - fst p0) + cos phi * (snd p1 - snd p0))); [ring|]. rewrite E1, E2. ring. }
  rewrite (mod_dir _ _ _ D). assert (X : rmod (degrees a) 90 + degrees phi = degrees (phi + a) + 90 * IZR (- Zfloor (degrees a / 90))).
  { unfold rmod. rewrite opp_IZR. unfold degrees. field. apply PI_neq0. }
  rewrite X, rmod_shift. reflexivity.
Qed.
Print Assumptions C24_rotation.

(** The array version lists the four corners (in the opposite order) with that angle. *)
Theorem C24_rectangle : forall p0 p1 p2 p3, Rect p0 p1 p2 p3 ->
  exists th, rotated_rectangle [p0; p1; p2; p3; p0] true = Ok ([p3; p2; p1; p0], Some th) /\
    rotated_rectangle [p0; p1; p2; p3; p0] false = Ok ([p3; p2; p1; p0], None) /\
    rotated_rectangle_geo [p0; p1; p2; p3; p0] true = Ok ([p0; p1; p2; p3; p0], Some th) /\
    mrr_angle [p3; p2; p1; p0] = Ok th /\ mrr_angle [p0; p1; p2; p3] = Ok th.
Proof.
  intros p0 p1 p2 p3 R. destruct (C24_angle _ _ _ _ R) as [th [A _]]. exists th.
  unfold rotated_rectangle, rotated_rectangle_geo. cbn [removelast rev app]. rewrite A, (angle_rev _ _ _ _ R), A. cbn. auto.
Qed.
Print Assumptions C24_rectangle.

(** Collinear points: one end of the segment is dropped and there is no angle;
    a single point: nothing is left. *)
Theorem C24_collinear_refuted : forall a b,
  rotated_rectangle [a; b] false = Ok ([a], None) /\ rotated_rectangle [a; b] true = Raise IndexError /\
  rotated_rectangle [a] false = Ok ([], None) /\ rotated_rectangle [a] true = Raise IndexError.
Proof. intros a b. repeat split. Qed.
Print Assumptions C24_collinear_refuted.

(** In binary64 an angle just below zero is reported as 90. *)
Lemma trunc_mod : forall d, -90 < d < 0 -> d - 90 * IZR (Ztrunc (d / 90)) = d.
Proof.
  intros d B. assert (Z : Ztrunc (d / 90) = 0%Z).
  { rewrite Ztrunc_ceil by lra. apply Zceil_imp. cbn. split; [|lra].
    apply Rmult_lt_reg_r with 90; [lra|]. unfold Rdiv. rewrite Rmult_assoc, Rinv_l, Rmult_1_r; lra. }
  rewrite Z. cbn. lra.
Qed.
Lemma rnd_90 : forall d, - bpow radix2 (-47) < d < 0 -> rnd (d + 90) = 90.
Proof.
  intros d B. unfold rnd. 
  assert (b47 : bpow radix2 (-47) = / 140737488355328) by (cbn; lra).
  unfold round, scaled_mantissa, cexp. rewrite (mag_unique_pos radix2 (d + 90) 7).
  2: { cbn. lra. }
  replace (fexp64 7) with (-46)%Z by reflexivity.
  replace (ZnearestE ((d + 90) * bpow radix2 (- -46))) with (90 * 2 ^ 46)%Z.
  - unfold F2R. cbn [Fnum Fexp]. rewrite mult_IZR. replace (IZR (2 ^ 46)) with (bpow radix2 46) by (cbn; lra).
    rewrite Rmult_assoc, <- bpow_plus. cbn. lra.
  - symmetry. apply Znearest_imp. rewrite mult_IZR. replace (IZR (2 ^ 46)) with 70368744177664 by (cbn; lra).
    replace (bpow radix2 (- -46)) with 70368744177664 by (cbn; lra). apply Rabs_def1; lra.
Qed.
Theorem C24_float_range : forall d, 0 <= mod90_float d <= 90.
Proof.
  intros d. unfold mod90_float. cbv zeta. set (m := d - 90 * IZR (Ztrunc (d / 90))).
  assert (B : -90 < m < 90).
  { assert (E : d = d / 90 * 90) by field. unfold m. set (q := d / 90) in *. rewrite E at 1 2.
    destruct (Rle_dec 0 q) as [P|P].
    - rewrite Ztrunc_floor by auto. pose proof (Zfloor_lb q). pose proof (Zfloor_ub q). lra.
    - rewrite Ztrunc_ceil by lra. pose proof (Zceil_ub q). pose proof (Zceil_lb q). lra. }
  destruct (Rlt_dec m 0); [|lra]. split.
  - apply rnd_nonneg. lra.
  - apply Rle_trans with (rnd 90); [apply rnd_le; lra|]. right. apply rnd_id.
    replace 90 with (IZR 90 * bpow radix2 0) by (cbn; lra). apply float_dyadic; cbn; lia.
Qed.
Print Assumptions C24_float_range.
(** Whatever atan2 and degrees return, up to a factor two, the edge from (0,0) to (1,-2^-60) gets 90. *)
Lemma sin_gt_cos_e : forall e, 0 < e -> e < PI / 2 -> e * cos e < sin e.
Proof.
  intros e E1 E2. pose (f := fun x => sin x - x * cos x).
  assert (D : forall x, derivable_pt_lim f x (x * sin x)).
  { intro x. unfold f. replace (x * sin x) with (cos x - (1 * cos x + x * - sin x)) by ring.
    apply (derivable_pt_lim_minus sin (fun x => x * cos x)); [apply derivable_pt_lim_sin|].
    apply (derivable_pt_lim_mult id cos); [apply derivable_pt_lim_id|apply derivable_pt_lim_cos]. }
  destruct (MVT_cor2 f (fun x => x * sin x) 0 e E1 (fun x _ => D x)) as [c [C1 C2]].
  unfold f in C1. rewrite sin_0 in C1. assert (0 < sin c) by (apply sin_gt_0; lra).
  assert (0 < c * sin c) by (apply Rmult_lt_0_compat; lra). assert (0 < c * sin c * (e - 0)) by (apply Rmult_lt_0_compat; lra). lra.
Qed.
Theorem C24_float_range_refuted : forall d,
  2 * degrees (atan2 (- bpow radix2 (-60)) 1) <= d <= degrees (atan2 (- bpow radix2 (-60)) 1) / 2 -> mod90_float d = 90.
Proof.
  intros d B. assert (A : - bpow radix2 (-60) <= atan2 (- bpow radix2 (-60)) 1 < 0).
  { unfold atan2. destruct (Rlt_dec 0 1) as [|X]; [|lra]. replace (- bpow radix2 (-60) / 1) with (- bpow radix2 (-60)) by field.
    rewrite atan_opp. set (e := bpow radix2 (-60)). assert (E : 0 < e) by apply bpow_gt_0. split.
    - assert (0 < e < PI / 2) as [E1 E2]. { split; auto. pose proof PI2_1. unfold e. cbn. lra. }
      assert (atan e <= e); [|lra]. destruct (Rle_dec (atan e) e) as [|X]; auto. exfalso. apply Rnot_le_lt in X.
      pose proof (atan_bound e) as AB.
      assert (H : tan e < tan (atan e)) by (apply tan_increasing; lra). rewrite tan_atan in H.
      pose proof (cos_gt_0 e ltac:(lra) E2) as C. pose proof (COS_bound e) as CB.
      assert (sin e < e * cos e). { unfold tan in H. apply Rmult_lt_reg_r with (/ cos e); [apply Rinv_0_lt_compat; auto|].
        rewrite Rmult_assoc, Rinv_r, Rmult_1_r by lra. exact H. }
      pose proof (sin_gt_cos_e e E1 E2). lra.
    - assert (atan 0 < atan e) by (apply atan_increasing; auto). rewrite atan_0 in H. lra. }
  assert (D : - bpow radix2 (-48) < d < 0).
  { unfold degrees in B. set (a := atan2 (- bpow radix2 (-60)) 1) in *. pose proof PI2_1 as P2.
    assert (P : 0 < PI) by apply PI_RGT_0. assert (P3 : 2 < PI) by lra.
    assert (I : 0 < / PI < / 2). { split; [apply Rinv_0_lt_compat; auto|]. apply Rinv_lt_contravar; lra. }
    unfold Rdiv in B. set (i := / PI) in *.
    assert (b60 : bpow radix2 (-60) = / 1152921504606846976) by (cbn; lra).
    assert (b48 : bpow radix2 (-48) = / 281474976710656) by (cbn; lra).
    rewrite b48. rewrite b60 in A. assert (- a * i < - a * / 2) by (apply Rmult_lt_compat_l; lra). assert (a * i < 0) by nra. lra. }
  assert (b48 : bpow radix2 (-48) = / 281474976710656) by (cbn; lra).
  assert (b47 : bpow radix2 (-47) = / 140737488355328) by (cbn; lra).
  unfold mod90_float. rewrite trunc_mod by lra. cbv zeta. destruct (Rlt_dec d 0); [|lra]. apply rnd_90. lra.
Qed.
Print Assumptions C24_float_range_refuted.

(** A 4 by 2 rectangle turned by 45 degrees. *)
Example C24_case : Rect (0, 0) (4, 4) (2, 6) (-2, 2) /\ mrr_angle [(0, 0); (4, 4); (2, 6); (-2, 2)] = Ok 45.
Proof.
  split.
  - unfold Rect. cbn [fst snd]. repeat split; try lra; intro E; injection E; intros; lra.
  - cbn [mrr_angle fst snd]. unfold atan2. destruct (Rlt_dec 0 (4 - 0)) as [|X]; [|lra].
    replace ((4 - 0) / (4 - 0)) with 1 by field. rewrite atan_1. unfold degrees.
    replace (PI / 4 * 180 / PI) with 45 by (field; apply PI_neq0). unfold rmod.
    replace (Zfloor (45 / 90)) with 0%Z; [f_equal; lra|]. symmetry. apply Zfloor_imp. cbn. lra.
Qed.
