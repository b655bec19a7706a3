(** Theorems on spread, ellipses, medians and circles in other coordinates. *)
From Coq Require Import Reals Ratan List Bool String Arith Permutation Lra Lia Psatz.
From Verif Require Import Base CenterR_model CenterR_spec CenterR_proofs CenterR_props GeoEllipse_model Median_model Median_props
  Circle_geom Circle_spec Circle_model Circle_props CenterSym_spec.
Import ListNotations.
Local Open Scope R_scope.

(** ** C122 *)
Lemma flip_sq : forall s, flip_sign s * flip_sign s = 1.
Proof. intro s. unfold flip_sign. destruct (s_flip s); lra. Qed.
Lemma similar_dist : forall s p q, rdist (similar s p) (similar s q) = Rabs (s_scale s) * rdist p q.
Proof.
  intros s p q. unfold rdist. rewrite <- (sqrt_Rsqr_abs (s_scale s)), <- sqrt_mult by (try apply Rle_0_sqr; apply sum2_sq_nonneg). f_equal.
  unfold similar, Rsqr. cbn [fst snd]. pose proof (flip_sq s) as F. pose proof (cs1 (s_turn s)) as T. revert F T.
  generalize (flip_sign s), (cos (s_turn s)), (sin (s_turn s)), (s_scale s), (fst (s_shift s)), (snd (s_shift s)).
  intros e c d k u v F T. destruct p as [x y], q as [x' y']. cbn [fst snd].
  transitivity (k * k * (c ^ 2 + d ^ 2) * ((x - x') ^ 2 + (e * e) * (y - y') ^ 2)); [ring|]. rewrite F, T. ring.
Qed.
Lemma similar_onto : forall s q, s_scale s <> 0 -> exists p, similar s p = q.
Proof.
  intros s [x y] K. pose proof (flip_sq s) as F. pose proof (cs1 (s_turn s)) as T.
  set (u := (x - fst (s_shift s)) / s_scale s). set (v := (y - snd (s_shift s)) / s_scale s).
  exists (u * cos (s_turn s) + v * sin (s_turn s), flip_sign s * (v * cos (s_turn s) - u * sin (s_turn s))).
  unfold similar. cbn [fst snd]. rewrite <- Rmult_assoc, F.
  f_equal.
  - replace (s_scale s * _) with (s_scale s * (u * (cos (s_turn s) ^ 2 + sin (s_turn s) ^ 2))) by ring. rewrite T. unfold u. field. exact K.
  - replace (s_scale s * _) with (s_scale s * (v * (cos (s_turn s) ^ 2 + sin (s_turn s) ^ 2))) by ring. rewrite T. unfold v. field. exact K.
Qed.
Lemma mean_of_perm : forall A (f : A -> R) l l', Permutation l l' -> mean_of f l' = mean_of f l.
Proof. intros A f l l' P. unfold mean_of. rewrite (Permutation_length P), (Rsum_perm _ _ (Permutation_map f P)). reflexivity. Qed.
Lemma mean_similar : forall s pts, pts <> [] ->
  (mean_of fst (map (similar s) pts), mean_of snd (map (similar s) pts)) = similar s (mean_of fst pts, mean_of snd pts).
Proof.
  intros s pts N. rewrite !mean_of_map. unfold similar. cbn [fst snd]. f_equal.
  - rewrite (mean_of_shift _ _ _ _ N), mean_of_scale. f_equal. f_equal.
    rewrite (mean_of_ext _ _ (fun p : rpt => cos (s_turn s) * fst p + (- (flip_sign s * sin (s_turn s))) * snd p)) by (intros; ring).
    rewrite mean_of_plus, !mean_of_scale. ring.
  - rewrite (mean_of_shift _ _ _ _ N), mean_of_scale. f_equal. f_equal.
    rewrite (mean_of_ext _ _ (fun p : rpt => sin (s_turn s) * fst p + (flip_sign s * cos (s_turn s)) * snd p)) by (intros; ring).
    rewrite mean_of_plus, !mean_of_scale. ring.
Qed.

(** The standard distance is in the unit of the coordinates and depends neither on the
    direction of the axes nor on the order of the points. *)
Theorem C122_std_distance : forall s pts pts' v, Permutation (map (similar s) pts) pts' ->
  std_distance pts = Some v -> std_distance pts' = Some (Rabs (s_scale s) * v).
Proof.
  intros s pts pts' v P E.
  assert (N : pts <> []) by (intro; subst; discriminate).
  assert (N' : pts' <> []) by (intro X; subst; apply Permutation_sym, Permutation_nil in P; destruct pts; [congruence|discriminate]).
  destruct (C17_std_distance pts N) as (v1 & E1 & V1 & S1 & _). assert (v1 = v) by congruence. subst v1.
  destruct (C17_std_distance pts' N') as (v2 & E2 & V2 & S2 & _). rewrite E2. f_equal.
  rewrite !(mean_of_perm _ _ _ _ P), mean_similar, mean_of_map in S2 by exact N.
  rewrite (mean_of_ext _ _ (fun p => (Rabs (s_scale s)) ^ 2 * rdist p (mean_of fst pts, mean_of snd pts) ^ 2)) in S2
    by (intros; rewrite similar_dist; ring).
  rewrite mean_of_scale, <- S1 in S2.
  apply Rsqr_inj; [exact V2|apply Rmult_le_pos; [apply Rabs_pos|exact V1]|]. unfold Rsqr. nra.
Qed.
Print Assumptions C122_std_distance.

(** ** The ellipse *)
Lemma wmean_similar : forall c s w w' g, c <> 0 -> similar_weighted c s w w' -> Rsum (map fst w) <> 0 ->
  wmean g w' = wmean (fun p => g (similar s p)) w.
Proof.
  intros c s w w' g C P NZ. unfold wmean, similar_weighted in *.
  rewrite <- (Rsum_perm _ _ (Permutation_map fst P)), <- (Rsum_perm _ _ (Permutation_map (fun wp => fst wp * g (snd wp)) P)), !map_map. cbn [fst snd].
  rewrite Rsum_scale. rewrite (Rsum_ext _ _ (fun x => c * (fst x * g (similar s (snd x))))) by (intros; ring).
  rewrite Rsum_scale. field. split; assumption.
Qed.
Lemma wmean_affine : forall w f k d, Rsum (map fst w) <> 0 -> wmean (fun p => k * f p + d) w = k * wmean f w + d.
Proof.
  intros w f k d NZ. unfold wmean. rewrite (Rsum_ext _ _ (fun wp => k * (fst wp * f (snd wp)) + d * fst wp)) by (intros; ring).
  rewrite Rsum_plus, !Rsum_scale. field. exact NZ.
Qed.
Lemma wmean_ext : forall w f g, (forall p, f p = g p) -> wmean f w = wmean g w.
Proof. intros w f g H. unfold wmean. f_equal. apply Rsum_ext. intros. rewrite H. reflexivity. Qed.
Lemma along_similar : forall s phi p, along phi (similar s p) = s_scale s * along (flip_sign s * (phi - s_turn s)) p + along phi (s_shift s).
Proof.
  intros s phi p. unfold along, similar. cbn [fst snd].
  assert (CE : cos (flip_sign s * (phi - s_turn s)) = cos (phi - s_turn s)).
  { unfold flip_sign. destruct (s_flip s); [|f_equal; ring]. replace (-1 * (phi - s_turn s)) with (- (phi - s_turn s)) by ring. apply cos_neg. }
  assert (SE : sin (flip_sign s * (phi - s_turn s)) = flip_sign s * sin (phi - s_turn s)).
  { unfold flip_sign. destruct (s_flip s); [|rewrite !Rmult_1_l; reflexivity]. replace (-1 * (phi - s_turn s)) with (- (phi - s_turn s)) by ring. rewrite sin_neg. ring. }
  rewrite CE, SE, cos_minus, sin_minus. ring.
Qed.
Lemma variance_similar : forall c s w w' phi, c <> 0 -> similar_weighted c s w w' -> Rsum (map fst w) <> 0 ->
  variance_along phi w' = s_scale s ^ 2 * variance_along (flip_sign s * (phi - s_turn s)) w.
Proof.
  intros c s w w' phi C P NZ. unfold variance_along. rewrite (wmean_similar c s w w' _ C P NZ).
  rewrite (wmean_similar c s w w' (along phi) C P NZ). set (psi := flip_sign s * (phi - s_turn s)).
  rewrite (wmean_ext w (fun p => along phi (similar s p)) (fun p => s_scale s * along psi p + along phi (s_shift s))) by (intro; apply along_similar).
  rewrite wmean_affine by exact NZ.
  rewrite (wmean_ext w _ (fun p => s_scale s ^ 2 * (along psi p - wmean (along psi) w) ^ 2 + 0)) by (intro p; rewrite along_similar; fold psi; ring).
  rewrite wmean_affine by exact NZ. ring.
Qed.
(** Variance in a direction between the two axes. *)
Lemma variance_turn : forall w t, exists C, forall d,
  variance_along (t + d) w = variance_along t w * cos d ^ 2 + variance_along (t + PI / 2) w * sin d ^ 2 + C * (sin d * cos d).
Proof.
  intros w t.
  set (u := fun p => along t p - wmean (along t) w). set (v := fun p => along (t + PI / 2) p - wmean (along (t + PI / 2)) w).
  exists (wmean (fun p => 2 * (u p * v p)) w). intro d.
  assert (AL : forall p, along (t + d) p = cos d * along t p + sin d * along (t + PI / 2) p).
  { intro p. unfold along. rewrite !cos_plus, !sin_plus, cos_PI2, sin_PI2. ring. }
  assert (LIN : forall f g a b, wmean (fun p => a * f p + b * g p) w = a * wmean f w + b * wmean g w).
  { intros f g a b. unfold wmean. rewrite (Rsum_ext _ _ (fun wp => a * (fst wp * f (snd wp)) + b * (fst wp * g (snd wp)))) by (intros; ring).
    rewrite Rsum_plus, !Rsum_scale. unfold Rdiv. ring. }
  unfold variance_along at 1.
  rewrite (wmean_ext w (along (t + d)) (fun p => cos d * along t p + sin d * along (t + PI / 2) p)) by exact AL. rewrite LIN.
  rewrite (wmean_ext w _ (fun p => 1 * (cos d ^ 2 * u p ^ 2 + sin d ^ 2 * v p ^ 2) + (sin d * cos d) * (2 * (u p * v p)))) by (intro p; rewrite AL; unfold u, v; ring).
  rewrite (LIN (fun p => cos d ^ 2 * u p ^ 2 + sin d ^ 2 * v p ^ 2)), (LIN (fun p => u p ^ 2)). fold (variance_along t w). fold (variance_along (t + PI / 2) w).
  change (wmean (fun p => u p ^ 2) w) with (variance_along t w). change (wmean (fun p => v p ^ 2) w) with (variance_along (t + PI / 2) w). ring.
Qed.
Lemma axis_unique : forall w t psi, (forall phi, variance_along (t + PI / 2) w <= variance_along phi w <= variance_along t w) ->
  variance_along (t + PI / 2) w < variance_along t w -> variance_along psi w = variance_along t w -> exists n, psi = t + IZR n * PI.
Proof.
  intros w t psi M LT E. destruct (variance_turn w t) as [C T]. set (A := variance_along t w) in *. set (B := variance_along (t + PI / 2) w) in *.
  assert (C0 : C = 0).
  { set (x := C / (2 * (A - B))). destruct (M (t + atan x)) as [_ X]. rewrite T in X. pose proof (cs1 (atan x)) as CS.
    assert (S : sin (atan x) = x * cos (atan x)).
    { assert (CP : cos (atan x) <> 0). { pose proof (atan_bound x) as [b1 b2]. apply Rgt_not_eq, cos_gt_0; lra. }
      pose proof (tan_atan x) as TA. unfold tan in TA. rewrite <- TA at 2. field. exact CP. }
    assert (CP : 0 < cos (atan x)). { pose proof (atan_bound x) as [b1 b2]. apply cos_gt_0; lra. }
    rewrite S in X, CS. set (y := cos (atan x)) in *.
    clearbody A B y.
    assert (Y : (C * x - (A - B) * x ^ 2) * y ^ 2 <= 0).
    { replace ((C * x - (A - B) * x ^ 2) * y ^ 2) with (A * y ^ 2 + B * (x * y) ^ 2 + C * (x * y * y) - A * (y ^ 2 + (x * y) ^ 2)) by ring. rewrite CS. lra. }
    assert (Z : C * x - (A - B) * x ^ 2 = C ^ 2 / (4 * (A - B))) by (unfold x; field; lra).
    rewrite Z in Y. assert (0 < y ^ 2) by nra. assert (W : C ^ 2 / (4 * (A - B)) <= 0) by nra.
    assert (C ^ 2 <= 0). { replace (C ^ 2) with (C ^ 2 / (4 * (A - B)) * (4 * (A - B))) by (field; lra). nra. }
    nra. }
  specialize (T (psi - t)). replace (t + (psi - t)) with psi in T by ring. rewrite E, C0 in T. pose proof (cs1 (psi - t)) as CS.
  assert (S : sin (psi - t) = 0).
  { assert (X : (A - B) * sin (psi - t) ^ 2 = 0).
    { replace ((A - B) * sin (psi - t) ^ 2) with (A * (cos (psi - t) ^ 2 + sin (psi - t) ^ 2) - (A * cos (psi - t) ^ 2 + B * sin (psi - t) ^ 2 + 0 * (sin (psi - t) * cos (psi - t)))) by ring.
      rewrite CS, <- T. ring. }
    apply Rmult_integral in X. destruct X as [X|X]; [lra|]. destruct (Req_dec (sin (psi - t)) 0) as [G|G]; [exact G|]. exfalso. revert X. apply pow_nonzero. exact G. }
  apply sin_eq_0_0 in S. destruct S as [n S]. exists n. lra.
Qed.

(** The ellipse: the axes are in the unit of the coordinates; the angle turns with the
    coordinates, up to half turns, when the axes differ; weights in any unit, points in
    any order. *)
Theorem C122_ellipse : forall c s pts w pts' w' method cc dc a b theta,
  lower method = "crimestat"%string \/ lower method = "yuill"%string ->
  List.length w = List.length pts -> List.length w' = List.length pts' ->
  (forall v, In v w -> 0 <= v) -> 0 < Rsum w -> enough (lower method) dc (List.length pts) ->
  0 < c -> similar_weighted c s (combine w pts) (combine w' pts') ->
  ellipse pts (Some w) method cc dc = Ok (RFin a, RFin b, theta) ->
  exists theta', ellipse pts' (Some w') method cc dc = Ok (RFin (Rabs (s_scale s) * a), RFin (Rabs (s_scale s) * b), theta') /\
    - (PI / 2) < theta' <= PI / 2 /\
    (b < a -> s_scale s <> 0 -> exists n, theta' = flip_sign s * theta + s_turn s + IZR n * PI).
Proof.
  intros c s pts w pts' w' method cc dc a b theta ME L L' W SW EN C P E.
  destruct (C18_principal_axes pts w method cc dc ME L W SW EN) as (a1 & b1 & t1 & k & E1 & K & K2 & A & B & TB & AB & EX).
  assert (X : a1 = a /\ b1 = b /\ t1 = theta) by (rewrite E in E1; injection E1; auto). destruct X as (-> & -> & ->).
  assert (NN : List.length pts' = List.length pts).
  { pose proof (Permutation_length P) as X. rewrite map_length, !combine_length in X. lia. }
  assert (W' : forall v, In v w' -> 0 <= v).
  { intros v Hv. rewrite <- (map_fst_combine w' pts' L') in Hv. apply (Permutation_in _ (Permutation_sym (Permutation_map fst P))) in Hv. rewrite map_map in Hv.
    apply in_map_iff in Hv. destruct Hv as [[v0 p] [<- Hp]]. cbn [fst]. apply Rmult_le_pos; [lra|]. apply W. apply in_combine_l in Hp. exact Hp. }
  assert (SW' : Rsum w' = c * Rsum w).
  { rewrite <- (map_fst_combine w' pts' L'), <- (Rsum_perm _ _ (Permutation_map fst P)), map_map. cbn [fst]. rewrite Rsum_scale, (map_fst_combine w pts L). reflexivity. }
  assert (SP : 0 < Rsum w') by (rewrite SW'; nra). rewrite <- NN in EN.
  destruct (C18_principal_axes pts' w' method cc dc ME L' W' SP EN) as (a' & b' & t' & k' & E' & K' & K2' & A' & B' & TB' & AB' & EX').
  assert (KK : k' = k). { rewrite NN, <- K2 in K2'. apply Rsqr_inj; [lra|lra|]. unfold Rsqr. lra. } subst k'.
  assert (NZ : Rsum (map fst (combine w pts)) <> 0) by (rewrite (map_fst_combine w pts L); lra).
  assert (V : forall phi, variance_along phi (combine w' pts') = s_scale s ^ 2 * variance_along (flip_sign s * (phi - s_turn s)) (combine w pts)).
  { intro phi. apply (variance_similar c); [lra|exact P|exact NZ]. }
  set (W0 := combine w pts) in *. set (W1 := combine w' pts') in *.
  assert (S2 : 0 <= s_scale s ^ 2) by nra.
  assert (BACK : forall psi, variance_along (flip_sign s * psi + s_turn s) W1 = s_scale s ^ 2 * variance_along psi W0).
  { intro psi. rewrite V. do 2 f_equal. replace (flip_sign s * (flip_sign s * psi + s_turn s - s_turn s)) with (flip_sign s * flip_sign s * psi) by ring. rewrite flip_sq. ring. }
  assert (MX : variance_along t' W1 = s_scale s ^ 2 * variance_along theta W0).
  { apply Rle_antisym.
    - rewrite V. apply Rmult_le_compat_l; [exact S2|]. apply EX.
    - rewrite <- BACK. apply EX'. }
  assert (MN : variance_along (t' + PI / 2) W1 = s_scale s ^ 2 * variance_along (theta + PI / 2) W0).
  { apply Rle_antisym.
    - rewrite <- BACK. apply EX'.
    - rewrite V. apply Rmult_le_compat_l; [exact S2|]. apply EX. }
  assert (SQ : forall v, sqrt (s_scale s ^ 2 * v) = Rabs (s_scale s) * sqrt v).
  { intro v. rewrite sqrt_mult_alt by exact S2. f_equal. replace (s_scale s ^ 2) with (Rsqr (s_scale s)) by (unfold Rsqr; ring). apply sqrt_Rsqr_abs. }
  exists t'. split; [|split; [exact TB'|]].
  - rewrite E', A', B', MX, MN, !SQ, A, B. do 3 f_equal; f_equal; ring.
  - intros LT NS.
    assert (VL : variance_along (theta + PI / 2) W0 < variance_along theta W0).
    { rewrite A, B in LT. apply Rmult_lt_reg_l in LT; [|exact K]. destruct (Rle_lt_dec (variance_along theta W0) (variance_along (theta + PI / 2) W0)) as [G|G]; [|exact G].
      apply sqrt_le_1_alt in G. lra. }
    destruct (axis_unique W0 theta (flip_sign s * (t' - s_turn s)) EX VL) as [n N].
    + rewrite V in MX. apply (Rmult_eq_reg_l (s_scale s ^ 2)); [exact MX|]. apply pow_nonzero. exact NS.
    + pose proof (flip_sq s) as F. unfold flip_sign in *. destruct (s_flip s).
      * exists (- n)%Z. rewrite opp_IZR. lra.
      * exists n. lra.
Qed.
Print Assumptions C122_ellipse.

(** When the axes are equal the reported angle is always a quarter turn, whatever the
    coordinates, so it does not turn with them. *)
Theorem C122_equal_axes : forall pts w method cc dc a theta,
  lower method = "crimestat"%string \/ lower method = "yuill"%string ->
  List.length w = List.length pts -> (forall v, In v w -> 0 <= v) -> 0 < Rsum w -> enough (lower method) dc (List.length pts) ->
  ellipse pts (Some w) method cc dc = Ok (RFin a, RFin a, theta) -> theta = PI / 2.
Proof.
  intros pts w method cc dc a theta ME L W SW EN E.
  destruct (C18_principal_axes pts w method cc dc ME L W SW EN) as (a1 & b1 & t1 & k & E1 & K & K2 & A & B & TB & AB & EX).
  assert (X : a1 = a /\ b1 = a /\ t1 = theta) by (rewrite E in E1; injection E1; auto). destruct X as (-> & -> & ->).
  assert (NZ : Rsum w <> 0) by lra.
  pose proof (fun phi => variance_form w pts phi L NZ) as VF. cbv zeta in VF.
  set (mx := wsum fst w pts / Rsum w) in *. set (my := wsum snd w pts / Rsum w) in *. set (m := map (fun p => (fst p - mx, snd p - my)) pts) in *.
  set (xy := wsum (fun p => fst p * snd p) w m) in *.
  assert (VN : forall phi, 0 <= variance_along phi (combine w pts)).
  { intro phi. rewrite VF. replace (form _ _ _ _ _) with (wsum (fun p => (snd p * cos (phi - PI / 2) - fst p * sin (phi - PI / 2)) ^ 2) w m).
    - apply Rmult_le_pos; [apply wsum_nonneg; auto; intro; apply pow2_ge_0|apply Rlt_le, Rinv_0_lt_compat; exact SW].
    - rewrite term_form, cos_minus, sin_minus, cos_PI2, sin_PI2. unfold xy. f_equal; ring. }
  assert (EQ : forall phi psi, variance_along phi (combine w pts) = variance_along psi (combine w pts)).
  { assert (G : variance_along theta (combine w pts) = variance_along (theta + PI / 2) (combine w pts)).
    { apply sqrt_inj; [apply VN|apply VN|]. apply (Rmult_eq_reg_l k); [|lra]. rewrite <- A, <- B. reflexivity. }
    intros phi psi. pose proof (EX phi). pose proof (EX psi). lra. }
  assert (XY : xy = 0).
  { pose proof (EQ (PI / 4) (- (PI / 4))) as G. rewrite !VF in G. unfold form in G. rewrite cos_neg, sin_neg in G.
    assert (CS : 0 < cos (PI / 4) * sin (PI / 4)). { rewrite cos_PI4, sin_PI4. pose proof (sqrt_lt_R0 2 ltac:(lra)). apply Rmult_lt_0_compat; apply Rdiv_lt_0_compat; lra. }
    apply (Rmult_eq_compat_r (Rsum w)) in G. unfold Rdiv in G. rewrite !Rmult_assoc, Rinv_l, !Rmult_1_r in G by exact NZ. nra. }
  unfold ellipse in E.
  assert (MB : negb (String.eqb (lower method) "crimestat" || String.eqb (lower method) "yuill")%bool = false) by (destruct ME as [-> | ->]; reflexivity).
  rewrite MB in E. rewrite L, Nat.eqb_refl in E. cbn [bind] in E. destruct (Req_EM_T (Rsum w) 0) as [Z|Z]; [lra|].
  fold mx my in E. fold m in E. fold xy in E. rewrite XY in E. unfold ellipse_angles in E. destruct (Req_EM_T (2 * 0) 0) as [_|G]; [|exfalso; apply G; ring].
  match type of E with (if xgt ?y ?x then _ else _) = _ => generalize dependent y; generalize dependent x end. intros x y E.
  destruct (xgt y x) eqn:XG; injection E as Y1 X1 T1.
  - rewrite Y1, X1 in XG. cbn in XG. destruct (Rgt_dec a a); [lra|discriminate].
  - symmetry. exact T1.
Qed.
Print Assumptions C122_equal_axes.

(** ** Euclidean medians *)
Theorem C122_minimises : forall s pts pts' c, s_scale s <> 0 -> Permutation (map (similar s) pts) pts' ->
  (minimises pts c <-> minimises pts' (similar s c)).
Proof.
  intros s pts pts' c K P.
  assert (D : forall z, dtot (similar s z) pts' = Rabs (s_scale s) * dtot z pts).
  { intro z. destruct (C20_dtot (similar s z) (map (similar s) pts)) as (_ & _ & _ & PE & _). rewrite (PE _ P).
    rewrite !dtot_value, map_map, <- Rsum_scale. apply Rsum_ext. intros p _. apply similar_dist. }
  pose proof (Rabs_pos_lt _ K) as KP. unfold minimises. split; intros H z.
  - destruct (similar_onto s z K) as [y <-]. rewrite !D. apply Rmult_le_compat_l; [lra|apply H].
  - specialize (H (similar s z)). rewrite !D in H. apply Rmult_le_reg_l in H; assumption.
Qed.
Print Assumptions C122_minimises.
(** With an optimiser that returns a minimiser, the Euclidean median of points not on a
    line follows the coordinates. *)
Theorem C122_euclidean_median : forall minimize minimize' s pts pts', s_scale s <> 0 -> Permutation (map (similar s) pts) pts' ->
  (forall f x, (exists y, forall z, f y <= f z) -> forall z, f (minimize f x) <= f z) ->
  (forall f x, (exists y, forall z, f y <= f z) -> forall z, f (minimize' f x) <= f z) ->
  (exists p q r, In p pts /\ In q pts /\ In r pts /\ turn p q r <> 0) ->
  euclidean_median minimize' pts' = similar s (euclidean_median minimize pts).
Proof.
  intros minimize minimize' s pts pts' K P M M' (p & q & r & HP & HQ & HR & T).
  destruct (C91_euclidean_median minimize pts) as [_ X]. specialize (X M).
  destruct (C91_euclidean_median minimize' pts') as [_ Y]. specialize (Y M').
  destruct (similar_onto s (euclidean_median minimize' pts') K) as [y E]. rewrite <- E in *.
  apply (C122_minimises s pts pts' y K P) in Y. set (c := euclidean_median minimize pts) in *.
  assert (DEC : c = y \/ c <> y).
  { destruct c as [c1 c2], y as [y1 y2]. destruct (Req_EM_T c1 y1) as [->|N]; [|right; congruence]. destruct (Req_EM_T c2 y2) as [->|N]; [left; reflexivity|right; congruence]. }
  destruct DEC as [<-|N]; [reflexivity|]. exfalso. apply T.
  pose proof (C91_unique pts c y X Y N p HP) as U1. pose proof (C91_unique pts c y X Y N q HQ) as U2. pose proof (C91_unique pts c y X Y N r HR) as U3.
  destruct c as [c1 c2], y as [y1 y2], p as [p1 p2], q as [q1 q2], r as [r1 r2]. unfold turn. cbn [fst snd] in *.
  destruct (Req_dec (y1 - c1) 0) as [Z|Z].
  - assert (Z2 : y2 - c2 <> 0). { intro Z2. apply N. f_equal; lra. }
    rewrite Z, !Rmult_0_r in U1, U2, U3. apply Rmult_integral in U1, U2, U3. assert (p1 = c1) by (destruct U1; lra). assert (q1 = c1) by (destruct U2; lra).
    assert (r1 = c1) by (destruct U3; lra). subst. ring.
  - assert (V : forall u1 u2, (u1 - c1) * (y2 - c2) = (u2 - c2) * (y1 - c1) -> u2 = c2 + (u1 - c1) * ((y2 - c2) / (y1 - c1))).
    { intros u1 u2 U. replace ((u1 - c1) * ((y2 - c2) / (y1 - c1))) with ((u1 - c1) * (y2 - c2) / (y1 - c1)) by (unfold Rdiv; ring). rewrite U. field. exact Z. }
    rewrite (V p1 p2 U1), (V q1 q2 U2), (V r1 r2 U3). ring.
Qed.
Print Assumptions C122_euclidean_median.

(** ** Minimum bounding circles *)
Theorem C122_circle : forall s pts pts' c rho, s_scale s <> 0 -> (forall q, In q pts' <-> exists p, In p pts /\ q = similar s p) ->
  MinimumCircle c rho pts -> MinimumCircle (similar s c) (Rabs (s_scale s) * rho) pts'.
Proof.
  intros s pts pts' c rho K P [H U]. pose proof (Rabs_pos_lt _ K) as KP. split.
  - intros q Q. apply P in Q. destruct Q as [p [Hp ->]]. rewrite similar_dist. apply Rmult_le_compat_l; [lra|apply H; exact Hp].
  - intros z rho' Z. destruct (similar_onto s z K) as [y <-].
    assert (Y : Encloses y (rho' / Rabs (s_scale s)) pts).
    { intros p Hp. specialize (Z (similar s p) ltac:(apply P; eauto)). rewrite similar_dist in Z. apply (Rmult_le_reg_l (Rabs (s_scale s))); [exact KP|].
      replace (Rabs (s_scale s) * (rho' / Rabs (s_scale s))) with rho' by (field; lra). exact Z. }
    destruct (U _ _ Y) as [U1 U2]. assert (E : rho' = Rabs (s_scale s) * (rho' / Rabs (s_scale s))) by (field; lra). split.
    + rewrite E. apply Rmult_le_compat_l; [lra|exact U1].
    + intro X. f_equal. apply U2. rewrite X. field. lra.
Qed.
Print Assumptions C122_circle.
(** Hence the returned circle is that of the first pattern, in the new coordinates. *)
Theorem C122_minimum_bounding_circle : forall s numba numba' hull hull' pts pts', s_scale s <> 0 ->
  (forall q, In q pts' <-> exists p, In p pts /\ q = similar s p) ->
  (forall h p, (h = hull /\ p = pts) \/ (h = hull' /\ p = pts') ->
     NoDup (h p) /\ (2 <= List.length (h p))%nat /\ (ConvexCw (h p) \/ ConvexCw (rev (h p))) /\ WideAngles (h p) /\
     (forall q, In q p -> InHull (h p) q) /\ (forall q, In q (h p) -> In q p)) ->
  exists c rho, minimum_bounding_circle numba hull pts = Some (Ok (c, rho)) /\
    minimum_bounding_circle numba' hull' pts' = Some (Ok (similar s c, Rabs (s_scale s) * rho)).
Proof.
  intros s numba numba' hull hull' pts pts' K P H.
  destruct (H hull pts) as (A1 & A2 & A3 & A4 & A5 & A6); [left; auto|].
  destruct (H hull' pts') as (B1 & B2 & B3 & B4 & B5 & B6); [right; auto|].
  destruct (C86_minimum numba hull pts) as (c & r & E & M); auto.
  destruct (C86_minimum numba' hull' pts') as (c' & r' & E' & M'); auto.
  exists c, r. split; [exact E|]. rewrite E'. pose proof (C122_circle s pts pts' c r K P M) as N.
  destruct M' as [M1 M2], N as [N1 N2]. destruct (M2 _ _ N1) as [L1 L2]. destruct (N2 _ _ M1) as [L3 L4].
  assert (r' = Rabs (s_scale s) * r) by lra. rewrite (L4 H0), H0. reflexivity.
Qed.
Print Assumptions C122_minimum_bounding_circle.

(** A rectangle reflected, turned by a quarter and doubled. *)
Example C122_case : std_distance (map (similar (mksim 2 (PI / 2) true (1, 1))) [(0, 0); (6, 0); (0, 8); (6, 8)]) = Some 10 /\
  similar (mksim 2 (PI / 2) true (1, 1)) (6, 8) = (17, 13).
Proof.
  split.
  - rewrite (C122_std_distance (mksim 2 (PI / 2) true (1, 1)) _ _ 5 (Permutation_refl _) C17_case). cbn [s_scale]. f_equal. rewrite Rabs_pos_eq by lra. ring.
  - unfold similar, flip_sign. cbn [s_scale s_turn s_flip s_shift fst snd]. rewrite cos_PI2, sin_PI2. f_equal; ring.
Qed.
