(** Lemmas about the loop of minimum_bounding_circle on binary64. *)
From Coq Require Import Reals Ratan ZArith List Bool Lia Lra Psatz.
From Flocq Require Import Core BinarySingleNaN.
From Verif Require Import Base Float_model Float_proofs F64_model F64_proofs F64_props K64_model K64_spec K64_proofs K64_props L64_model L64_proofs Area64_model Area64_proofs Sample64_model Sample64_proofs Hex64_proofs Mbc64_model Mbc64_spec.
Import ListNotations.
Local Open Scope R_scope.

(** ** Constants *)
Lemma half_pi_ok : fin half_pi /\ V half_pi = V pi64 / 2.
Proof.
  destruct pi_ok as [F PV]. destruct (fint_ok 2) as [F2 V2]; [lia|]. destruct (fdiv_ok pi64 (fint 2) F) as [A B].
  - rewrite V2. lra.
  - rewrite V2, PV. apply Rle_trans with (bpow radix2 1); [|apply bpow_le; lia]. cbn. rewrite Rabs_pos_eq; lra.
  - split; [exact A|]. unfold half_pi. rewrite B, V2, PV. apply rnd_id.
    replace (884279719003555 / 281474976710656 / 2) with (IZR 884279719003555 * bpow radix2 (-49)) by (cbn; lra). apply float_dyadic; lia.
Qed.
Lemma pi_near : Rabs (V pi64 - PI) <= bpow radix2 (-49).
Proof.
  destruct pi_ok as [_ ->]. pose proof pi_close. change (bpow radix2 (-49)) with (/ 562949953421312). apply Rabs_le. lra.
Qed.
Lemma tiny_ok : fin tiny64 /\ 0 < V tiny64 <= / 90000 /\ / 110000 <= V tiny64.
Proof.
  assert (E : IZR 5902958103587057 * bpow radix2 (-69) = 5902958103587057 / 590295810358705651712) by (cbn; lra).
  destruct (fdyadic_ok 5902958103587057 (-69)) as [A B].
  - rewrite E. rewrite Rabs_pos_eq by lra. apply Rle_trans with (bpow radix2 0); [cbn; lra|apply bpow_le; lia].
  - split; [exact A|]. unfold tiny64. rewrite B, rnd_id by (apply float_dyadic; lia). rewrite E. lra.
Qed.

(** ** Termination, whatever the libraries return *)
Section Loop.
Variables (arccos : f64 -> f64) (dot : fpt -> fpt -> f64).
Lemma lex_last_range : forall keys best key i, (best < i)%nat -> (lex_last64 best key i keys < i + length keys)%nat.
Proof.
  induction keys as [|k t IH]; intros best key i H; cbn [lex_last64 length]; [lia|].
  destruct (lex_before k key).
  - specialize (IH best key (S i) ltac:(lia)). lia.
  - specialize (IH i k (S i) ltac:(lia)). lia.
Qed.
Lemma lexmax_range : forall keys, keys <> [] -> (lexmax64 keys < length keys)%nat.
Proof. intros [|k t] H; [contradiction|]. cbn [lexmax64 length]. apply (lex_last_range t 0 k 1). lia. Qed.
Lemma all_ok_length : forall A B (f : A -> res B) l r, all_ok f l = Ok r -> length r = length l.
Proof.
  induction l as [|x t IH]; intros r E; cbn [all_ok] in E; [injection E as <-; reflexivity|].
  destruct (f x) as [y|e]; cbn [bind] in E; [|discriminate]. destruct (all_ok f t) as [r'|e]; cbn [bind] in E; [|discriminate].
  injection E as <-. cbn [length]. rewrite (IH r' eq_refl). reflexivity.
Qed.
Lemma all_ok_nth : forall A B (f : A -> res B) l r i d d', all_ok f l = Ok r -> (i < length l)%nat -> f (nth i l d) = Ok (nth i r d').
Proof.
  induction l as [|x t IH]; intros r i d d' E I; cbn [length] in I; [lia|]. cbn [all_ok] in E.
  destruct (f x) as [y|e] eqn:EY; cbn [bind] in E; [|discriminate]. destruct (all_ok f t) as [r'|e] eqn:ER; cbn [bind] in E; [|discriminate].
  injection E as <-. destruct i as [|i]; cbn [nth]; [exact EY|]. apply IH; [reflexivity|lia].
Qed.
Lemma nth_map_lt : forall A B (f : A -> B) l i d d', (i < length l)%nat -> nth i (map f l) d = f (nth i l d').
Proof. intros A B f l i d d' H. rewrite (nth_indep _ d (f d')) by (rewrite map_length; exact H). apply map_nth. Qed.
Lemma remove_length : forall i l, (i < length l)%nat -> length (remove_at i l) = (length l - 1)%nat.
Proof. intros i l I. unfold remove_at. rewrite app_length, firstn_length, skipn_length. lia. Qed.
Lemma remove_perm : forall i l d, (i < length l)%nat -> Permutation.Permutation l (nth i l d :: remove_at i l).
Proof.
  intros i l d I. unfold remove_at. rewrite <- (firstn_skipn i l) at 1.
  assert (E : skipn i l = nth i l d :: skipn (S i) l).
  { revert i I. induction l as [|x t IH]; intros i I; [cbn in I; lia|]. destruct i as [|i]; [reflexivity|]. cbn [skipn nth]. apply IH. cbn in I. lia. }
  rewrite E. apply Permutation.Permutation_sym, Permutation.Permutation_middle.
Qed.
Lemma skyum_general : forall fuel points removed, (length points < fuel)%nat ->
  exists r, skyum64 arccos dot fuel points removed = Some r /\
  match r with
  | Ok (c, rest, gone, (p, q, s)) =>
      (exists g, gone = removed ++ g /\ Permutation.Permutation points (g ++ rest)) /\
      In q rest /\ p = prec64 q rest /\ s = succ64 q rest /\ circle64 arccos dot p q s = Ok c /\ fle (angle64 arccos dot p q s) half_pi = true
  | Raise e => True
  end.
Proof.
  induction fuel as [|fuel IH]; intros points removed L; [lia|]. cbn [skyum64].
  set (triples := map (fun p => (prec64 p points, p, succ64 p points)) points). set (angles := map _ triples).
  destruct (all_ok _ triples) as [circles|e] eqn:EC; [|eexists; split; [reflexivity|exact I]].
  destruct points as [|p0 t]; [eexists; split; [reflexivity|exact I]|].
  set (points := p0 :: t) in *. set (radii := map (fun c : f64 * f64 * f64 => fst (fst c)) circles). set (m := lexmax64 (combine radii angles)).
  assert (LC : length circles = length points) by (rewrite (all_ok_length _ _ _ _ _ EC); unfold triples; apply map_length).
  assert (LA : length angles = length points) by (unfold angles, triples; rewrite !map_length; reflexivity).
  assert (M : (m < length points)%nat).
  { assert (LK : length (combine radii angles) = length points) by (rewrite combine_length; unfold radii; rewrite map_length, LC, LA; apply Nat.min_id).
    rewrite <- LK. apply lexmax_range. intro H. rewrite H in LK. discriminate LK. }
  set (q := nth m points p0).
  assert (QI : In q points) by (apply nth_In; exact M).
  assert (AQ : nth m angles (fint 0) = angle64 arccos dot (prec64 q points) q (succ64 q points)).
  { unfold angles. rewrite (nth_map_lt _ _ _ triples m (fint 0) (p0, p0, p0)) by (unfold triples; rewrite map_length; exact M).
    unfold triples. rewrite (nth_map_lt _ _ _ points m (p0, p0, p0) p0 M). reflexivity. }
  rewrite AQ. destruct (fle (angle64 arccos dot (prec64 q points) q (succ64 q points)) half_pi) eqn:EF.
  - destruct (circle64 arccos dot (prec64 q points) q (succ64 q points)) as [c|e] eqn:ECC; [|eexists; split; [reflexivity|exact I]].
    eexists. split; [reflexivity|]. cbn beta iota. split; [exists []; split; [rewrite app_nil_r; reflexivity|apply Permutation.Permutation_refl]|].
    repeat split; assumption.
  - destruct (IH (remove_at m points) (removed ++ [q])) as (r & E & H); [rewrite remove_length by exact M; cbn [length points] in *; lia|].
    exists r. split; [exact E|]. destruct r as [[[[c rest] gone] [[p q'] s]]|e]; [|exact I]. destruct H as ((g & G1 & G2) & H). split; [|exact H].
    exists (q :: g). split; [rewrite G1, <- app_assoc; reflexivity|]. cbn [app]. eapply Permutation.Permutation_trans; [apply (remove_perm m points p0 M)|].
    fold q. apply Permutation.perm_skip. exact G2.
Qed.
End Loop.

(** ** Angles *)
Lemma acos_low : forall t x, 0 <= t <= PI -> -1 <= x <= cos t -> t <= acos x.
Proof.
  intros t x T X. apply Rnot_lt_le. intro H. pose proof (acos_bound x) as B.
  assert (cos t < cos (acos x)) by (apply cos_decreasing_1; lra). rewrite cos_acos in H0 by (pose proof (COS_bound t); lra). lra.
Qed.
Lemma acos_high : forall t x, 0 <= t <= PI -> cos t <= x <= 1 -> acos x <= t.
Proof.
  intros t x T X. apply Rnot_lt_le. intro H. pose proof (acos_bound x) as B.
  assert (cos (acos x) < cos t) by (apply cos_decreasing_1; lra). rewrite cos_acos in H0 by (pose proof (COS_bound t); lra). lra.
Qed.
Lemma cos_quad : forall t, 0 <= t <= 1 -> 1 - t * t / 2 <= cos t.
Proof.
  intros t T. replace t with (2 * (t / 2)) at 3 by field. rewrite cos_2a_sin. destruct (Req_dec t 0) as [->|N].
  - replace (0 / 2) with 0 by field. rewrite sin_0. lra.
  - pose proof PI_ineq 0 as _. assert (P3 : 3 < PI) by (pose proof pi_close; lra).
    assert (0 < sin (t / 2)) by (apply sin_gt_0; lra). assert (sin (t / 2) < t / 2) by (apply sin_lt_x; lra). nra.
Qed.
Lemma acos_wide : forall x, Rabs x <= 99 / 100 -> / 10 <= acos x <= PI - / 10.
Proof.
  intros x H. apply Rabs_le_inv in H. assert (P3 : 3 < PI) by (pose proof pi_close; lra). pose proof (cos_quad (/ 10) ltac:(lra)) as C.
  split; [apply acos_low; [lra|lra]|]. apply acos_high; [lra|].
  replace (PI - / 10) with (- (/ 10) + PI) by ring. rewrite neg_cos, cos_neg. lra.
Qed.
Lemma acos_obtuse : forall x, -1 <= x <= - (/ 10) -> PI / 2 + / 10 <= acos x.
Proof.
  intros x H. assert (P3 : 3 < PI) by (pose proof pi_close; lra). apply acos_low; [lra|]. split; [lra|].
  replace (PI / 2 + / 10) with (- (- (/ 10) - PI / 2)) by ring. rewrite cos_neg. replace (- / 10 - PI / 2) with (- (PI / 2 - - / 10)) by ring. rewrite cos_neg, cos_shift, sin_neg.
  assert (sin (/ 10) < / 10) by (apply sin_lt_x; lra). lra.
Qed.
Lemma acos_acute : forall x, / 10 <= x <= 1 -> acos x <= PI / 2 - / 10.
Proof.
  intros x H. assert (P3 : 3 < PI) by (pose proof pi_close; lra). apply acos_high; [lra|]. split; [|lra]. rewrite cos_shift.
  assert (sin (/ 10) < / 10) by (apply sin_lt_x; lra). lra.
Qed.
(** Cosines close to 1. *)
Lemma acos_one : forall x, 1 - / 1000000000000 <= x <= 1 -> 0 <= acos x <= / 500000.
Proof.
  intros x H. split; [apply acos_bound|]. assert (P3 : 3 < PI) by (pose proof pi_close; lra). apply acos_high; [lra|]. split; [|lra].
  (* cos t <= 1 - t^2/2 + t^4/24 *)
  replace (/ 500000) with (2 * / 1000000) by field. rewrite cos_2a_sin.
  assert (SL : 9 / 10 * / 1000000 <= sin (/ 1000000)).
  { pose proof (sin_lb_gt_0 (/ 1000000)). assert (B : sin_lb (/ 1000000) <= sin (/ 1000000)) by (apply (SIN (/ 1000000)); lra).
    eapply Rle_trans; [|exact B]. unfold sin_lb, sin_approx, sum_f_R0, sin_term. cbn [Nat.mul Nat.add fact INR pow]. lra. }
  assert (9 / 10 * / 1000000 * (9 / 10 * / 1000000) <= sin (/ 1000000) * sin (/ 1000000)) by (apply Rmult_le_compat; lra). lra.
Qed.

(** ** The angle of a ratio, with the assumed arccos *)
Lemma flt_no : forall a b, fin a -> fin b -> V b <= V a -> flt a b = false.
Proof. intros a b A B H. destruct (flt a b) eqn:E; [|reflexivity]. apply (proj1 (flt_ok a b A B)) in E. lra. Qed.
Section Arccos.
Variable arccos : f64 -> f64.
Hypothesis HA : ArccosOk arccos.
Lemma p40 : bpow radix2 (-40) <= / 1000000000.
Proof. change (bpow radix2 (-40)) with (/ 1099511627776). lra. Qed.
Lemma pi_bounds : 31415 / 10000 < V pi64 < 31416 / 10000 /\ 31415 / 10000 < PI < 31416 / 10000.
Proof. destruct pi_ok as [_ ->]. pose proof pi_close. split; lra. Qed.
Lemma arccos_value : forall x, fin x -> -1 <= V x <= 1 -> 0 <= V (fabs (arccos x)) /\ fin (fabs (arccos x)) /\
  acos (V x) - / 1000000000 <= V (fabs (arccos x)) <= acos (V x) + / 1000000000 /\ fabs (fabs (arccos x)) = fabs (arccos x).
Proof using HA.
  intros x F B. destruct HA as [A _]. destruct (A x F B) as [F1 E]. destruct (fabs_ok _ F1) as [F2 V2]. pose proof p40 as P. pose proof (acos_bound (V x)) as AB.
  apply Rabs_le_inv in E. rewrite V2. split; [apply Rabs_pos|]. split; [exact F2|]. split.
  - split; [apply Rle_trans with (V (arccos x)); [lra|apply Rle_abs]|]. apply Rabs_le. lra.
  - unfold fabs. destruct (arccos x) as [b|b| |b m e He]; reflexivity.
Qed.
Lemma minus_pi : forall a, fin a -> 0 <= V a <= PI - / 20 -> flt (fabs (fsub a pi64)) tiny64 = false.
Proof using.
  intros a F B. destruct pi_ok as [FP _]. pose proof pi_bounds as [[P1 P2] [P3 P4]]. destruct tiny_ok as (FT & T1 & T2).
  assert (SM : Rabs (V a - V pi64) <= bpow radix2 2) by (change (bpow radix2 2) with 4; apply Rabs_le; lra).
  destruct (fsub_ok a pi64 F FP) as [FS VS]; [eapply Rle_trans; [exact SM|apply bpow_le; lia]|]. destruct (fabs_ok _ FS) as [FA VA].
  apply flt_no; [exact FA|exact FT|]. rewrite VA, VS.
  assert (RL : rnd (V a - V pi64) <= - / 64).
  { apply Rle_trans with (rnd (- / 64)); [apply rnd_le; lra|]. rewrite rnd_id; [lra|]. replace (- / 64) with (IZR (-1) * bpow radix2 (-6)) by (cbn; lra). apply float_dyadic; lia. }
  rewrite Rabs_left by lra. lra.
Qed.
Lemma wide_not_flat : forall x, fin x -> Rabs (V x) <= 99 / 100 ->
  flt (fabs (fsub (fabs (fabs (arccos x))) pi64)) tiny64 = false /\ flt (fabs (fabs (fabs (arccos x)))) tiny64 = false.
Proof using HA.
  intros x F B. pose proof (acos_wide _ B) as W. apply Rabs_le_inv in B. destruct (arccos_value x F ltac:(lra)) as (A0 & FA & AV & AA). rewrite !AA.
  split; [apply minus_pi; [exact FA|lra]|]. destruct tiny_ok as (FT & T1 & T2). apply flt_no; [exact FA|exact FT|lra].
Qed.
Lemma obtuse_no : forall x, fin x -> -1 <= V x <= - (/ 10) -> fle (fabs (arccos x)) half_pi = false.
Proof using HA.
  intros x F B. pose proof (acos_obtuse _ B) as W. destruct (arccos_value x F ltac:(lra)) as (A0 & FA & AV & AA). destruct half_pi_ok as [FH VH]. pose proof pi_bounds as [[P1 P2] [P3 P4]].
  destruct (fle (fabs (arccos x)) half_pi) eqn:E; [|reflexivity]. apply (proj1 (fle_ok _ _ FA FH)) in E. lra.
Qed.
Lemma acute_yes : forall x, fin x -> / 10 <= V x <= 1 -> fle (fabs (arccos x)) half_pi = true.
Proof using HA.
  intros x F B. pose proof (acos_acute _ B) as W. destruct (arccos_value x F ltac:(lra)) as (A0 & FA & AV & AA). destruct half_pi_ok as [FH VH]. pose proof pi_bounds as [[P1 P2] [P3 P4]].
  apply (proj2 (fle_ok _ _ FA FH)). lra.
Qed.
Lemma one_folded : forall x, fin x -> 1 - / 1000000000000 <= V x <= 1 ->
  flt (fabs (fsub (fabs (fabs (arccos x))) pi64)) tiny64 = false /\ flt (fabs (fabs (fabs (arccos x)))) tiny64 = true.
Proof using HA.
  intros x F B. pose proof (acos_one _ B) as W. destruct (arccos_value x F ltac:(lra)) as (A0 & FA & AV & AA). rewrite !AA. pose proof pi_bounds as [[P1 P2] [P3 P4]].
  split; [apply minus_pi; [exact FA|lra]|]. destruct tiny_ok as (FT & T1 & T2). apply (proj2 (flt_ok _ _ FA FT)). lra.
Qed.
End Arccos.

(** ** The cosine of a point with itself: D over the rounded square of its root *)
Definition ratio64 (d : f64) : f64 := fdiv d (fmul (fsqrt d) (fsqrt d)).
Lemma above_one : forall z, 1 + bpow radix2 (-53) < z -> 1 < rnd z.
Proof.
  intros z H. apply Rnot_le_lt. intro C. assert (P : bpow radix2 (-52) = 2 * bpow radix2 (-53)) by (change 2 with (bpow radix2 1); rewrite <- bpow_plus; reflexivity).
  assert (F : isfloat (1 + bpow radix2 (-52))) by (replace (1 + bpow radix2 (-52)) with (IZR 4503599627370497 * bpow radix2 (-52)) by (cbn; lra); apply float_dyadic; lia).
  destruct (Rle_lt_dec (1 + bpow radix2 (-52)) z) as [L|L].
  - apply rnd_le in L. rewrite (rnd_id _ F) in L. pose proof (bpow_gt_0 radix2 (-52)). lra.
  - destruct (round_N_pt radix2 fexp64 (fun x => negb (Z.even x)) z) as [_ N]. specialize (N _ F). change (round radix2 fexp64 _ z) with (rnd z) in N.
    rewrite (Rabs_left (rnd z - z)) in N by (pose proof (bpow_gt_0 radix2 (-53)); lra). rewrite Rabs_pos_eq in N by lra. lra.
Qed.
Lemma float_gap : forall m d, isfloat m -> isfloat d -> bpow radix2 (-1000) <= m -> m < d -> 1 + bpow radix2 (-53) < d / m.
Proof.
  intros m d M Dd L H. pose proof (bpow_gt_0 radix2 (-1000)) as B0. assert (m0 : 0 < m) by lra.
  assert (SU : m + ulp radix2 fexp64 m <= d) by (rewrite <- succ_eq_pos by lra; apply succ_le_lt; auto with typeclass_instances).
  assert (UL : m * bpow radix2 (-53) < ulp radix2 fexp64 m).
  { rewrite ulp_neq_0 by lra. unfold cexp, fexp64, FLT_exp. pose proof (bpow_mag_gt radix2 m) as MG. rewrite Rabs_pos_eq in MG by lra.
    rewrite Z.max_l.
    - replace (bpow radix2 (mag radix2 m - 53)) with (bpow radix2 (mag radix2 m) * bpow radix2 (-53)) by (rewrite <- bpow_plus; reflexivity).
      apply Rmult_lt_compat_r; [apply bpow_gt_0|exact MG].
    - assert (-1000 < mag radix2 m)%Z by (apply (lt_bpow radix2); lra). lia. }
  apply Rmult_lt_reg_r with m; [exact m0|]. unfold Rdiv. rewrite Rmult_assoc, Rinv_l by lra. lra.
Qed.
Lemma isfloat_V : forall x : f64, isfloat (V x).
Proof. intro x. apply (generic_format_B2R 53 1024). Qed.
Lemma ratio_ok : forall d, fin d -> bpow radix2 (-900) <= V d <= bpow radix2 900 -> let m := fmul (fsqrt d) (fsqrt d) in
  fin m /\ fin (ratio64 d) /\ 1 - / 1000000000000 <= V (ratio64 d) <= 2 /\ (V d <= V m -> V (ratio64 d) <= 1) /\ (V m < V d -> 1 < V (ratio64 d)).
Proof.
  intros d F [B1 B2] m. pose proof (bpow_gt_0 radix2 (-900)) as P0. assert (d0 : 0 < V d) by lra.
  destruct (fsqrt_ok d F ltac:(lra)) as [FS VS]. pose proof (rnd_sqrt_error (V d) (isfloat_V d) ltac:(lra)) as ES. rewrite <- VS in ES.
  assert (s0 : 0 < sqrt (V d)) by (apply sqrt_lt_R0; exact d0). assert (SS : sqrt (V d) * sqrt (V d) = V d) by (apply sqrt_sqrt; lra).
  set (s := V (fsqrt d)) in *. set (t := sqrt (V d)) in *. assert (U : 0 <= u <= / 9000000000000000) by (rewrite u_val; lra).
  apply Rabs_le_inv in ES. assert (S1 : (1 - u) * t <= s <= (1 + u) * t) by lra.
  assert (S2 : (1 - 3 * u) * V d <= s * s <= (1 + 3 * u) * V d).
  { rewrite <- SS. assert (t2 : 0 < t * t) by (apply Rmult_lt_0_compat; lra). split.
    - apply Rle_trans with ((1 - u) * t * ((1 - u) * t)); [|apply Rmult_le_compat; nra]. assert ((1 - u) * (1 - u) >= 1 - 3 * u) by nra. nra.
    - apply Rle_trans with ((1 + u) * t * ((1 + u) * t)); [apply Rmult_le_compat; nra|]. assert ((1 + u) * (1 + u) <= 1 + 3 * u) by nra. nra. }
  assert (ss0 : 0 < s * s) by nra.
  destruct (fmul_ok (fsqrt d) (fsqrt d) FS FS) as [FM VM].
  { fold s. rewrite Rabs_pos_eq by lra. apply Rle_trans with (2 * bpow radix2 900); [nra|]. change 2 with (bpow radix2 1). rewrite <- bpow_plus. apply bpow_le. lia. }
  fold s in VM. fold m in FM, VM. assert (BIG : bpow radix2 (-1000) <= s * s).
  { apply Rle_trans with (V d / 2); [|nra]. apply Rle_trans with (bpow radix2 (-901)); [apply bpow_le; lia|]. change (-901)%Z with (-900 + -1)%Z. rewrite bpow_plus. change (bpow radix2 (-1)) with (/ 2). lra. }
  destruct (rnd_rel (s * s)) as (e & E1 & E2); [rewrite Rabs_pos_eq by lra; eapply Rle_trans; [|exact BIG]; apply bpow_le; lia|]. rewrite E2 in VM. fold u in E1. apply Rabs_le_inv in E1.
  assert (M2 : (1 - 5 * u) * V d <= V m <= (1 + 5 * u) * V d).
  { rewrite VM. split; nra. }
  assert (m0 : 0 < V m) by nra. assert (MBIG : bpow radix2 (-1000) <= V m).
  { apply Rle_trans with (V d / 2); [|nra]. apply Rle_trans with (bpow radix2 (-901)); [apply bpow_le; lia|]. change (-901)%Z with (-900 + -1)%Z. rewrite bpow_plus. change (bpow radix2 (-1)) with (/ 2). lra. }
  assert (Q : 1 - 6 * u <= V d / V m <= 1 + 6 * u).
  { split; apply Rmult_le_reg_r with (V m); try exact m0; unfold Rdiv; rewrite Rmult_assoc, Rinv_l by lra; nra. }
  destruct (fdiv_ok d m F) as [FR VR]; [lra| |].
  { rewrite Rabs_pos_eq by lra. apply Rle_trans with (bpow radix2 1); [change (bpow radix2 1) with 2; lra|apply bpow_le; lia]. }
  split; [exact FM|]. split; [exact FR|]. unfold ratio64. fold m. rewrite VR. split; [|split].
  - split.
    + apply Rle_trans with (rnd (1 - bpow radix2 (-41))).
      * rewrite rnd_id; [change (bpow radix2 (-41)) with (/ 2199023255552); lra|]. replace (1 - bpow radix2 (-41)) with (IZR 2199023255551 * bpow radix2 (-41)) by (cbn; lra). apply float_dyadic; lia.
      * apply rnd_le. change (bpow radix2 (-41)) with (/ 2199023255552). lra.
    + apply Rle_trans with (rnd 2); [apply rnd_le; lra|]. rewrite rnd_id; [lra|apply (float_int 2); lia].
  - intro H. apply Rle_trans with (rnd 1); [apply rnd_le|rewrite rnd_id; [lra|apply (float_int 1); lia]].
    apply Rmult_le_reg_r with (V m); [exact m0|]. unfold Rdiv. rewrite Rmult_assoc, Rinv_l by lra. lra.
  - intro H. apply above_one. apply float_gap; [apply isfloat_V|apply isfloat_V|exact MBIG|exact H].
Qed.
