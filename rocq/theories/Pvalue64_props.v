(** Theorems about p-values on binary64: property C116. *)
From Coq Require Import Reals ZArith Lia Lra.
From Flocq Require Import Core Sterbenz.
From Verif Require Import Float_model Float_proofs Pvalue64_model.
Local Open Scope R_scope.

#[global] Instance monotone64 : Monotone_exp fexp64 := FLT_exp_monotone (-1074) 53.

Lemma float_int : forall z, (Z.abs z < 2 ^ 53)%Z -> isfloat (IZR z).
Proof. intros z H. replace (IZR z) with (IZR z * bpow radix2 0) by (simpl; ring). apply float_dyadic; lia. Qed.
Lemma float_1 : isfloat 1.
Proof. apply (float_int 1). reflexivity. Qed.
Lemma float_half : isfloat (/ 2).
Proof. replace (/ 2) with (IZR 1 * bpow radix2 (-1)) by (simpl; lra). apply float_dyadic; lia. Qed.
Lemma rnd_1 : rnd 1 = 1.
Proof. apply rnd_id, float_1. Qed.

(** Up to 1 the rounding error is at most 2^-53. *)
Lemma rnd_unit : forall x, 0 <= x <= 1 -> Rabs (rnd x - x) <= bpow radix2 (-53).
Proof.
  intros x H. eapply Rle_trans; [apply error_le_half_ulp; auto with typeclass_instances|].
  assert (L : ulp radix2 fexp64 x <= ulp radix2 fexp64 1).
  { apply ulp_le; auto with typeclass_instances. rewrite !Rabs_pos_eq by lra. lra. }
  assert (E : ulp radix2 fexp64 1 = bpow radix2 (-52)) by (apply (ulp_bpow radix2 fexp64 0)).
  rewrite E in L. replace (bpow radix2 (-53)) with (/ 2 * bpow radix2 (-52)) by (simpl; lra). lra.
Qed.
Lemma rnd_unit_range : forall x, 0 <= x <= 1 -> 0 <= rnd x <= 1.
Proof. intros x H. split; [apply rnd_nonneg; lra|]. rewrite <- rnd_1. apply rnd_le. lra. Qed.

(** Below 1 there is no float between 1 - 2^-53 and 1. *)
Lemma below_1 : forall x, isfloat x -> x < 1 -> x <= 1 - bpow radix2 (-53).
Proof.
  intros x F H. assert (X : x <= pred radix2 fexp64 1) by (apply pred_ge_gt; auto with typeclass_instances; apply float_1).
  assert (E : pred radix2 fexp64 1 = 1 - bpow radix2 (-53)).
  { change 1 with (bpow radix2 0). rewrite pred_bpow by auto with typeclass_instances. reflexivity. }
  rewrite E in X. exact X.
Qed.

Lemma frac_le : forall a b c d : Z, (0 < b)%Z -> (0 < d)%Z -> (IZR a / IZR b <= IZR c / IZR d <-> (a * d <= c * b)%Z).
Proof.
  intros a b c d B D. apply IZR_lt in B. apply IZR_lt in D. split; intro H.
  - apply le_IZR. rewrite !mult_IZR. apply (Rmult_le_compat_r (IZR b * IZR d)) in H; [|apply Rmult_le_pos; lra].
    replace (IZR a / IZR b * (IZR b * IZR d)) with (IZR a * IZR d) in H by (field; lra).
    replace (IZR c / IZR d * (IZR b * IZR d)) with (IZR c * IZR b) in H by (field; lra). exact H.
  - apply IZR_le in H. rewrite !mult_IZR in H.
    apply Rmult_le_reg_r with (IZR b * IZR d); [apply Rmult_lt_0_compat; lra|].
    replace (IZR a / IZR b * (IZR b * IZR d)) with (IZR a * IZR d) by (field; lra).
    replace (IZR c / IZR d * (IZR b * IZR d)) with (IZR c * IZR b) by (field; lra). exact H.
Qed.
(** Different fractions are at least 1 / (b d) apart. *)
Lemma frac_gap : forall a b c d : Z, (0 < b)%Z -> (0 < d)%Z -> (a * d < c * b)%Z ->
  IZR a / IZR b + / (IZR (b * d)) <= IZR c / IZR d.
Proof.
  intros a b c d B D H. assert (E : (a * d + 1 <= c * b)%Z) by lia.
  assert (X : IZR (a * d + 1) / IZR (b * d) <= IZR c / IZR d) by (apply frac_le; nia).
  rewrite plus_IZR, mult_IZR in X. apply IZR_lt in B. apply IZR_lt in D. rewrite mult_IZR in *.
  replace (IZR a / IZR b + / (IZR b * IZR d)) with ((IZR a * IZR d + 1) / (IZR b * IZR d)) by (field; lra). exact X.
Qed.

Definition limit : Z := (2 ^ 51)%Z.
Lemma gap_size : forall k, (0 < k <= limit)%Z -> 4 * bpow radix2 (-53) <= / IZR k.
Proof.
  intros k K. replace (4 * bpow radix2 (-53)) with (/ IZR limit) by (unfold limit; simpl; lra).
  apply Rinv_le; [apply IZR_lt; lia|apply IZR_le; lia].
Qed.

Lemma pseudo_eq : forall c n, (0 <= c <= n)%Z -> (n + 1 <= limit)%Z -> pseudo64 c n = rnd (IZR (c + 1) / IZR (n + 1)).
Proof.
  intros c n H L. unfold pseudo64. rewrite <- !plus_IZR. unfold limit in L.
  rewrite (rnd_id (IZR (c + 1))), (rnd_id (IZR (n + 1))) by (apply float_int; lia). reflexivity.
Qed.
Lemma frac_unit : forall a b : Z, (0 <= a <= b)%Z -> (0 < b)%Z -> 0 <= IZR a / IZR b <= 1.
Proof.
  intros a b A B. split.
  - replace 0 with (IZR 0 / IZR b) by (unfold Rdiv; ring). apply frac_le; lia.
  - replace 1 with (IZR 1 / IZR 1) by field. apply frac_le; lia.
Qed.

(** Comparing correctly rounded fractions up to 1 is comparing the fractions. *)
Lemma compare_fractions : forall a b c d, (0 <= a <= b)%Z -> (0 < b)%Z -> (0 <= c <= d)%Z -> (0 < d)%Z -> (b * d <= limit)%Z ->
  (rnd (IZR a / IZR b) <= rnd (IZR c / IZR d) <-> (a * d <= c * b)%Z).
Proof.
  intros a b c d A B C D L. split; intro H.
  - destruct (Z_le_gt_dec (a * d) (c * b)) as [X|X]; [exact X|exfalso].
    pose proof (frac_gap c d a b D B) as G. assert (X' : (c * b < a * d)%Z) by lia. specialize (G X').
    pose proof (gap_size (d * b)) as GS. assert (X2 : (0 < d * b <= limit)%Z) by nia. specialize (GS X2).
    pose proof (rnd_unit _ (frac_unit a b A B)) as E1. pose proof (rnd_unit _ (frac_unit c d C D)) as E2.
    apply Rabs_le_inv in E1. apply Rabs_le_inv in E2. pose proof (bpow_gt_0 radix2 (-53)). lra.
  - apply rnd_le. apply frac_le; lia.
Qed.

(** ** C116 *)
(** Deciding on binary64 whether a pseudo p-value is at most the critical value a/b gives
    the exact answer, ties included. *)
Theorem C116_decision : forall c n a b, (0 <= c <= n)%Z -> (0 <= a <= b)%Z -> (0 < b)%Z -> ((n + 1) * b <= 2 ^ 51)%Z ->
  (significant (pseudo64 c n) (crit64 a b) = true <-> ((c + 1) * b <= a * (n + 1))%Z).
Proof.
  intros c n a b C A B L. unfold significant, crit64. rewrite pseudo_eq by (unfold limit; nia).
  pose proof (compare_fractions (c + 1) (n + 1) a b ltac:(lia) ltac:(lia) A B L) as E.
  destruct (Rle_dec _ _) as [H|H].
  - split; [intros _; apply E; exact H|reflexivity].
  - split; [discriminate|]. intros X. exfalso. apply H, E, X.
Qed.
Print Assumptions C116_decision.

(** Larger counts give larger p-values; the p-value is positive, at most 1, and 1 only
    if every permutation is at least as extreme. *)
Theorem C116_order : forall c c' n, (0 <= c <= n)%Z -> (0 <= c' <= n)%Z -> ((n + 1) * (n + 1) <= 2 ^ 51)%Z ->
  (pseudo64 c n < pseudo64 c' n <-> (c < c')%Z) /\
  0 < pseudo64 c n <= 1 /\ (pseudo64 c n = 1 <-> c = n).
Proof.
  intros c c' n C C' L.
  assert (M : forall x y, (0 <= x <= n)%Z -> (0 <= y <= n)%Z -> (pseudo64 x n <= pseudo64 y n <-> (x <= y)%Z)).
  { intros x y X Y. rewrite !pseudo_eq by (unfold limit; nia). rewrite compare_fractions by (unfold limit; lia). nia. }
  assert (R1 : pseudo64 n n = 1).
  { rewrite pseudo_eq by (unfold limit; nia). replace (IZR (n + 1) / IZR (n + 1)) with 1; [apply rnd_1|].
    field. apply not_0_IZR. lia. }
  split; [|split].
  - split; intro H.
    + destruct (Z_lt_ge_dec c c') as [X|X]; [exact X|exfalso]. apply (Rlt_not_le _ _ H). apply M; lia.
    + apply Rnot_le_lt. intro X. apply M in X; lia.
  - split; [|rewrite <- R1; apply M; lia]. rewrite pseudo_eq by (unfold limit; nia).
    pose proof (frac_gap 0 1 (c + 1) (n + 1)) as G. assert (X : (0 * (n + 1) < (c + 1) * 1)%Z) by lia.
    specialize (G ltac:(lia) ltac:(lia) X). replace (IZR 0 / IZR 1) with 0 in G by (simpl; lra).
    pose proof (gap_size (1 * (n + 1))) as GS. specialize (GS ltac:(unfold limit; nia)).
    pose proof (rnd_unit _ (frac_unit (c + 1) (n + 1) ltac:(lia) ltac:(lia))) as E. apply Rabs_le_inv in E.
    pose proof (bpow_gt_0 radix2 (-53)). lra.
  - split; intro H; [|subst c; exact R1]. assert (X : pseudo64 n n <= pseudo64 c n) by lra. apply M in X; lia.
Qed.
Print Assumptions C116_order.

(** knox folds the count before dividing, so its p-value decides exactly as well. *)
Theorem C116_knox : forall c n a b, (0 <= c <= n)%Z -> (0 <= a <= b)%Z -> (0 < b)%Z -> ((n + 1) * b <= 2 ^ 51)%Z ->
  (significant (knox64 c n) (crit64 a b) = true <-> ((Z.min c (n - c) + 1) * b <= a * (n + 1))%Z).
Proof.
  intros c n a b C A B L. unfold knox64. destruct (Z.ltb_spec (n - c) c) as [H|H].
  - rewrite Z.min_r by lia. apply C116_decision; lia.
  - rewrite Z.min_l by lia. apply C116_decision; lia.
Qed.
Print Assumptions C116_knox.

(** The Ripley tests fold the p-value.  In the lower half nothing changes; in the upper
    half the result is 1 - p without further rounding, and it is 0 exactly if all
    simulations are at least as large as the data. *)
Theorem C116_folded : forall c n, (0 <= c <= n)%Z -> ((n + 1) * (n + 1) <= 2 ^ 51)%Z ->
  ((2 * (c + 1) <= n + 1)%Z -> ripley64 c n = pseudo64 c n) /\
  ((2 * (c + 1) > n + 1)%Z -> ripley64 c n = 1 - pseudo64 c n /\ Rabs (ripley64 c n - IZR (n - c) / IZR (n + 1)) <= bpow radix2 (-53)) /\
  (ripley64 c n = 0 <-> c = n).
Proof.
  intros c n C L. pose proof (C116_order c c n C C L) as [_ [[P0 P1] PE]].
  assert (LE : pseudo64 c n = rnd (IZR (c + 1) / IZR (n + 1))) by (apply pseudo_eq; unfold limit; nia).
  assert (HALF : rnd (/ 2) = / 2) by (apply rnd_id, float_half).
  assert (N1 : 0 < IZR (n + 1)) by (apply IZR_lt; lia).
  assert (LOW : (2 * (c + 1) <= n + 1)%Z -> ripley64 c n = pseudo64 c n).
  { intros H. unfold ripley64, folded64. apply Rmin_left.
    assert (X : pseudo64 c n <= / 2).
    { rewrite LE, <- HALF. apply rnd_le. replace (/ 2) with (IZR 1 / IZR 2) by lra. apply frac_le; lia. }
    assert (Y : / 2 <= rnd (1 - pseudo64 c n)) by (rewrite <- HALF; apply rnd_le; lra). lra. }
  assert (HIGH : (2 * (c + 1) > n + 1)%Z -> ripley64 c n = 1 - pseudo64 c n).
  { intros H. assert (X : / 2 <= pseudo64 c n).
    { rewrite LE, <- HALF. apply rnd_le. replace (/ 2) with (IZR 1 / IZR 2) by lra. apply frac_le; lia. }
    assert (F : isfloat (1 - pseudo64 c n)).
    { apply sterbenz; auto with typeclass_instances; [apply float_1|rewrite LE; apply rnd_float|lra]. }
    unfold ripley64, folded64. rewrite (rnd_id _ F). apply Rmin_right. lra. }
  split; [exact LOW|]. split.
  - intros H. split; [apply HIGH, H|]. rewrite HIGH by exact H. rewrite LE.
    replace (1 - rnd (IZR (c + 1) / IZR (n + 1)) - IZR (n - c) / IZR (n + 1))
      with (- (rnd (IZR (c + 1) / IZR (n + 1)) - IZR (c + 1) / IZR (n + 1))).
    + rewrite Rabs_Ropp. apply rnd_unit. apply frac_unit; lia.
    + assert (E : IZR (n - c) / IZR (n + 1) = 1 - IZR (c + 1) / IZR (n + 1)).
      { replace (n - c)%Z with ((n + 1) - (c + 1))%Z by lia. rewrite minus_IZR. field. lra. }
      rewrite E. ring.
  - destruct (Z_le_gt_dec (2 * (c + 1)) (n + 1)) as [H|H].
    + rewrite LOW by exact H. split; intro X; [lra|]. exfalso. lia.
    + rewrite HIGH by exact H. rewrite <- PE. split; intro X; lra.
Qed.
Print Assumptions C116_folded.

(** A folded p-value of the upper half decides correctly unless it equals the critical
    value. *)
Theorem C116_folded_decision : forall c n a b, (0 <= c <= n)%Z -> (0 <= a <= b)%Z -> (0 < b)%Z ->
  ((n + 1) * b <= 2 ^ 51)%Z -> ((n + 1) * (n + 1) <= 2 ^ 51)%Z -> (2 * (c + 1) > n + 1)%Z ->
  ((n - c) * b < a * (n + 1) -> significant (ripley64 c n) (crit64 a b) = true)%Z /\
  ((n - c) * b > a * (n + 1) -> significant (ripley64 c n) (crit64 a b) = false)%Z.
Proof.
  intros c n a b C A B L1 L2 H. destruct (C116_folded c n C L2) as [_ [F _]]. destruct (F H) as [_ E]. apply Rabs_le_inv in E.
  pose proof (rnd_unit _ (frac_unit a b A B)) as EC. apply Rabs_le_inv in EC. pose proof (bpow_gt_0 radix2 (-53)) as P.
  unfold significant, crit64. split; intros X.
  - destruct (Rle_dec _ _) as [Y|Y]; [reflexivity|exfalso]. apply Y.
    pose proof (frac_gap (n - c) (n + 1) a b ltac:(lia) B X) as G. pose proof (gap_size ((n + 1) * b)) as GS.
    specialize (GS ltac:(unfold limit; nia)). lra.
  - destruct (Rle_dec _ _) as [Y|Y]; [exfalso|reflexivity].
    pose proof (frac_gap a b (n - c) (n + 1) B ltac:(lia) ltac:(lia)) as G. pose proof (gap_size (b * (n + 1))) as GS.
    specialize (GS ltac:(unfold limit; nia)). lra.
Qed.
Print Assumptions C116_folded_decision.

(** If it does, the answer can be wrong: with 99 simulations, 94 of them at least as
    large as the data, the p-value is 5/100 and yet is not at most 0.05, while for 4 of
    them it is 5/100 as well and at most 0.05. *)
Lemma rnd_95 : rnd (IZR 95 / IZR 100) = IZR 8556839292003942 * bpow radix2 (-53).
Proof. apply rnd_by; [lia|simpl; lra|]. simpl. apply Rabs_def1; lra. Qed.
Lemma rnd_05 : rnd (IZR 5 / IZR 100) = IZR 7205759403792794 * bpow radix2 (-57).
Proof. apply rnd_by; [lia|simpl; lra|]. simpl. apply Rabs_def1; lra. Qed.
Theorem C116_tie_refuted :
  significant (ripley64 94 99) (crit64 5 100) = false /\ significant (ripley64 4 99) (crit64 5 100) = true.
Proof.
  destruct (C116_folded 94 99 ltac:(lia) ltac:(lia)) as [_ [F _]]. destruct (F ltac:(lia)) as [E _].
  destruct (C116_folded 4 99 ltac:(lia) ltac:(lia)) as [G _]. specialize (G ltac:(lia)).
  split.
  - unfold significant. rewrite E. rewrite pseudo_eq by (unfold limit; lia). change (94 + 1)%Z with 95%Z. change (99 + 1)%Z with 100%Z.
    unfold crit64. rewrite rnd_95, rnd_05. destruct (Rle_dec _ _) as [H|H]; [exfalso; simpl in H; lra|reflexivity].
  - rewrite G. apply C116_decision; lia.
Qed.
Print Assumptions C116_tie_refuted.

(** Subtracting from 1: the result is 0 or at least 2^-53, whatever cdf value was
    computed; in particular tails below 2^-54 become 0 even if the cdf is correctly
    rounded. *)
Theorem C116_upper : forall cdf, isfloat cdf -> 0 <= cdf <= 1 ->
  (upper64 cdf = 0 <-> cdf = 1) /\ (cdf < 1 -> bpow radix2 (-53) <= upper64 cdf).
Proof.
  intros cdf F R1. unfold upper64.
  assert (B : cdf < 1 -> bpow radix2 (-53) <= rnd (1 - cdf)).
  { intros H. apply below_1 in H; [|exact F]. rewrite <- (rnd_id (bpow radix2 (-53))).
    - apply rnd_le. lra.
    - replace (bpow radix2 (-53)) with (IZR 1 * bpow radix2 (-53)) by ring. apply float_dyadic; lia. }
  split; [|exact B]. split; intro H.
  - destruct (Rlt_dec cdf 1) as [X|X]; [|lra]. specialize (B X). pose proof (bpow_gt_0 radix2 (-53)). lra.
  - subst cdf. replace (1 - 1) with 0 by ring. apply rnd_0.
Qed.
Print Assumptions C116_upper.
Theorem C116_small_tail : forall tail, 0 <= tail < bpow radix2 (-54) -> upper64 (rnd (1 - tail)) = 0.
Proof.
  intros tail T. assert (S : bpow radix2 (-54) = bpow radix2 (-53) / 2) by (simpl; lra).
  assert (P : bpow radix2 (-53) < 1) by (simpl; lra).
  assert (E : rnd (1 - tail) = 1).
  { destruct (rnd_unit_range (1 - tail)) as [_ U]; [lra|]. destruct (Rlt_dec (rnd (1 - tail)) 1) as [X|X]; [exfalso|lra].
    apply below_1 in X; [|apply rnd_float].
    destruct (round_N_pt radix2 fexp64 (fun x => negb (Z.even x)) (1 - tail)) as [_ N]. specialize (N 1 float_1).
    change (Rabs (rnd (1 - tail) - (1 - tail)) <= Rabs (1 - (1 - tail))) in N.
    rewrite (Rabs_pos_eq (1 - (1 - tail))) in N by lra. apply Rabs_le_inv in N. lra. }
  rewrite E. apply C116_upper; [apply float_1|lra|reflexivity].
Qed.
Print Assumptions C116_small_tail.

(** 999 permutations, 49 at least as extreme: exactly 0.05, found significant. *)
Example C116_case : significant (pseudo64 49 999) (crit64 5 100) = true /\ significant (pseudo64 50 999) (crit64 5 100) = false /\
  significant (knox64 950 999) (crit64 5 100) = true.
Proof.
  split; [apply C116_decision; lia|]. split; [|apply C116_knox; lia].
  destruct (significant (pseudo64 50 999) (crit64 5 100)) eqn:E; [|reflexivity]. apply C116_decision in E; lia.
Qed.
Example C116_upper_case : upper64 (rnd (1 - bpow radix2 (-60))) = 0.
Proof. apply C116_small_tail. simpl. lra. Qed.
