(** Property C92: the analytic p-value of the Knox test. *)
From Coq Require Import ZArith QArith Qround Qreals Reals List Lia Lra.
From Verif Require Import Base BaseLemmas Spec Quadrat_model Spacetime_model Spacetime_spec Spacetime_proofs Spacetime_props Poisson_model.
Import ListNotations.
Local Open Scope R_scope.

(** The probability that a Poisson number of mean [mu] is at least [k]: the sum of
    the infinite series of the probabilities of k, k+1, ... *)
Definition at_least (mu : R) (k : nat) (p : R) : Prop :=
  infinite_sum (fun i => poisson_pmf mu (k + i)) p.

Lemma pmf_nonneg : forall mu i, 0 <= mu -> 0 <= poisson_pmf mu i.
Proof.
  intros. unfold poisson_pmf. apply Rmult_le_pos; [apply Rlt_le, exp_pos|].
  apply Rmult_le_pos; [apply Rlt_le, Rinv_0_lt_compat, INR_fact_lt_0 | apply pow_le; auto].
Qed.
Lemma pmf_pos : forall mu i, 0 < mu -> 0 < poisson_pmf mu i.
Proof.
  intros. unfold poisson_pmf. apply Rmult_lt_0_compat; [apply exp_pos|].
  apply Rmult_lt_0_compat; [apply Rinv_0_lt_compat, INR_fact_lt_0 | apply pow_lt; auto].
Qed.
Lemma pmf_total : forall mu, infinite_sum (poisson_pmf mu) 1.
Proof.
  intros mu. unfold exp. 
  assert (E : infinite_sum (fun i => / INR (fact i) * mu ^ i) (exp mu)) by (unfold exp; destruct (exist_exp mu); auto).
  assert (P : exp (- mu) * exp mu = 1) by (rewrite <- exp_plus, Rplus_opp_l; apply exp_0).
  intros eps H. 
  assert (Q : 0 < exp (- mu)) by apply exp_pos.
  destruct (E (eps / exp (- mu))) as [N HN]; [apply Rdiv_lt_0_compat; auto|].
  exists N. intros n Hn. specialize (HN n Hn). unfold R_dist in *.
  assert (S : sum_f_R0 (poisson_pmf mu) n = exp (- mu) * sum_f_R0 (fun i => / INR (fact i) * mu ^ i) n).
  { rewrite scal_sum. apply sum_eq. intros. unfold poisson_pmf. ring. }
  rewrite S, <- P. replace (exp (- mu) * sum_f_R0 (fun i => / INR (fact i) * mu ^ i) n - exp (- mu) * exp mu)
    with (exp (- mu) * (sum_f_R0 (fun i => / INR (fact i) * mu ^ i) n - exp mu)) by ring.
  rewrite Rabs_mult, (Rabs_right (exp (- mu))) by lra.
  apply (Rmult_lt_compat_l (exp (- mu))) in HN; auto.
  replace (exp (- mu) * (eps / exp (- mu))) with eps in HN by (field; lra). exact HN.
Qed.

Lemma tail_cdf : forall mu k, at_least mu (S k) (1 - sum_f_R0 (poisson_pmf mu) k).
Proof.
  intros mu k eps H. destruct (pmf_total mu eps H) as [N HN]. exists N. intros n Hn.
  specialize (HN (S k + n)%nat ltac:(lia)). rewrite (tech2 _ k (S k + n)) in HN by lia.
  replace (S k + n - S k)%nat with n in HN by lia. unfold R_dist in *.
  match goal with |- Rabs ?a < _ => match type of HN with Rabs ?b < _ => replace a with b by ring end end. exact HN.
Qed.
Lemma at_least_unique : forall mu k p q, at_least mu k p -> at_least mu k q -> p = q.
Proof. intros mu k p q. apply uniqueness_sum. Qed.
Lemma at_least_step : forall mu k p, at_least mu (S k) p -> at_least mu k (poisson_pmf mu k + p).
Proof.
  intros mu k p H. destruct k as [|k].
  - assert (Q : p = 1 - sum_f_R0 (poisson_pmf mu) 0) by (apply (at_least_unique mu 1); auto; apply tail_cdf).
    replace (poisson_pmf mu 0 + p) with 1 by (rewrite Q; cbn [sum_f_R0]; ring). intros eps E. apply (pmf_total mu eps E).
  - assert (Q : p = 1 - sum_f_R0 (poisson_pmf mu) (S k)) by (apply (at_least_unique mu (S (S k))); auto; apply tail_cdf).
    replace (poisson_pmf mu (S k) + p) with (1 - sum_f_R0 (poisson_pmf mu) k) by (rewrite Q; cbn [sum_f_R0]; ring). apply tail_cdf.
Qed.
Lemma at_least_nonneg : forall mu k p, 0 <= mu -> at_least mu k p -> 0 <= p.
Proof.
  intros mu k p M H. destruct (Rle_or_lt 0 p) as [|G]; auto. exfalso.
  destruct (H (- p)) as [N HN]; [lra|]. specialize (HN N (le_n N)). unfold R_dist in HN.
  assert (S : 0 <= sum_f_R0 (fun i => poisson_pmf mu (k + i)) N) by (apply cond_pos_sum; intro; apply pmf_nonneg; auto).
  rewrite Rabs_right in HN by lra. lra.
Qed.

(** Let a, b and c be the numbers of pairs of events close in space, close in time
    and close in both. p_poisson is the probability that a Poisson number of mean
    a*b/(n(n-1)/2) exceeds c. It is a number in [0,1), and it is NaN for fewer than
    two events. *)
Theorem C92_poisson_tail : forall ball, Ball ball -> forall s t delta tau perms k a b c,
  knox_global ball s t delta tau perms = Ok k ->
  Card (SPair s delta) a -> Card (SPair t tau) b -> Card (STPair s t delta tau) c ->
  let n := INR (List.length s) in
  let mu := INR a * INR b / (n * (n - 1) / 2) in
  ((List.length s < 2)%nat -> p_value_poisson k = None) /\
  ((2 <= List.length s)%nat -> exists p, p_value_poisson k = Some p /\ 0 <= mu /\ at_least mu (S c) p /\ 0 <= p < 1).
Proof.
  intros ball HB s t delta tau perms k a b c H CA CB CC n mu.
  destruct (C62_knox_counts ball HB _ _ _ _ _ _ _ _ _ H CA CB CC) as (NS & NT & NST & _).
  destruct (C63_expected ball HB _ _ _ _ _ _ H) as [X1 X2]. split.
  - intro L. unfold p_value_poisson. rewrite (X1 L). reflexivity.
  - intro L. destruct (X2 L) as (e00 & e01 & e10 & e11 & EE & PP & E0 & _ & _ & _ & P0 & _).
    unfold p_value_poisson. rewrite EE. eexists. split; [reflexivity|].
    assert (KP : (k_pairs k == Qnat (List.length s) * (Qnat (List.length s) - 1) / 2)%Q).
    { destruct (knox_inv ball HB _ _ _ _ _ _ H) as [_ [_ [_ [_ [_ [_ [_ [_ NP]]]]]]]]. rewrite NP. reflexivity. }
    assert (QN : forall m, Q2R (Qnat m) = INR m).
    { intro m. unfold Qnat, Q2R. cbn [Qnum Qden inject_Z]. rewrite INR_IZR_INZ. field. }
    assert (MU : Q2R e00 = mu).
    { assert (NP : 0 < n * (n - 1) / 2).
      { assert (2 <= n) by (apply (le_INR 2); auto). apply Rmult_lt_0_compat; [apply Rmult_lt_0_compat|]; lra. }
      assert (PE : Q2R (k_pairs k) = n * (n - 1) / 2).
      { rewrite (Qeq_eqR _ _ KP). unfold Qdiv. rewrite !Q2R_mult, Q2R_minus, !QN. fold n.
        replace (Q2R 1) with 1 by (unfold Q2R; simpl; field). replace (Q2R (/ 2)) with (/ 2) by (unfold Q2R; simpl; field). unfold Rdiv. ring. }
      apply Qeq_eqR in E0. rewrite !Q2R_mult, PE, (Qeq_eqR _ _ NS), (Qeq_eqR _ _ NT), !QN in E0.
      unfold mu. apply (Rmult_eq_reg_r (n * (n - 1) / 2)); [|lra]. rewrite E0. field. 
      assert (2 <= n) by (apply (le_INR 2); auto). lra. }
    assert (M0 : 0 <= mu). { rewrite <- MU. apply Qle_Rle in P0. replace (Q2R 0) with 0 in P0 by (unfold Q2R; simpl; field). exact P0. }
    assert (CD : poisson_cdf (k_nst k) (Q2R e00) = sum_f_R0 (poisson_pmf mu) c).
    { unfold poisson_cdf. rewrite MU. 
      assert (F : Qfloor (k_nst k) = Z.of_nat c).
      { rewrite NST. unfold Qnat. apply Qfloor_Z. }
      rewrite F. destruct (Z.ltb_spec (Z.of_nat c) 0); [lia|]. rewrite Nat2Z.id. reflexivity. }
    rewrite CD. split; [exact M0|]. pose proof (tail_cdf mu c) as T. split; [exact T|]. split; [apply (at_least_nonneg mu (S c)); auto|].
    assert (0 < sum_f_R0 (poisson_pmf mu) c); [|lra].
    assert (Z : forall m, 0 < sum_f_R0 (poisson_pmf mu) m); [|apply Z].
    induction m as [|m IH]; cbn [sum_f_R0].
    + unfold poisson_pmf. simpl. rewrite Rinv_1, !Rmult_1_r. apply exp_pos.
    + pose proof (pmf_nonneg mu (S m) M0). lra.
Qed.
Print Assumptions C92_poisson_tail.

(** The one-sided p-value of the test, the probability of a count at least as large
    as the observed one, is larger: by the probability of the observed count. It is
    1 when no two events are close, where p_poisson is 0. *)
Theorem C92_upper_tail_refuted : forall ball, Ball ball -> forall s t delta tau perms k a b c p,
  knox_global ball s t delta tau perms = Ok k ->
  Card (SPair s delta) a -> Card (SPair t tau) b -> Card (STPair s t delta tau) c ->
  p_value_poisson k = Some p ->
  let n := INR (List.length s) in
  let mu := INR a * INR b / (n * (n - 1) / 2) in
  at_least mu c (poisson_pmf mu c + p) /\
  p < poisson_pmf mu c + p /\
  (a = 0%nat \/ b = 0%nat -> p = 0 /\ at_least mu c 1).
Proof.
  intros ball HB s t delta tau perms k a b c p H CA CB CC PV n mu.
  destruct (C92_poisson_tail ball HB s t delta tau perms k a b c H CA CB CC) as [T1 T2]. fold n mu in T2.
  destruct (Nat.lt_ge_cases (List.length s) 2) as [L|L]; [rewrite (T1 L) in PV; discriminate|].
  destruct (T2 L) as (p' & PV' & M0 & A & B). rewrite PV in PV'. injection PV' as <-.
  pose proof (at_least_step mu c p A) as ST. split; [exact ST|].
  destruct (C62_knox_counts ball HB _ _ _ _ _ _ _ _ _ H CA CB CC) as (NS & NT & NST & _).
  assert (ZERO : a = 0%nat \/ b = 0%nat -> mu = 0 /\ c = 0%nat).
  { intro Z. split; [unfold mu; destruct Z as [-> | ->]; simpl; unfold Rdiv; ring|].
    destruct CC as (lc & _ & IC & <-).
    destruct lc as [|[i j] lc]; auto. exfalso.
    assert (X : STPair s t delta tau (i, j)) by (apply IC; left; reflexivity).
    destruct X as ((X1 & X2) & X3).
    destruct (knox_inv ball HB _ _ _ _ _ _ H) as [E _].
    destruct Z as [-> | ->].
    - destruct CA as (la & _ & IA & LA). destruct la; [|discriminate].
      apply (IA (i, j)). split; auto.
    - destruct CB as (lb & _ & IB & LB). destruct lb; [|discriminate].
      apply (IB (i, j)). split; auto. unfold SPair in *. rewrite <- E. auto. }
  split.
  - assert (0 < poisson_pmf mu c); [|lra].
    destruct M0 as [M|M]; [apply pmf_pos; auto|].
    assert (c = 0%nat) as ->.
    { destruct (Nat.eq_dec a 0) as [Z|Z]; [apply ZERO; auto|]. destruct (Nat.eq_dec b 0) as [Z2|Z2]; [apply ZERO; auto|]. exfalso.
      assert (2 <= n) by (apply (le_INR 2); auto).
      assert (0 < mu); [|lra]. unfold mu. apply Rdiv_lt_0_compat.
      - apply Rmult_lt_0_compat; apply lt_0_INR; lia.
      - apply Rmult_lt_0_compat; [apply Rmult_lt_0_compat|]; lra. }
    unfold poisson_pmf. simpl. rewrite Rinv_1, !Rmult_1_r. apply exp_pos.
  - intro Z. destruct (ZERO Z) as [EM EC]. rewrite EM, EC in *.
    assert (PM : poisson_pmf 0 0 = 1).
    { unfold poisson_pmf. simpl. rewrite Rinv_1, Ropp_0, exp_0. ring. }
    assert (TT : at_least 0 0 1) by (intros eps E; apply (pmf_total 0 eps E)).
    split; [|exact TT]. pose proof (at_least_unique 0 0 _ _ ST TT). lra.
Qed.
Print Assumptions C92_upper_tail_refuted.

(** More observed pairs, smaller p-value. *)
Theorem C92_antitone : forall mu c c' p p', 0 <= mu -> (c <= c')%nat ->
  at_least mu c p -> at_least mu c' p' -> p' <= p.
Proof.
  intros mu c c' p p' M L. revert p'. induction L as [|c' L IH]; intros p' A B.
  - rewrite (at_least_unique mu c p p' A B). lra.
  - specialize (IH _ A (at_least_step _ _ _ B)). pose proof (pmf_nonneg mu c' M). lra.
Qed.
Print Assumptions C92_antitone.

(** Four events, none of which are close: the p-value of the observed count 0 is 0. *)
Example C92_case : exists k, knox_global ball_up s_ex t_ex (1 # 2) (1 # 2) [] = Ok k /\ p_value_poisson k = Some 0.
Proof.
  eexists. split; [vm_compute; reflexivity|]. unfold p_value_poisson, poisson_cdf.
  cbn [k_exp k_nst]. change (Qfloor (0 # 2)) with 0%Z. cbv iota beta.
  destruct (Z.ltb_spec 0 0); [lia|]. cbn [sum_f_R0 Z.to_nat]. unfold poisson_pmf. 
  match goal with |- context [Q2R ?q] => replace (Q2R q) with 0 by (unfold Q2R; simpl; field) end.
  f_equal. simpl. rewrite Ropp_0, exp_0, Rinv_1. ring.
Qed.
