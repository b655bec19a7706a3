(** Lemmas about the chi-square statistic on binary64. *)
From Coq Require Import Reals ZArith List Bool Lia Lra Psatz Permutation Arith.
From Flocq Require Import Core BinarySingleNaN.
From Verif Require Import Base Float_model Float_proofs F64_model F64_proofs F64_props Hex64_proofs K64_model K64_spec K64_proofs Area64_model Area64_spec Area64_proofs Wmc64_proofs Chi64_model Chi64_spec.
Import ListNotations.
Local Open Scope R_scope.

(** ** Counts *)
Definition squares (c : list Z) : Z := fold_right (fun k s => (k * k + s)%Z) 0%Z c.
Definition off (m : R) (c : list Z) : R := total (map (fun k => (IZR k - m) ^ 2) c).
Lemma off_is : forall m c, off m c = IZR (squares c) - 2 * m * IZR (points c) + INR (length c) * (m * m).
Proof.
  intros m c. unfold off. induction c as [|k c IH]; [cbn; lra|]. cbn [map total fold_right squares points length]. fold (points c) (squares c).
  change (fold_right Rplus 0 (map (fun k => (IZR k - m) ^ 2) c)) with (total (map (fun k => (IZR k - m) ^ 2) c)). rewrite IH, S_INR, !plus_IZR, mult_IZR. ring.
Qed.
Lemma total_div : forall m l (f : Z -> R), total (map (fun k => f k / m) l) = total (map f l) / m.
Proof. intros m l f. induction l as [|k l IH]; cbn; [lra|]. unfold total in IH. rewrite IH. lra. Qed.
Lemma counted_length : forall c, counted c -> (1 <= length c)%nat.
Proof. intros [|k c] [_ N]; cbn in *; lia. Qed.
Lemma share_pos : forall c, counted c -> 0 < even_share c /\ even_share c * INR (length c) = IZR (points c).
Proof.
  intros c C. pose proof (counted_length c C) as L. destruct C as [_ N]. apply le_INR in L. cbn in L. apply IZR_le in N. unfold even_share. split; [|field; lra].
  apply Rdiv_lt_0_compat; lra.
Qed.
Lemma chi2_off : forall c, chi2 c = off (even_share c) c / even_share c.
Proof. intro c. unfold chi2, off. apply total_div. Qed.
Lemma chi2_is : forall c, counted c -> chi2 c = INR (length c) * IZR (squares c) / IZR (points c) - IZR (points c).
Proof.
  intros c C. destruct (share_pos c C) as [P E]. rewrite chi2_off, off_is. destruct C as [_ N]. apply IZR_le in N. set (M := INR (length c)) in *. set (m := even_share c) in *. set (s := IZR (squares c)). rewrite <- E in *.
  assert (M <> 0) by (intro Z0; rewrite Z0 in N; lra). field. split; lra.
Qed.
Lemma squares_le : forall c, Forall (fun k => (0 <= k)%Z) c -> (0 <= squares c <= points c * points c)%Z /\ (0 <= points c)%Z /\ Forall (fun k => (k <= points c)%Z) c.
Proof.
  induction 1 as [|k c K _ (A & B & F)]; [cbn; split; [lia|]; split; [lia|constructor]|]. cbn [squares points fold_right]. fold (points c) (squares c).
  split; [nia|]. split; [lia|]. constructor; [lia|]. eapply Forall_impl; [|exact F]. cbn. intros; lia.
Qed.
Lemma chi2_range : forall c, counted c -> 0 <= chi2 c <= INR (length c) * IZR (points c).
Proof.
  intros c C. destruct (share_pos c C) as [P E]. split.
  - rewrite chi2_off. apply Rmult_le_pos; [|apply Rlt_le, Rinv_0_lt_compat; exact P]. unfold off. clear. generalize (even_share c). intro m. induction c as [|k c IH]; cbn -[pow]; [lra|]. unfold total in IH. pose proof (pow2_ge_0 (IZR k - m)). lra.
  - rewrite chi2_is by exact C. destruct C as [F N]. destruct (squares_le c F) as (S2 & _). destruct S2 as [_ S2]. apply IZR_le in S2, N. rewrite mult_IZR in S2. set (s := IZR (squares c)) in *. set (n := IZR (points c)) in *.
    pose proof (pos_INR (length c)). assert (s / n <= n) by (apply Rmult_le_reg_r with n; [lra|]; unfold Rdiv; rewrite Rmult_assoc, Rinv_l by lra; lra).
    replace (INR (length c) * s / n) with (INR (length c) * (s / n)) by (unfold Rdiv; ring). nra.
Qed.
Lemma chi2_gap : forall a b, counted a -> counted b -> length a = length b -> points a = points b -> chi2 a < chi2 b ->
  INR (length a) / IZR (points a) <= chi2 b - chi2 a.
Proof.
  intros a b A B L P H. rewrite !chi2_is in * by assumption. rewrite <- L, <- P in *. pose proof (counted_length a A) as M. apply le_INR in M. cbn in M. destruct A as [_ N]. apply IZR_le in N.
  set (n := IZR (points a)) in *. set (m := INR (length a)) in *. assert (IN : 0 < m / n) by (apply Rdiv_lt_0_compat; lra).
  replace (m * IZR (squares b) / n - n) with (m / n * IZR (squares b) - n) in * by (unfold Rdiv; ring). replace (m * IZR (squares a) / n - n) with (m / n * IZR (squares a) - n) in * by (unfold Rdiv; ring).
  assert (S1 : (squares a + 1 <= squares b)%Z). { apply Zlt_le_succ, lt_IZR. apply Rmult_lt_reg_l with (m / n); lra. }
  apply IZR_le in S1. rewrite plus_IZR in S1. nra.
Qed.

(** ** The mean *)
Section Error.
Variables (c : list Z) (ts : tree).
Hypothesis C : counted c.
Hypothesis Hn : (points c <= 2 ^ 50)%Z.
Hypothesis Hm : (Z.of_nat (length c) <= 2 ^ 49)%Z.
Hypothesis ST : Adds ts (counts64 c).
Notation N := (IZR (points c)).
Notation M := (INR (length c)).
Notation mu := (even_share c).
Notation mm := (expected64 ts (length c)).
Notation m := (V mm).
Lemma in_range : forall k, In k c -> (0 <= k <= points c)%Z.
Proof using C. intros k K. destruct C as [F _]. destruct (squares_le c F) as (_ & _ & G). rewrite Forall_forall in F, G. split; auto. Qed.
Lemma n_range : 1 <= N <= bpow radix2 50.
Proof using C Hn. destruct C as [_ P]. split; [apply IZR_le in P; exact P|]. rewrite <- IZR_pow2 by lia. apply IZR_le, Hn. Qed.
Lemma m_range : 1 <= M <= bpow radix2 49.
Proof using C Hm. pose proof (counted_length c C) as L. apply le_INR in L. cbn in L. split; [exact L|]. rewrite <- IZR_pow2, INR_IZR_INZ by lia. apply IZR_le, Hm. Qed.
Lemma counts_sum : Forall fin (counts64 c) /\ Forall (multiple 0) (counts64 c) /\ Vsum (counts64 c) = N /\ Vabs (counts64 c) = N.
Proof using C Hn.
  assert (R0 : forall l, Forall (fun k => (0 <= k <= 2 ^ 50)%Z) l -> Forall fin (counts64 l) /\ Forall (multiple 0) (counts64 l) /\ Vsum (counts64 l) = IZR (points l) /\ Vabs (counts64 l) = IZR (points l)).
  { induction 1 as [|k l K _ (A & B & D & E)]; [unfold Vsum, Vabs; cbn; repeat split; constructor|]. destruct (fint_ok k) as [F1 F2]; [lia|]. unfold Vsum, Vabs in *. cbn. fold (points l). rewrite plus_IZR.
    unfold counts64 in D, E. rewrite D, E, F2, Rabs_pos_eq by (apply IZR_le; lia). split; [constructor; assumption|]. split; [constructor; [exists k; rewrite F2; cbn; lra|assumption]|]. split; reflexivity. }
  apply R0. apply Forall_forall. intros k K. apply in_range in K. lia.
Qed.
Lemma sum_exact : fin (tsum ts) /\ V (tsum ts) = N.
Proof using C Hn ST.
  destruct counts_sum as (A & B & D & E). destruct (adds_ok ts _ ST A) as (F1 & F2 & F3 & _ & F5). pose proof n_range as NR.
  destruct (tsum_exact ts 0 ltac:(lia) F1 (F5 0%Z B)) as (G1 & G2 & _).
  - rewrite F3, E. eapply Rle_trans; [apply NR|]. apply bpow_le. lia.
  - split; [exact G1|]. rewrite G2, F2. exact D.
Qed.
Lemma mu_range : bpow radix2 (-49) <= mu <= bpow radix2 50.
Proof using C Hn Hm.
  pose proof n_range as NR. pose proof m_range as MR. destruct (share_pos c C) as [P E]. split.
  - apply Rmult_le_reg_r with M; [lra|]. rewrite E. apply Rle_trans with (bpow radix2 (-49) * bpow radix2 49); [apply Rmult_le_compat_l; [apply bpow_ge_0|lra]|]. rewrite <- bpow_plus. cbn. lra.
  - nra.
Qed.
Lemma mean_ok : fin mm /\ m = rnd mu /\ Rabs (m - mu) <= 2 * u * mu /\ mu / 2 <= m.
Proof using C Hn Hm ST.
  destruct sum_exact as [S1 S2]. destruct (fint_ok (Z.of_nat (length c))) as [F1 F2]; [lia|]. pose proof mu_range as MU. pose proof m_range as MR.
  assert (VM : V (tsum ts) / V (fint (Z.of_nat (length c))) = mu) by (rewrite S2, F2, <- INR_IZR_INZ; reflexivity).
  destruct (share_pos c C) as [P _]. destruct (fdiv_ok (tsum ts) (fint (Z.of_nat (length c))) S1) as [D1 D2].
  - rewrite F2, <- INR_IZR_INZ. lra.
  - rewrite VM, Rabs_pos_eq by lra. eapply Rle_trans; [apply MU|]. apply bpow_le. lia.
  - rewrite VM in D2. split; [exact D1|]. split; [exact D2|]. assert (ER : Rabs (m - mu) <= 2 * u * mu).
    { unfold expected64. rewrite D2. eapply Rle_trans; [apply rnd_error|]. rewrite Rabs_pos_eq by lra. assert (T : tiny <= u * mu).
      { apply Rle_trans with (u * bpow radix2 (-49)); [unfold tiny, u; rewrite <- bpow_plus; apply bpow_le; lia|]. apply Rmult_le_compat_l; [apply Rlt_le, u_ge|apply MU]. } lra. }
    split; [exact ER|]. apply Rabs_le_inv in ER. pose proof u_le as U. pose proof u_ge. nra.
Qed.
(** ** One cell *)
Notation eta := (bpow radix2 (-1000)).
Lemma term_ok : forall k, In k c -> fin (term64 mm k) /\ 0 <= V (term64 mm k) /\
  Rabs (V (term64 mm k) - (IZR k - m) ^ 2 / m) <= 5 * u * ((IZR k - m) ^ 2 / m) + eta.
Proof using C Hn Hm ST.
  intros k K. pose proof (in_range k K) as KR. destruct mean_ok as (Fm & _ & ME & ML). pose proof mu_range as MU. pose proof u_ge as U0. assert (US : u <= / 100) by (rewrite u_small; lra).
  destruct (fint_ok k) as [Fk Vk]; [lia|]. apply Rabs_le_inv in ME. assert (M0 : 0 < m) by (pose proof (bpow_gt_0 radix2 (-49)); lra).
  assert (K1 : 0 <= IZR k <= bpow radix2 50). { split; [apply IZR_le; lia|]. rewrite <- IZR_pow2 by lia. apply IZR_le. lia. }
  assert (M1 : m <= bpow radix2 51). { replace (bpow radix2 51) with (2 * bpow radix2 50) by (change 2 with (bpow radix2 1); rewrite <- bpow_plus; reflexivity). nra. }
  assert (B51 : bpow radix2 50 <= bpow radix2 51) by (apply bpow_le; lia).
  set (y := IZR k - m). assert (Y : Rabs y <= bpow radix2 51) by (unfold y; apply Rabs_le; lra).
  destruct (fsub_ok (fint k) mm Fk Fm) as [D1 D2]; [rewrite Vk; fold y; eapply Rle_trans; [exact Y|apply bpow_le; lia]|]. rewrite Vk in D2. fold y in D2.
  pose proof (rnd_minus_error (IZR k) m ltac:(rewrite <- Vk; apply V_float) (V_float _)) as DE. fold y in DE. rewrite <- D2 in DE. set (d := V (fsub (fint k) mm)) in *.
  assert (DB : Rabs d <= bpow radix2 52). { replace d with ((d - y) + y) by ring. eapply Rle_trans; [apply Rabs_triang|]. replace (bpow radix2 52) with (2 * bpow radix2 51) by (change 2 with (bpow radix2 1); rewrite <- bpow_plus; reflexivity). pose proof (Rabs_pos y). nra. }
  destruct (rel_bounds y d DE) as [L1 U1]. set (a := y * y) in *. assert (A0 : 0 <= a) by (unfold a; apply Rle_0_sqr). set (dd := d * d) in *. assert (DD0 : 0 <= dd) by (unfold dd; apply Rle_0_sqr).
  destruct (square_ok (fsub (fint k) mm) D1) as (Q1 & Q2 & [Q3 _]); [eapply Rle_trans; [exact DB|apply bpow_le; lia]|]. fold d dd in Q2. set (q := V (fmul (fsub (fint k) mm) (fsub (fint k) mm))) in *.
  pose proof (rnd_error dd) as QE. rewrite <- Q2, (Rabs_pos_eq dd) in QE by exact DD0. apply Rabs_le_inv in QE.
  assert (DD1 : dd <= bpow radix2 104). { unfold dd. replace (bpow radix2 104) with (bpow radix2 52 * bpow radix2 52) by (rewrite <- bpow_plus; reflexivity). apply sq_le. exact DB. }
  pose proof tiny_gt as T0. assert (IM : / m <= bpow radix2 50).
  { apply Rmult_le_reg_l with m; [exact M0|]. rewrite Rinv_r by lra. apply Rle_trans with (bpow radix2 (-50) * bpow radix2 50); [rewrite <- bpow_plus; cbn; lra|]. apply Rmult_le_compat_r; [apply bpow_ge_0|].
    replace (bpow radix2 (-50)) with (bpow radix2 (-49) / 2); [lra|]. change (-50)%Z with (-49 + -1)%Z. rewrite bpow_plus. cbn; lra. }
  assert (IM0 : 0 < / m) by (apply Rinv_0_lt_compat; exact M0). assert (TS : tiny <= 1) by apply tiny_small.
  assert (P104 : bpow radix2 104 + 2 <= bpow radix2 106). { assert (2 <= bpow radix2 104) by (change 2 with (bpow radix2 1); apply bpow_le; lia). replace (bpow radix2 106) with (4 * bpow radix2 104) by (change 4 with (bpow radix2 2); rewrite <- bpow_plus; reflexivity). lra. }
  destruct (fdiv_ok (fmul (fsub (fint k) mm) (fsub (fint k) mm)) mm Q1 ltac:(lra)) as [R1 R2].
  { fold q. unfold Rdiv. rewrite Rabs_pos_eq by (apply Rmult_le_pos; lra). apply Rle_trans with (bpow radix2 107 * bpow radix2 50); [|rewrite <- bpow_plus; apply bpow_le; lia].
    apply Rmult_le_compat; try lra. assert (bpow radix2 107 = 2 * bpow radix2 106) by (change 2 with (bpow radix2 1); rewrite <- bpow_plus; reflexivity). nra. }
  fold q in R2. split; [exact R1|]. unfold term64. change (V (fdiv (fmul (fsub (fint k) mm) (fsub (fint k) mm)) mm)) with (V (fdiv (fmul (fsub (fint k) mm) (fsub (fint k) mm)) mm)). rewrite R2.
  assert (QM : 0 <= q / m) by (unfold Rdiv; apply Rmult_le_pos; lra). split; [apply rnd_nonneg; exact QM|].
  pose proof (rnd_error (q / m)) as RE. rewrite (Rabs_pos_eq (q / m)) in RE by exact QM. apply Rabs_le_inv in RE. replace (y ^ 2) with a by (unfold a; ring).
  set (b := a / m). assert (B0 : 0 <= b) by (unfold b, Rdiv; apply Rmult_le_pos; lra).
  assert (qU : q / m <= (1 + u) ^ 3 * b + tiny * / m). { replace ((1 + u) ^ 3 * b + tiny * / m) with (((1 + u) * ((1 + u) ^ 2 * a) + tiny) * / m) by (unfold b, Rdiv; ring). unfold Rdiv. apply Rmult_le_compat_r; [lra|]. nra. }
  assert (qL : (1 - u) ^ 3 * b - tiny * / m <= q / m). { replace ((1 - u) ^ 3 * b - tiny * / m) with (((1 - u) * ((1 - u) ^ 2 * a) - tiny) * / m) by (unfold b, Rdiv; ring). unfold Rdiv. apply Rmult_le_compat_r; [lra|]. nra. }
  assert (TM : tiny * / m <= bpow radix2 (-1025)). { apply Rle_trans with (tiny * bpow radix2 50); [apply Rmult_le_compat_l; lra|]. unfold tiny. rewrite <- bpow_plus. apply bpow_le. lia. }
  assert (TE : 2 * bpow radix2 (-1025) + tiny <= eta). { assert (tiny <= bpow radix2 (-1025)) by (unfold tiny; apply bpow_le; lia). assert (4 * bpow radix2 (-1025) <= eta) by (change 4 with (bpow radix2 2); rewrite <- bpow_plus; apply bpow_le; lia). pose proof (bpow_gt_0 radix2 (-1025)). lra. }
  assert (TM0 : 0 < tiny * / m) by (apply Rmult_lt_0_compat; lra). set (w := tiny * / m) in *. set (z := q / m) in *.
  assert (U3 : (1 + u) ^ 4 <= 1 + 5 * u) by nra. assert (L3 : 1 - 5 * u <= (1 - u) ^ 4) by nra.
  apply Rabs_le. assert (X1 : (1 + u) * z <= (1 + u) ^ 4 * b + 2 * w) by (replace ((1 + u) ^ 4 * b) with ((1 + u) * ((1 + u) ^ 3 * b)) by ring; nra).
  assert (X2 : (1 - u) ^ 4 * b - w <= (1 - u) * z) by (replace ((1 - u) ^ 4 * b) with ((1 - u) * ((1 - u) ^ 3 * b)) by ring; nra).
  assert (X3 : (1 + u) ^ 4 * b <= (1 + 5 * u) * b) by (apply Rmult_le_compat_r; assumption). assert (X4 : (1 - 5 * u) * b <= (1 - u) ^ 4 * b) by (apply Rmult_le_compat_r; assumption).
  split; lra.
Qed.
Lemma terms_sum : Forall fin (map (term64 mm) c) /\ Vabs (map (term64 mm) c) = Vsum (map (term64 mm) c) /\ Rabs (Vsum (map (term64 mm) c) - off m c / m) <= 5 * u * (off m c / m) + M * eta.
Proof using C Hn Hm ST.
  assert (R0 : forall l, incl l c -> Forall fin (map (term64 mm) l) /\ Vabs (map (term64 mm) l) = Vsum (map (term64 mm) l) /\ Rabs (Vsum (map (term64 mm) l) - off m l / m) <= 5 * u * (off m l / m) + INR (length l) * eta).
  { intros l I. unfold off. rewrite <- (total_div m l). induction l as [|k l IH].
    - unfold Vsum, Vabs. cbn. split; [constructor|]. split; [reflexivity|]. rewrite Rminus_0_r, Rabs_R0. lra.
    - destruct (IH (fun x X => I x (or_intror X))) as (A & B & D). destruct (term_ok k (I k (or_introl eq_refl))) as (T1 & T2 & T3).
      unfold Vsum, Vabs in *. cbn [map fold_right total]. rewrite B, Rabs_pos_eq by exact T2. split; [constructor; assumption|]. split; [reflexivity|].
      cbn [length]. rewrite S_INR. set (s := fold_right Rplus 0 (map V (map (term64 mm) l))) in *. fold (total (map (fun k => (IZR k - m) ^ 2 / m) l)). set (p := total (map (fun k => (IZR k - m) ^ 2 / m) l)) in *. set (v := V (term64 mm k)) in *. set (b := (IZR k - m) ^ 2 / m) in *.
      replace (v + s - (b + p)) with ((v - b) + (s - p)) by ring. eapply Rle_trans; [apply Rabs_triang|]. lra. }
  apply R0. intros x X; exact X.
Qed.
(** ** The sum *)
Lemma chi_error : forall t, Adds t (map (term64 mm) c) -> (length (leaves t) <= S (length c))%nat ->
  fin (tsum t) /\ Rabs (V (tsum t) - chi2 c) <= 3 * (M + 3) * u * chi2 c + 13 * u ^ 2 * N.
Proof using C Hn Hm ST.
  intros t AD LT. destruct terms_sum as (T1 & T2 & T3). destruct (adds_ok t _ AD T1) as (F1 & F2 & F3 & _). pose proof n_range as NR. pose proof m_range as MR. pose proof mu_range as MU.
  destruct mean_ok as (_ & _ & ME & ML). destruct (share_pos c C) as [P E]. pose proof u_ge as U0. assert (US : u <= / 100) by (rewrite u_small; lra). assert (M0 : 0 < m) by lra.
  destruct (chi2_range c C) as [X0 X1]. set (X := chi2 c) in *. set (T := Vsum (map (term64 mm) c)) in *. set (B := off m c / m) in *. rewrite T2 in F3. clear T2.
  assert (XO : off mu c = mu * X) by (unfold X; rewrite chi2_off; field; lra).
  assert (OM : off m c = mu * X + M * (m - mu) ^ 2). { rewrite <- XO, !off_is, <- E. ring. }
  assert (UM : M * u <= / 16). { apply Rle_trans with (bpow radix2 49 * u); [apply Rmult_le_compat_r; lra|]. unfold u. rewrite <- bpow_plus. cbn. lra. }
  assert (BX : Rabs (B - X) <= 3 * u * X + 8 * u ^ 2 * N).
  { assert (IM : B * m = mu * X + M * (m - mu) ^ 2) by (unfold B; rewrite OM; field; lra). apply Rabs_le_inv in ME.
    assert (SQ : 0 <= (m - mu) ^ 2 <= 4 * u ^ 2 * mu ^ 2). { split; [apply pow2_ge_0|]. replace (4 * u ^ 2 * mu ^ 2) with ((2 * u * mu) ^ 2) by ring. set (e := 2 * u * mu) in *. nra. }
    assert (SM : 0 <= M * (m - mu) ^ 2 <= 4 * u ^ 2 * N * mu). { split; [apply Rmult_le_pos; lra|]. rewrite <- E. replace (4 * u ^ 2 * (mu * M) * mu) with (M * (4 * u ^ 2 * mu ^ 2)) by ring. apply Rmult_le_compat_l; lra. }
    set (r := M * (m - mu) ^ 2) in *. assert (DI : (B - X) * m = (mu - m) * X + r) by lra.
    assert (D1 : Rabs ((mu - m) * X) <= 2 * u * mu * X). { rewrite Rabs_mult, (Rabs_pos_eq X) by exact X0. apply Rmult_le_compat_r; [exact X0|]. apply Rabs_le. lra. } apply Rabs_le_inv in D1.
    assert (M9 : mu <= 3 / 2 * m) by nra. assert (UX : 0 <= u * X) by (apply Rmult_le_pos; lra). assert (UN : 0 <= u ^ 2 * N) by (apply Rmult_le_pos; [apply pow2_ge_0|lra]).
    assert (Z1 : 2 * u * mu * X <= 3 * u * X * m) by nra. assert (Z2 : 4 * u ^ 2 * N * mu <= 8 * u ^ 2 * N * m) by nra.
    assert (ZZ : 0 <= 3 * u * X * m) by (apply Rmult_le_pos; lra).
    apply Rabs_le. split; apply Rmult_le_reg_r with m; try exact M0; nra. }
  apply Rabs_le_inv in BX. assert (UX : 0 <= u * X) by (apply Rmult_le_pos; lra). assert (UN : 0 <= u ^ 2 * N) by (apply Rmult_le_pos; [apply pow2_ge_0|lra]).
  assert (ME' : M * eta <= / 4 * (u ^ 2 * N)). { apply Rle_trans with (bpow radix2 49 * eta); [apply Rmult_le_compat_r; [apply bpow_ge_0|lra]|]. rewrite <- bpow_plus. apply Rle_trans with (/ 4 * (u ^ 2 * 1)); [|apply Rmult_le_compat_l; [lra|]; apply Rmult_le_compat_l; [apply pow2_ge_0|lra]].
    rewrite Rmult_1_r. replace (/ 4) with (bpow radix2 (-2)) by (cbn; lra). replace (u ^ 2) with (bpow radix2 (-106)) by (unfold u; cbn [pow]; rewrite Rmult_1_r, <- bpow_plus; reflexivity). rewrite <- bpow_plus. apply bpow_le. lia. }
  assert (EP : 0 <= M * eta) by (apply Rmult_le_pos; [lra|apply bpow_ge_0]).
  assert (B0 : 0 <= B). { unfold B. rewrite OM. apply Rmult_le_pos; [|apply Rlt_le, Rinv_0_lt_compat; exact M0]. pose proof (pow2_ge_0 (m - mu)). assert (0 <= M * (m - mu) ^ 2) by (apply Rmult_le_pos; lra). assert (0 <= mu * X) by (apply Rmult_le_pos; lra). lra. }
  assert (BU : B <= 103 / 100 * X + 8 * (u ^ 2 * N)) by nra. apply Rabs_le_inv in T3.
  assert (UB : 5 * u * B <= / 20 * B) by nra.
  assert (TU : T <= 109 / 100 * X + 9 * (u ^ 2 * N)) by lra.
  assert (T0 : 0 <= T). { rewrite <- F3. apply Vabs_pos. }
  assert (LR : INR (length (leaves t) - 1) <= M) by (apply le_INR; lia).
  assert (XB : X <= bpow radix2 99). { apply Rle_trans with (bpow radix2 49 * bpow radix2 50); [|rewrite <- bpow_plus; apply bpow_le; lia]. eapply Rle_trans; [exact X1|]. apply Rmult_le_compat; lra. }
  assert (LL : INR (length (leaves t)) <= M + 1) by (rewrite <- S_INR; apply le_INR; exact LT).
  destruct (tsum_error t F1) as [S1 S2].
  - assert (INR (length (leaves t)) * u <= (M + 1) * u) by (apply Rmult_le_compat_r; lra). lra.
  - rewrite F3. assert (u ^ 2 * N <= bpow radix2 50). { assert (u ^ 2 <= 1) by nra. assert (0 <= u ^ 2) by apply pow2_ge_0. nra. }
    assert (bpow radix2 50 <= bpow radix2 99) by (apply bpow_le; lia). assert (32 * bpow radix2 99 <= bpow radix2 1023) by (change 32 with (bpow radix2 5); rewrite <- bpow_plus; apply bpow_le; lia). pose proof (bpow_gt_0 radix2 99). lra.
  - split; [exact S1|]. rewrite F2, F3 in S2. fold T in S2.
    assert (G1 : g (length (leaves t) - 1) <= 2 * (M * u)). { eapply Rle_trans; [apply g_bound; assert (INR (length (leaves t) - 1) * u <= M * u) by (apply Rmult_le_compat_r; lra); lra|]. rewrite Rmult_assoc. apply Rmult_le_compat_l; [lra|]. apply Rmult_le_compat_r; lra. }
    assert (S3 : Rabs (V (tsum t) - T) <= 2 * (M * u) * T) by (eapply Rle_trans; [exact S2|]; apply Rmult_le_compat_r; lra). apply Rabs_le_inv in S3.
    assert (MU0 : 0 <= M * u) by (apply Rmult_le_pos; lra).
    assert (S4 : 2 * (M * u) * T <= 3 * (M * u) * X + 2 * (u ^ 2 * N)).
    { apply Rle_trans with (2 * (M * u) * (109 / 100 * X + 9 * (u ^ 2 * N))); [apply Rmult_le_compat_l; lra|]. assert (2 * (M * u) * (9 * (u ^ 2 * N)) <= 2 * (u ^ 2 * N)) by nra. nra. }
    assert (S5 : 5 * u * B <= 6 * (u * X) + u ^ 2 * N) by nra.
    apply Rabs_le. replace (3 * (M + 3) * u * X + 13 * u ^ 2 * N) with (3 * (M * u) * X + 9 * (u * X) + 13 * (u ^ 2 * N)) by ring. split; lra.
Qed.
End Error.
