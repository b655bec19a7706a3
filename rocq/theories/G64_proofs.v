(** Lemmas about supports and G on binary64. *)
From Coq Require Import Reals ZArith List Bool Lia Lra Psatz.
From Flocq Require Import Core BinarySingleNaN.
From Verif Require Pvalue64_props.
From Verif Require Import Base Float_model Float_proofs F64_model F64_proofs Hex64_model Hex64_proofs Quadrat_model DistStats_model DistStats_proofs K64_proofs G64_model G64_spec.
Import ListNotations.
Local Open Scope R_scope.

(** ** Supports *)
Lemma is_zero_V : forall x, fin x -> is_zero x = true <-> V x = 0.
Proof.
  intros x F. destruct x as [s|s| |s m e H]; cbn; try discriminate F.
  - split; reflexivity.
  - split; [discriminate|]. intro E. exfalso. unfold V in E. cbn in E. apply eq_0_F2R in E. destruct s; discriminate E.
Qed.

Lemma mul_le1 : forall x y a b, Rabs x <= a -> Rabs y <= b -> Rabs (x * y) <= a * b.
Proof. intros x y a b X Y. rewrite Rabs_mult. apply Rmult_le_compat; auto using Rabs_pos. Qed.
Lemma three : forall e1 e2 e3, Rabs e1 <= u -> Rabs e2 <= u -> Rabs e3 <= u -> Rabs ((1 + e1) * (1 + e2) * (1 + e3) - 1) <= 4 * u.
Proof.
  intros e1 e2 e3 A B C. pose proof u_ge as U. assert (US : u <= / 100) by (rewrite u_small; lra).
  replace ((1 + e1) * (1 + e2) * (1 + e3) - 1) with ((e1 + e2 + e3) + (e1 * e2 + (e1 + e2 + e1 * e2) * e3)) by ring.
  assert (P : Rabs (e1 * e2) <= u * u) by (apply mul_le1; assumption).
  assert (P2 : Rabs (e1 + e2 + e1 * e2) <= 3 * u).
  { eapply Rle_trans; [apply Rabs_triang|]. pose proof (Rabs_triang e1 e2). nra. }
  pose proof (mul_le1 _ _ _ _ P2 C) as P3.
  eapply Rle_trans; [apply Rabs_triang|]. pose proof (Rabs_triang (e1 + e2) e3). pose proof (Rabs_triang e1 e2).
  pose proof (Rabs_triang (e1 * e2) ((e1 + e2 + e1 * e2) * e3)). nra.
Qed.

Lemma rel_from : forall e, Rabs e <= u -> / 2 <= 1 + e <= 2.
Proof. intros e E. apply Rabs_le_inv in E. assert (u <= / 100) by (rewrite u_small; lra). pose proof u_ge. lra. Qed.

Section Grid.
Variables (a b : f64) (num : nat).
Hypothesis G : good_range a b.
Hypothesis N : (2 <= num)%nat /\ (Z.of_nat num <= 2 ^ 50)%Z.
Let D := V b - V a.
Let n := IZR (Z.of_nat num - 1).

Lemma n_range : 1 <= n <= bpow radix2 50.
Proof using G N. unfold n. split; [apply IZR_le; lia|]. rewrite <- IZR_pow2 by lia. apply IZR_le. lia. Qed.
Lemma D_range : 0 <= D <= bpow radix2 1022.
Proof using G N.
  destruct G as (_ & _ & L & A & B & _). apply Rabs_le_inv in A. apply Rabs_le_inv in B. unfold D.
  change (bpow radix2 1022) with (bpow radix2 (1 + 1021)). rewrite bpow_plus. change (bpow radix2 1) with 2. lra.
Qed.
Lemma index_ok : forall i, (i < num)%nat -> fin (fint (Z.of_nat i)) /\ V (fint (Z.of_nat i)) = INR i.
Proof using G N. intros i I. destruct (fint_ok (Z.of_nat i)) as [A B]; [lia|]. split; [exact A|]. rewrite B. symmetry. apply INR_IZR_INZ. Qed.
Lemma index_le : forall i, (S i < num)%nat -> 0 <= INR i <= n - 1.
Proof using G N.
  intros i I. split; [apply pos_INR|]. unfold n. rewrite INR_IZR_INZ, <- minus_IZR. apply IZR_le. lia.
Qed.
Lemma div_ok : fin (fint (Z.of_nat num - 1)) /\ V (fint (Z.of_nat num - 1)) = n.
Proof using G N. apply fint_ok. lia. Qed.

Lemma delta_ok : fin (fsub b a) /\ V (fsub b a) = rnd D.
Proof using G N.
  pose proof D_range as R. destruct G as (Fa & Fb & _). apply fsub_ok; auto. fold D. rewrite Rabs_pos_eq by lra.
  eapply Rle_trans; [apply R|]. apply bpow_le. lia.
Qed.
Lemma rnd_D : 0 <= rnd D <= bpow radix2 1022.
Proof using G N.
  pose proof D_range as R. split; [apply rnd_nonneg; lra|].
  rewrite <- (rnd_id (bpow radix2 1022)) by (apply generic_format_bpow; unfold fexp64, FLT_exp; lia). apply rnd_le. lra.
Qed.
Lemma quot_range : forall x, 0 <= x -> 0 <= x / n <= x.
Proof using G N.
  intros x X. pose proof n_range as R. assert (I : 0 < / n <= 1).
  { split; [apply Rinv_0_lt_compat; lra|]. rewrite <- Rinv_1. apply Rinv_le_contravar; lra. }
  unfold Rdiv. split; [apply Rmult_le_pos; lra|]. nra.
Qed.
Lemma step_ok : fin (fdiv (fsub b a) (fint (Z.of_nat num - 1))) /\ V (fdiv (fsub b a) (fint (Z.of_nat num - 1))) = rnd (rnd D / n).
Proof using G N.
  destruct delta_ok as [F E]. destruct div_ok as [Fn En]. pose proof n_range as R. pose proof rnd_D as RD. pose proof (quot_range (rnd D) (proj1 RD)) as QR.
  rewrite <- E, <- En. apply fdiv_ok; auto.
  - rewrite En. lra.
  - rewrite E, En, Rabs_pos_eq by lra. apply Rle_trans with (bpow radix2 1022); [lra|]. apply bpow_le. lia.
Qed.

(** The unshifted values are rounded multiples of the rounded step. *)
Lemma inner_empty : D = 0 -> forall i, (i < num)%nat -> fin (linspace_inner a b num i) /\ V (linspace_inner a b num i) = 0.
Proof using G N.
  intros Z i I. destruct delta_ok as [F E]. destruct div_ok as [Fn En]. destruct step_ok as [Fs Es]. destruct (index_ok i I) as [Fi Ei]. pose proof n_range as R.
  rewrite Z, rnd_0 in E, Es. unfold Rdiv in Es. rewrite Rmult_0_l, rnd_0 in Es.
  unfold linspace_inner. replace (Nat.leb num 1) with false by (symmetry; apply Nat.leb_gt; lia).
  rewrite (proj2 (is_zero_V _ Fs) Es).
  assert (IP : 0 <= INR i / n <= INR i) by (apply quot_range, pos_INR).
  destruct (fdiv_ok (fint (Z.of_nat i)) (fint (Z.of_nat num - 1)) Fi) as [Fq Eq].
  - rewrite En. lra.
  - rewrite Ei, En, Rabs_pos_eq by lra. apply Rle_trans with (bpow radix2 50); [|apply bpow_le; lia].
    eapply Rle_trans; [apply IP|]. rewrite <- IZR_pow2, INR_IZR_INZ by lia. apply IZR_le. lia.
  - destruct (fmul_ok _ _ Fq F) as [A B].
    + rewrite E, Rmult_0_r, Rabs_R0. apply bpow_ge_0.
    + split; [exact A|]. rewrite B, E, Rmult_0_r. apply rnd_0.
Qed.
Lemma big_rel : forall x, bpow radix2 (-1020) <= x -> exists e, Rabs e <= u /\ rnd x = x * (1 + e).
Proof. intros x X. apply rnd_rel. pose proof (bpow_ge_0 radix2 (-1020)). rewrite Rabs_pos_eq by lra. apply Rle_trans with (bpow radix2 (-1020)); [apply bpow_le; lia|exact X]. Qed.
Lemma inner_steps : bpow radix2 (-960) <= D -> exists e1 e2, Rabs e1 <= u /\ Rabs e2 <= u /\
  let s := D * (1 + e1) / n * (1 + e2) in
  bpow radix2 (-1015) <= s /\
  forall i, (S i < num)%nat -> fin (linspace_inner a b num i) /\ V (linspace_inner a b num i) = rnd (INR i * s) /\
    Rabs (rnd (INR i * s) - INR i * (D / n)) <= 4 * u * (INR i * (D / n)).
Proof using G N.
  intros L. destruct delta_ok as [F E]. destruct div_ok as [Fn En]. destruct step_ok as [Fs Es]. pose proof n_range as R. pose proof D_range as DR.
  assert (B1 : bpow radix2 (-1020) <= D) by (eapply Rle_trans; [|exact L]; apply bpow_le; lia).
  destruct (big_rel D B1) as (e1 & U1 & R1). pose proof (rel_from e1 U1) as W1.
  assert (IN : bpow radix2 (-50) <= / n).
  { change (-50)%Z with (- (50))%Z. rewrite bpow_opp. apply Rinv_le; lra. }
  assert (Q1 : bpow radix2 (-1011) <= D * (1 + e1) / n).
  { apply Rle_trans with (bpow radix2 (-960) * / 2 * bpow radix2 (-50)).
    - change (/ 2) with (bpow radix2 (-1)). rewrite <- !bpow_plus. apply bpow_le. lia.
    - unfold Rdiv. pose proof (bpow_gt_0 radix2 (-960)). pose proof (bpow_gt_0 radix2 (-50)).
      apply Rmult_le_compat; try lra. apply Rmult_le_compat; lra. }
  destruct (big_rel (D * (1 + e1) / n)) as (e2 & U2 & R2).
  { eapply Rle_trans; [|exact Q1]. apply bpow_le. lia. }
  pose proof (rel_from e2 U2) as W2. exists e1, e2. split; [exact U1|]. split; [exact U2|]. cbv zeta.
  set (s := D * (1 + e1) / n * (1 + e2)) in *.
  assert (SB : bpow radix2 (-1015) <= s).
  { apply Rle_trans with (bpow radix2 (-1011) * / 2).
    - change (/ 2) with (bpow radix2 (-1)). rewrite <- bpow_plus. apply bpow_le. lia.
    - unfold s. pose proof (bpow_gt_0 radix2 (-1011)). apply Rmult_le_compat; lra. }
  split; [exact SB|]. rewrite R1, R2 in Es. fold s in Es. pose proof (bpow_gt_0 radix2 (-1015)) as BP.
  intros i I. destruct (index_ok i ltac:(lia)) as [Fi Ei]. pose proof (index_le i I) as IR.
  assert (DN : 0 <= D / n). { apply quot_range. lra. }
  assert (ID : INR i * (D / n) <= D).
  { replace D with (n * (D / n)) at 2 by (field; lra). apply Rmult_le_compat_r; lra. }
  assert (EX : forall e, INR i * s * (1 + e) = INR i * (D / n) * ((1 + e1) * (1 + e2) * (1 + e))) by (intro e; unfold s; field; lra).
  assert (IS : INR i * s <= bpow radix2 1023).
  { pose proof (EX 0) as EX0. rewrite Rplus_0_r, !Rmult_1_r in EX0. rewrite EX0.
    assert ((1 + e1) * (1 + e2) <= 2). { assert (US : u <= / 100) by (rewrite u_small; lra). apply Rabs_le_inv in U1. apply Rabs_le_inv in U2. nra. }
    change (bpow radix2 1023) with (bpow radix2 (1 + 1022)). rewrite bpow_plus. change (bpow radix2 1) with 2.
    assert (0 <= INR i * (D / n)) by (apply Rmult_le_pos; lra). assert (0 <= (1 + e1) * (1 + e2)) by nra. nra. }
  assert (FM : fin (fmul (fint (Z.of_nat i)) (fdiv (fsub b a) (fint (Z.of_nat num - 1)))) /\
    V (fmul (fint (Z.of_nat i)) (fdiv (fsub b a) (fint (Z.of_nat num - 1)))) = rnd (INR i * s)).
  { rewrite <- Ei, <- Es. apply fmul_ok; auto. rewrite Ei, Es, Rabs_pos_eq; [exact IS|]. apply Rmult_le_pos; lra. }
  assert (EI : linspace_inner a b num i = fmul (fint (Z.of_nat i)) (fdiv (fsub b a) (fint (Z.of_nat num - 1)))).
  { unfold linspace_inner. replace (Nat.leb num 1) with false by (symmetry; apply Nat.leb_gt; lia).
    destruct (is_zero (fdiv (fsub b a) (fint (Z.of_nat num - 1)))) eqn:ZZ; [|reflexivity].
    apply is_zero_V in ZZ; [|exact Fs]. rewrite Es in ZZ. lra. }
  rewrite EI. destruct FM as [FM1 FM2]. split; [exact FM1|]. split; [exact FM2|].
  destruct i as [|i].
  - cbn [INR]. rewrite !Rmult_0_l, rnd_0, Rminus_0_r, Rabs_R0. lra.
  - assert (1 <= INR (S i)). { rewrite S_INR. pose proof (pos_INR i). lra. }
    destruct (big_rel (INR (S i) * s)) as (e3 & U3 & R3).
    { apply Rle_trans with (bpow radix2 (-1015)); [apply bpow_le; lia|]. nra. }
    rewrite R3, EX. replace (INR (S i) * (D / n) * ((1 + e1) * (1 + e2) * (1 + e3)) - INR (S i) * (D / n))
      with (INR (S i) * (D / n) * ((1 + e1) * (1 + e2) * (1 + e3) - 1)) by ring.
    rewrite Rabs_mult, (Rabs_pos_eq (INR (S i) * (D / n))) by (apply Rmult_le_pos; lra).
    rewrite Rmult_comm. apply Rmult_le_compat_r; [apply Rmult_le_pos; lra|]. apply three; assumption.
Qed.

(** Both cases: an increasing function from 0 up to the width, close to the exact grid. *)
Lemma inner_ok : exists p : nat -> R, p O = 0 /\ (forall i j, (i <= j)%nat -> p i <= p j) /\
  forall i, (S i < num)%nat -> fin (linspace_inner a b num i) /\ V (linspace_inner a b num i) = p i /\ 0 <= p i <= D /\
    Rabs (p i - INR i * (D / n)) <= 4 * u * (INR i * (D / n)).
Proof using G N.
  pose proof n_range as R. pose proof D_range as DR. destruct G as (_ & _ & _ & _ & _ & [Z|L]).
  - assert (Z' : D = 0) by (unfold D; lra). exists (fun _ => 0). split; [reflexivity|]. split; [intros; lra|].
    intros i I. destruct (inner_empty Z' i ltac:(lia)) as [A B]. split; [exact A|]. split; [exact B|]. split; [lra|].
    rewrite Z'. unfold Rdiv. rewrite !Rmult_0_l, !Rmult_0_r, Rminus_0_r, Rabs_R0. lra.
  - destruct (inner_steps L) as (e1 & e2 & U1 & U2 & SB & H). set (s := D * (1 + e1) / n * (1 + e2)) in *.
    pose proof (bpow_gt_0 radix2 (-1015)) as BP. cbv zeta in H, SB.
    exists (fun i => rnd (INR i * s)). split; [cbn [INR]; rewrite Rmult_0_l; apply rnd_0|]. split.
    { intros i j IJ. apply rnd_le, Rmult_le_compat_r; [lra|]. apply le_INR. exact IJ. }
    intros i I. destruct (H i I) as (A & B & C). split; [exact A|]. split; [exact B|]. split; [|exact C].
    split; [apply rnd_nonneg, Rmult_le_pos; [apply pos_INR|lra]|].
    pose proof (index_le i I) as IR. apply Rabs_le_inv in C. assert (DN : 0 <= D / n) by (apply quot_range; lra).
    assert (ND : n * (D / n) = D) by (field; lra).
    assert (UN : 4 * u * n <= 1).
    { assert (UE : u * bpow radix2 50 = / 8) by (unfold u; rewrite <- bpow_plus; simpl; lra). pose proof u_ge. nra. }
    assert (K : INR i * (1 + 4 * u) <= n) by (pose proof u_ge; nra).
    apply Rle_trans with (INR i * (1 + 4 * u) * (D / n)); [lra|]. rewrite <- ND at 2. apply Rmult_le_compat_r; lra.
Qed.
End Grid.

Lemma linspace_length : forall a b num, length (linspace64 a b num) = num.
Proof. intros. unfold linspace64. rewrite map_length, seq_length. reflexivity. Qed.
Lemma linspace_nth : forall a b num i, (i < num)%nat -> nth i (linspace64 a b num) (fint 0) =
  if Nat.leb 2 num && Nat.eqb (S i) num then b else fadd (linspace_inner a b num i) a.
Proof.
  intros a b num i I. unfold linspace64. set (f := fun _ => _). rewrite (nth_indep _ (fint 0) (f O)) by (rewrite map_length, seq_length; exact I).
  rewrite map_nth, seq_nth by exact I. reflexivity.
Qed.

Lemma maxabs_float : forall x y, isfloat x -> isfloat y -> isfloat (Rmax x y).
Proof. intros x y A B. unfold Rmax. destruct (Rle_dec x y); assumption. Qed.

Lemma rnd_between : forall lo hi x, isfloat lo -> isfloat hi -> lo <= x <= hi -> lo <= rnd x <= hi.
Proof.
  intros lo hi x A B H. split.
  - rewrite <- (rnd_id lo) by exact A. apply rnd_le. lra.
  - rewrite <- (rnd_id hi) by exact B. apply rnd_le. lra.
Qed.

Lemma grid_ok : forall a b num, good_range a b -> (2 <= num)%nat -> (Z.of_nat num <= 2 ^ 50)%Z ->
  let s := linspace64 a b num in
  let exact i := V a + INR i * (V b - V a) / INR (num - 1) in
  length s = num /\ increasing s /\ at_i s 0 = V a /\ nth (num - 1) s (fint 0) = b /\
  (forall i, (i < num)%nat -> V a <= at_i s i <= V b /\ Rabs (at_i s i - exact i) <= bpow radix2 (-49) * Rmax (Rabs (V a)) (Rabs (V b)) /\
     (V a = 0 -> Rabs (at_i s i - exact i) <= bpow radix2 (-51) * exact i)).
Proof.
  intros a b num G N1 N2 s exact. destruct (inner_ok a b num G (conj N1 N2)) as (p & P0 & PM & P).
  pose proof (n_range a b num G (conj N1 N2)) as NR. pose proof (linspace_length a b num) as LN. fold s in LN.
  assert (EN : IZR (Z.of_nat num - 1) = INR (num - 1)).
  { rewrite INR_IZR_INZ. f_equal. lia. }
  rewrite EN in *. pose proof G as (Fa & Fb & L & A & B & _). set (M := Rmax (Rabs (V a)) (Rabs (V b))).
  assert (AM : Rabs (V a) <= M) by apply Rmax_l. assert (BM : Rabs (V b) <= M) by apply Rmax_r.
  assert (MB : M <= bpow radix2 1021) by (apply Rmax_lub; assumption).
  assert (LAST : nth (num - 1) s (fint 0) = b).
  { unfold s. rewrite linspace_nth by lia. replace (Nat.eqb (S (num - 1)) num) with true by (symmetry; apply Nat.eqb_eq; lia).
    replace (Nat.leb 2 num) with true by (symmetry; apply Nat.leb_le; lia). reflexivity. }
  assert (IN : forall i, (S i < num)%nat -> fin (nth i s (fint 0)) /\ at_i s i = rnd (p i + V a)).
  { intros i I. unfold at_i, s. rewrite linspace_nth by lia. replace (Nat.eqb (S i) num) with false by (symmetry; apply Nat.eqb_neq; lia).
    rewrite andb_false_r. destruct (P i I) as (Fi & Vi & Ri & _). rewrite <- Vi. apply fadd_ok; auto. rewrite Vi.
    apply Rle_trans with (bpow radix2 1021); [|apply bpow_le; lia]. apply Rabs_le. apply Rabs_le_inv in A. apply Rabs_le_inv in B. lra. }
  assert (RANGE : forall i, (i < num)%nat -> V a <= at_i s i <= V b).
  { intros i I. destruct (Nat.eq_dec (S i) num) as [E|E].
    - unfold at_i. replace i with (num - 1)%nat by lia. rewrite LAST. lra.
    - destruct (IN i ltac:(lia)) as [_ ->]. destruct (P i ltac:(lia)) as (_ & _ & R & _). apply rnd_between; [apply V_float|apply V_float|lra]. }
  split; [exact LN|]. split; [split|split; [|split; [exact LAST|]]].
  - apply Forall_forall. intros x X. apply (In_nth _ _ (fint 0)) in X. destruct X as (i & I & <-). rewrite LN in I.
    destruct (Nat.eq_dec (S i) num) as [E|E]; [replace i with (num - 1)%nat by lia; rewrite LAST; exact Fb|]. apply IN. lia.
  - intros i j IJ. rewrite LN in IJ. destruct (Nat.eq_dec (S j) num) as [E|E].
    + assert (at_i s j = V b) as -> by (unfold at_i; replace j with (num - 1)%nat by lia; rewrite LAST; reflexivity). apply RANGE. lia.
    + rewrite (proj2 (IN i ltac:(lia))), (proj2 (IN j ltac:(lia))). apply rnd_le. specialize (PM i j ltac:(lia)). lra.
  - rewrite (proj2 (IN O ltac:(lia))), P0, Rplus_0_l. apply rnd_id, V_float.
  - intros i I. split; [apply RANGE; exact I|]. destruct (Nat.eq_dec (S i) num) as [E|E].
    + assert (EI : at_i s i = V b) by (unfold at_i; replace i with (num - 1)%nat by lia; rewrite LAST; reflexivity).
      assert (EE : exact i = V b). { unfold exact. replace i with (num - 1)%nat by lia. field. lra. }
      rewrite EI, EE, Rminus_diag_eq, Rabs_R0 by reflexivity. pose proof (Rabs_pos (V a)). pose proof (bpow_gt_0 radix2 (-49)). pose proof (bpow_gt_0 radix2 (-51)).
      split; [apply Rmult_le_pos; lra|]. intro Z. apply Rmult_le_pos; lra.
    + destruct (P i ltac:(lia)) as (_ & _ & R & C). rewrite (proj2 (IN i ltac:(lia))).
      assert (EE : exact i = V a + INR i * ((V b - V a) / INR (num - 1))) by (unfold exact; field; lra). rewrite EE.
      set (q := INR i * ((V b - V a) / INR (num - 1))) in *. pose proof u_ge as U.
      assert (Q0 : 0 <= q). { apply Rabs_le_inv in C. assert (u <= / 100) by (rewrite u_small; lra). nra. }
      assert (QD : q <= V b - V a).
      { pose proof (index_le a b num G (conj N1 N2) i ltac:(lia)) as IX. rewrite EN in IX. unfold q.
        replace (V b - V a) with (INR (num - 1) * ((V b - V a) / INR (num - 1))) at 2 by (field; lra).
        apply Rmult_le_compat_r; [|lra]. apply Rmult_le_pos; [lra|]. apply Rlt_le, Rinv_0_lt_compat. lra. }
      split.
      * pose proof (rnd_plus_error (p i) (V a)) as RE.
        assert (FP : isfloat (p i)). { destruct (P i ltac:(lia)) as (_ & <- & _). apply V_float. }
        specialize (RE FP (V_float a)).
        assert (PB : Rabs (p i + V a) <= M).
        { apply Rabs_le. apply Rabs_le_inv in AM. apply Rabs_le_inv in BM. lra. }
        replace (rnd (p i + V a) - (V a + q)) with ((rnd (p i + V a) - (p i + V a)) + (p i - q)) by ring.
        eapply Rle_trans; [apply Rabs_triang|].
        assert (V b - V a <= 2 * M) by (apply Rabs_le_inv in AM; apply Rabs_le_inv in BM; lra).
        assert (u * Rabs (p i + V a) <= u * M) by (apply Rmult_le_compat_l; lra).
        assert (4 * u * q <= 4 * u * (2 * M)) by (apply Rmult_le_compat_l; lra).
        assert (U49 : bpow radix2 (-49) = 16 * u) by (unfold u; change (-49)%Z with (4 + -53)%Z; rewrite bpow_plus; reflexivity).
        rewrite U49. assert (0 <= M) by (pose proof (Rabs_pos (V a)); lra). nra.
      * intro Z. rewrite Z, Rplus_0_r, Rplus_0_l in *. rewrite rnd_id; [|destruct (P i ltac:(lia)) as (_ & <- & _); apply V_float].
        assert (U51 : bpow radix2 (-51) = 4 * u) by (unfold u; change (-51)%Z with (2 + -53)%Z; rewrite bpow_plus; reflexivity).
        rewrite U51. exact C.
Qed.

(** ** Exact values when the number of steps is prime *)
Lemma prime_step : forall (p : Z) (i : nat) x, Znumtheory.prime p -> (0 < Z.of_nat i < p)%Z -> isfloat x -> isfloat (INR i * x / IZR p) -> isfloat (x / IZR p).
Proof.
  intros p i x PP I FX FI. assert (P1 : (1 < p)%Z) by (destruct PP; assumption). assert (PR : IZR p <> 0) by (apply not_0_IZR; lia).
  apply FLT_format_generic in FX; auto with typeclass_instances. destruct FX as [[M e] EX MX EE]. cbn in MX, EE. unfold F2R in EX. cbn in EX.
  destruct (Z.eq_dec p 2) as [P2|P2].
  { assert (i = 1)%nat by lia. subst i. cbn [INR] in FI. rewrite Rmult_1_l in FI. exact FI. }
  assert (DV : (p | M)%Z).
  { apply FLT_format_generic in FI; auto with typeclass_instances. destruct FI as [[M' e'] EX' _ _]. unfold F2R in EX'. cbn in EX'.
    assert (EQ : IZR (Z.of_nat i * M) * bpow radix2 e = IZR (p * M') * bpow radix2 e').
    { rewrite !mult_IZR, <- INR_IZR_INZ. rewrite EX in EX'. apply (f_equal (Rmult (IZR p))) in EX'.
      replace (IZR p * (INR i * (IZR M * bpow radix2 e) / IZR p)) with (INR i * IZR M * bpow radix2 e) in EX' by (field; exact PR). rewrite EX'. ring. }
    assert (PI : forall z, (p | Z.of_nat i * z)%Z -> (p | z)%Z).
    { intros z Hz. destruct (Znumtheory.prime_mult p PP _ _ Hz) as [K|K]; [|exact K]. apply Z.divide_pos_le in K; lia. }
    destruct (Z_le_gt_dec e' e) as [LE|GT].
    - assert (EZ : (Z.of_nat i * (M * 2 ^ (e - e')) = p * M')%Z).
      { apply eq_IZR. apply (Rmult_eq_reg_r (bpow radix2 e')); [|apply Rgt_not_eq, bpow_gt_0]. rewrite <- EQ, !mult_IZR, IZR_pow2 by lia.
        replace (bpow radix2 e) with (bpow radix2 (e - e') * bpow radix2 e') by (rewrite <- bpow_plus; f_equal; lia). ring. }
      assert (K : (p | Z.of_nat i * (M * 2 ^ (e - e')))%Z) by (rewrite EZ; exists M'; ring). apply PI in K.
      destruct (Znumtheory.prime_mult p PP _ _ K) as [K'|K']; [exact K'|]. exfalso. apply P2.
      apply (Zpow_facts.prime_power_prime p 2 (e - e')); [lia|exact PP|exact Znumtheory.prime_2|exact K'].
    - assert (EZ : (Z.of_nat i * M = p * (M' * 2 ^ (e' - e)))%Z).
      { apply eq_IZR. apply (Rmult_eq_reg_r (bpow radix2 e)); [|apply Rgt_not_eq, bpow_gt_0]. rewrite EQ, !mult_IZR, IZR_pow2 by lia.
        replace (bpow radix2 e') with (bpow radix2 (e' - e) * bpow radix2 e) by (rewrite <- bpow_plus; f_equal; lia). ring. }
      apply PI. rewrite EZ. exists (M' * 2 ^ (e' - e))%Z. ring. }
  destruct DV as [K ->]. rewrite EX, mult_IZR. replace (IZR K * IZR p * bpow radix2 e / IZR p) with (IZR K * bpow radix2 e) by (field; exact PR).
  apply float_dyadic; [|exact EE]. rewrite Z.abs_mul in MX. nia.
Qed.

Lemma exact_ok : forall b num i, fin b -> 0 <= V b <= bpow radix2 1021 -> Znumtheory.prime (Z.of_nat num - 1) -> (Z.of_nat num <= 2 ^ 50)%Z -> (i < num)%nat ->
  isfloat (INR i * V b / INR (num - 1)) -> at_i (linspace64 (fint 0) b num) i = INR i * V b / INR (num - 1).
Proof.
  intros b num i Fb B PP N I FI. assert (P1 : (1 < Z.of_nat num - 1)%Z) by (destruct PP; assumption).
  assert (NN : (2 <= num)%nat /\ (Z.of_nat num <= 2 ^ 50)%Z) by lia.
  destruct (fint_ok 0) as [F0 V0]; [lia|].
  assert (EN : INR (num - 1) = IZR (Z.of_nat num - 1)) by (rewrite INR_IZR_INZ; f_equal; lia). rewrite EN in *. set (n := IZR (Z.of_nat num - 1)) in *.
  assert (N1 : 1 <= n <= bpow radix2 50). { unfold n. split; [apply IZR_le; lia|]. rewrite <- IZR_pow2 by lia. apply IZR_le. lia. }
  unfold at_i. rewrite linspace_nth by exact I. replace (Nat.leb 2 num) with true by (symmetry; apply Nat.leb_le; lia). cbn [andb].
  destruct (Nat.eqb (S i) num) eqn:LST.
  { apply Nat.eqb_eq in LST. rewrite INR_IZR_INZ. replace (Z.of_nat i) with (Z.of_nat num - 1)%Z by lia. fold n. field. lra. }
  apply Nat.eqb_neq in LST.
  destruct (fsub_ok b (fint 0) Fb F0) as [FD ED].
  { rewrite V0, Rminus_0_r, Rabs_pos_eq by lra. eapply Rle_trans; [apply B|]. apply bpow_le. lia. }
  rewrite V0, Rminus_0_r, (rnd_id _ (V_float b)) in ED. destruct (fint_ok (Z.of_nat num - 1)) as [Fn En]; [lia|]. fold n in En.
  destruct (fint_ok (Z.of_nat i)) as [Fi Ei]; [lia|]. rewrite <- INR_IZR_INZ in Ei.
  assert (IN : 0 < / n <= 1). { split; [apply Rinv_0_lt_compat; lra|]. rewrite <- Rinv_1. apply Rinv_le_contravar; lra. }
  assert (QB : 0 <= V b / n <= V b). { unfold Rdiv. split; [apply Rmult_le_pos; lra|nra]. }
  destruct (fdiv_ok (fsub b (fint 0)) (fint (Z.of_nat num - 1)) FD) as [FS ES].
  { rewrite En. lra. }
  { rewrite ED, En, Rabs_pos_eq by lra. apply Rle_trans with (bpow radix2 1021); [lra|]. apply bpow_le. lia. }
  rewrite ED, En in ES.
  assert (IR : 0 <= INR i <= n). { split; [apply pos_INR|]. rewrite INR_IZR_INZ. apply IZR_le. lia. }
  assert (INNER : fin (linspace_inner (fint 0) b num i) /\ V (linspace_inner (fint 0) b num i) = INR i * V b / n).
  { unfold linspace_inner. replace (Nat.leb num 1) with false by (symmetry; apply Nat.leb_gt; lia).
    destruct i as [|i].
    - assert (R0 : INR 0 * V b / n = 0) by (cbn [INR]; unfold Rdiv; ring). rewrite R0. destruct (is_zero _).
      + destruct (fdiv_ok (fint (Z.of_nat 0)) (fint (Z.of_nat num - 1)) Fi) as [FQ EQ].
        { rewrite En. lra. } { rewrite Ei. cbn [INR]. unfold Rdiv. rewrite Rmult_0_l, Rabs_R0. apply bpow_ge_0. }
        rewrite Ei in EQ. cbn [INR] in EQ. unfold Rdiv in EQ. rewrite Rmult_0_l, rnd_0 in EQ.
        destruct (fmul_ok _ _ FQ FD) as [A1 A2]; [rewrite EQ, Rmult_0_l, Rabs_R0; apply bpow_ge_0|]. split; [exact A1|]. rewrite A2, EQ, Rmult_0_l. apply rnd_0.
      + destruct (fmul_ok _ _ Fi FS) as [A1 A2]; [rewrite Ei; cbn [INR]; rewrite Rmult_0_l, Rabs_R0; apply bpow_ge_0|].
        split; [exact A1|]. rewrite A2, Ei. cbn [INR]. rewrite Rmult_0_l. apply rnd_0.
    - rewrite (rnd_id (V b / n)) in ES by (apply (prime_step _ (S i)); [exact PP|lia|apply V_float|exact FI]).
      destruct (is_zero (fdiv (fsub b (fint 0)) (fint (Z.of_nat num - 1)))) eqn:ZZ.
      + apply is_zero_V in ZZ; [|exact FS]. rewrite ES in ZZ. assert (B0 : V b = 0). { apply Rmult_integral in ZZ. destruct ZZ as [Z0|Z0]; [exact Z0|]. lra. }
        assert (QI : 0 <= INR (S i) / n <= INR (S i)) by (unfold Rdiv; split; [apply Rmult_le_pos; lra|nra]).
        destruct (fdiv_ok (fint (Z.of_nat (S i))) (fint (Z.of_nat num - 1)) Fi) as [FQ EQ].
        { rewrite En. lra. }
        { rewrite Ei, En, Rabs_pos_eq by lra. apply Rle_trans with (bpow radix2 50); [lra|]. apply bpow_le. lia. }
        destruct (fmul_ok _ _ FQ FD) as [A1 A2]; [rewrite ED, B0, Rmult_0_r, Rabs_R0; apply bpow_ge_0|].
        split; [exact A1|]. rewrite A2, ED, B0. unfold Rdiv. rewrite !Rmult_0_r, Rmult_0_l. apply rnd_0.
      + assert (E1 : INR (S i) * (V b / n) = INR (S i) * V b / n) by (unfold Rdiv; ring).
        assert (E2 : 0 <= INR (S i) * (V b / n) <= V b).
        { split; [apply Rmult_le_pos; lra|]. replace (V b) with (n * (V b / n)) at 2 by (field; lra). apply Rmult_le_compat_r; lra. }
        destruct (fmul_ok _ _ Fi FS) as [A1 A2].
        { rewrite Ei, ES, Rabs_pos_eq by lra. apply Rle_trans with (bpow radix2 1021); [lra|]. apply bpow_le. lia. }
        split; [exact A1|]. rewrite A2, Ei, ES, E1. apply rnd_id. exact FI. }
  destruct INNER as [IF IV]. assert (E2 : 0 <= INR i * V b / n <= V b).
  { replace (INR i * V b / n) with (INR i * (V b / n)) by (unfold Rdiv; ring). split; [apply Rmult_le_pos; lra|].
    replace (V b) with (n * (V b / n)) at 2 by (field; lra). apply Rmult_le_compat_r; lra. }
  destruct (fadd_ok _ _ IF F0) as [_ A2].
  { rewrite IV, V0, Rplus_0_r, Rabs_pos_eq by lra. apply Rle_trans with (bpow radix2 1021); [lra|]. apply bpow_le. lia. }
  rewrite A2, IV, V0, Rplus_0_r. apply rnd_id. exact FI.
Qed.

(** ** Counts *)
Definition upto (d : list f64) (r : R) : nat := length (filter (fun x => if Rle_dec (V x) r then true else false) d).
Lemma filter_len_ext : forall (A : Type) (f h : A -> bool) l, (forall x, In x l -> f x = h x) -> length (filter f l) = length (filter h l).
Proof.
  intros A f h l. induction l as [|x l IH]; intro E; [reflexivity|]. cbn. rewrite (E x (or_introl eq_refl)).
  specialize (IH (fun y Y => E y (or_intror Y))). destruct (h x); cbn; lia.
Qed.
Lemma from_below_eq : forall d lo r, lo <= r -> (below d lo + from_below d lo r = below d r)%nat.
Proof.
  intros d lo r L. unfold below, from_below. induction d as [|x d IH]; [reflexivity|]. cbn.
  destruct (Rlt_dec (V x) lo), (Rle_dec lo (V x)), (Rlt_dec (V x) r); cbn; try lia; exfalso; lra.
Qed.
Lemma from_to_eq : forall d lo hi, lo <= hi -> (below d lo + from_to d lo hi = upto d hi)%nat.
Proof.
  intros d lo r L. unfold below, upto, from_to. induction d as [|x d IH]; [reflexivity|]. cbn.
  destruct (Rlt_dec (V x) lo), (Rle_dec lo (V x)), (Rle_dec (V x) r); cbn; try lia; exfalso; lra.
Qed.
Lemma cum_length : forall d s, length (cum_counts64 d s) = length s.
Proof. intros d s. induction s as [|e [|e' t] IH]; [reflexivity|reflexivity|]. cbn [cum_counts64 length] in *. rewrite IH. reflexivity. Qed.
Lemma cum_nth : forall d s i, Forall fin d -> Forall fin s -> (i < length s)%nat ->
  nth i (cum_counts64 d s) 0%Z = Z.of_nat (if Nat.eqb (S i) (length s) then upto d (at_i s i) else below d (at_i s i)).
Proof.
  intros d s. induction s as [|e t IH]; intros i Fd Fs I; [cbn in I; lia|]. inversion Fs as [|? ? Fe Ft]; subst.
  assert (BE : length (filter (fun x => flt x e) d) = below d (V e)).
  { apply filter_len_ext. intros x X. rewrite Forall_forall in Fd. specialize (Fd x X). destruct (Rlt_dec (V x) (V e)) as [L|L].
    - apply flt_ok; auto. - apply flt_false; auto. lra. }
  assert (UE : length (filter (fun x => negb (flt e x)) d) = upto d (V e)).
  { apply filter_len_ext. intros x X. rewrite Forall_forall in Fd. specialize (Fd x X). destruct (Rle_dec (V x) (V e)) as [L|L].
    - apply negb_true_iff, flt_false; auto. - apply negb_false_iff, flt_ok; auto. lra. }
  destruct t as [|e' t].
  - assert (i = O) by (cbn in I; lia). subst i. cbn. rewrite UE. reflexivity.
  - destruct i as [|i].
    + cbn [cum_counts64 nth length Nat.eqb]. rewrite BE. reflexivity.
    + change (nth (S i) (cum_counts64 d (e :: e' :: t)) 0%Z) with (nth i (cum_counts64 d (e' :: t)) 0%Z).
      rewrite (IH i Fd Ft) by (cbn in I |- *; lia). reflexivity.
Qed.
Lemma mono_ok : forall s, Forall fin s -> mono64 s = true <-> (forall i, (S i < length s)%nat -> at_i s i <= at_i s (S i)).
Proof.
  induction s as [|a t IH]; intro F; [split; [intros _ i I; cbn in I; lia|reflexivity]|]. inversion F as [|? ? Fa Ft]; subst. destruct t as [|b t].
  - split; [intros _ i I; cbn in I; lia|reflexivity].
  - change (mono64 (a :: b :: t)) with (negb (flt b a) && mono64 (b :: t)). rewrite andb_true_iff, (IH Ft), negb_true_iff.
    assert (Fb : fin b) by (inversion Ft; assumption). rewrite (flt_false b a Fb Fa). split.
    + intros [A B] [|i] I; [exact A|]. apply (B i). cbn in I |- *. lia.
    + intro H. split; [apply (H O); cbn; lia|]. intros i I. apply (H (S i)). cbn in I |- *. lia.
Qed.
Lemma increasing_mono : forall s, increasing s -> mono64 s = true.
Proof. intros s [F M]. apply mono_ok; [exact F|]. intros i I. apply M. lia. Qed.
Lemma last_nth : forall (l : list Z) x, last l x = nth (length l) (x :: l) 0%Z.
Proof. induction l as [|y l IH]; intro x; [reflexivity|]. change (last (y :: l) x) with (match l with [] => y | _ => last l x end).
  destruct l as [|z l]; [reflexivity|]. specialize (IH x). cbn [length nth] in *. exact IH. Qed.
Lemma expected_count : forall d s i, increasing s -> (2 <= length s)%nat -> Forall fin d -> (i < length s)%nat ->
  (nth i (cum_counts64 d s) 0 - nth 0 (cum_counts64 d s) 0)%Z = Z.of_nat (expected d s i).
Proof.
  intros d s i [Fs M] L Fd I. rewrite !cum_nth by (auto; lia). replace (Nat.eqb 1 (length s)) with false by (symmetry; apply Nat.eqb_neq; lia).
  unfold expected. pose proof (M O i ltac:(lia)) as M0. destruct (Nat.eqb (S i) (length s)).
  - pose proof (from_to_eq d _ _ M0). lia.
  - pose proof (from_below_eq d _ _ M0). lia.
Qed.
Lemma g64_nth : forall d s, increasing s -> (2 <= length s)%nat -> Forall fin d ->
  exists l, g64 d s = Ok l /\ length l = length s /\ nth 0 l (fint 0) = fint 0 /\
  forall i, (0 < i < length s)%nat -> nth i l (fint 0) = fdiv (fint (Z.of_nat (expected d s i))) (fint (Z.of_nat (expected d s (length s - 1)))).
Proof.
  intros d s M L Fd. unfold g64. rewrite (increasing_mono s M). eexists. split; [reflexivity|].
  destruct (cum_counts64 d s) as [|c0 cs] eqn:EC; [pose proof (cum_length d s) as CL; rewrite EC in CL; cbn in CL; lia|].
  pose proof (cum_length d s) as CL. rewrite EC in CL. cbn [length] in CL.
  assert (TOT : Zsum (diff (c0 :: cs)) = Z.of_nat (expected d s (length s - 1))).
  { rewrite Zsum_diff, last_nth. rewrite <- (expected_count d s (length s - 1) M L Fd) by lia. rewrite EC. replace (length s - 1)%nat with (length cs) by lia. reflexivity. }
  rewrite TOT, cumsum_diff0. split; [cbn [length]; rewrite !map_length; exact CL|]. split; [reflexivity|].
  intros [|i] I; [lia|]. cbn [nth]. rewrite map_map. set (f := fun x => fdiv _ _).
  rewrite (nth_indep _ (fint 0) (f 0%Z)) by (rewrite map_length; lia). rewrite map_nth. unfold f.
  rewrite <- (expected_count d s (S i) M L Fd) by lia. rewrite EC. reflexivity.
Qed.
Lemma expected_0 : forall d s, (2 <= length s)%nat -> expected d s 0 = O.
Proof.
  intros d s L. unfold expected. replace (Nat.eqb 1 (length s)) with false by (symmetry; apply Nat.eqb_neq; lia). unfold from_below.
  induction d as [|x d IH]; [reflexivity|]. cbn. destruct (Rle_dec (at_i s 0) (V x)), (Rlt_dec (V x) (at_i s 0)); try exact IH. lra.
Qed.
Lemma expected_le : forall d s i j, increasing s -> (i <= j < length s)%nat -> (expected d s i <= expected d s j)%nat.
Proof.
  intros d s i j [_ M] IJ. pose proof (M i j IJ) as L. unfold expected.
  destruct (Nat.eqb_spec (S i) (length s)) as [E1|E1], (Nat.eqb_spec (S j) (length s)) as [E2|E2]; try (exfalso; lia).
  - assert (EJ : j = i) by lia. rewrite EJ. apply Nat.le_refl.
  - unfold from_below, from_to. apply filter_length_le. intros x _. destruct (Rle_dec (at_i s 0) (V x)), (Rlt_dec (V x) (at_i s i)); try discriminate. destruct (Rle_dec (V x) (at_i s j)); [reflexivity|]. lra.
  - unfold from_below. apply filter_length_le. intros x _. destruct (Rle_dec (at_i s 0) (V x)), (Rlt_dec (V x) (at_i s i)); try discriminate. destruct (Rlt_dec (V x) (at_i s j)); [reflexivity|]. lra.
Qed.
Lemma filter_len : forall (A : Type) (f : A -> bool) l, (length (filter f l) <= length l)%nat.
Proof. intros A f l. induction l as [|x l IH]; [reflexivity|]. cbn. destruct (f x); cbn; lia. Qed.
Lemma expected_bound : forall d s i, (expected d s i <= length d)%nat.
Proof. intros. unfold expected. destruct (Nat.eqb _ _); apply filter_len. Qed.
(** Rounded fractions of one total are compared as the counts. *)
Lemma fractions : forall a c n, (0 <= a <= n)%Z -> (0 <= c <= n)%Z -> (0 < n <= 2 ^ 51)%Z ->
  (rnd (IZR a / IZR n) <= rnd (IZR c / IZR n) <-> (a <= c)%Z).
Proof.
  intros a c n A C N. assert (NP : 0 < IZR n) by (apply IZR_lt; lia). split; intro H.
  - destruct (Z_le_gt_dec a c) as [L|L]; [exact L|exfalso].
    pose proof (Pvalue64_props.rnd_unit _ (Pvalue64_props.frac_unit a n A (proj1 N))) as R1. pose proof (Pvalue64_props.rnd_unit _ (Pvalue64_props.frac_unit c n C (proj1 N))) as R2.
    pose proof (Pvalue64_props.gap_size n) as GS. unfold Pvalue64_props.limit in GS. specialize (GS ltac:(lia)).
    assert (GAP : IZR c / IZR n + / IZR n <= IZR a / IZR n).
    { replace (IZR c / IZR n + / IZR n) with (IZR (c + 1) / IZR n) by (rewrite plus_IZR; field; lra). apply Rmult_le_compat_r; [apply Rlt_le, Rinv_0_lt_compat; lra|]. apply IZR_le. lia. }
    apply Rabs_le_inv in R1. apply Rabs_le_inv in R2. pose proof (bpow_gt_0 radix2 (-53)). lra.
  - apply rnd_le. apply Rmult_le_compat_r; [apply Rlt_le, Rinv_0_lt_compat; lra|]. apply IZR_le. exact H.
Qed.
Lemma filter_none : forall (A : Type) (f : A -> bool) l, (forall x, In x l -> f x = false) -> length (filter f l) = O.
Proof. intros A f l H. induction l as [|x l IH]; [reflexivity|]. cbn. rewrite (H x (or_introl eq_refl)). apply IH. intros y Y. apply H. right. exact Y. Qed.
Lemma filter_all : forall (A : Type) (f : A -> bool) l, (forall x, In x l -> f x = true) -> length (filter f l) = length l.
Proof. intros A f l H. induction l as [|x l IH]; [reflexivity|]. cbn. rewrite (H x (or_introl eq_refl)). cbn. f_equal. apply IH. intros y Y. apply H. right. exact Y. Qed.
