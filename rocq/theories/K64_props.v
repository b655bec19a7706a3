(** Property C127: distances and Ripley's K on binary64. *)
From Coq Require Import Reals ZArith List Bool Permutation Lia Lra Psatz.
From Flocq Require Import Core BinarySingleNaN.
From Verif Require Import Base BaseLemmas Float_model Float_proofs F64_model F64_proofs F64_props Hex64_model Hex64_proofs K64_model K64_spec K64_proofs.
Import ListNotations.
Local Open Scope R_scope.

(** A computed distance is off by at most 2^-51 of it (and by less than 2^-535). *)
Theorem C127_distance : forall p q, usable p -> usable q ->
  fin (dist64 p q) /\ 0 <= V (dist64 p q) /\ V (dist64 p q) = V (dist64 q p) /\
  Rabs (V (dist64 p q) - D p q) <= bpow radix2 (-51) * D p q + bpow radix2 (-535).
Proof.
  intros p q P Q. destruct (dist64_ok p q P Q) as (A & B & C). destruct (dist64_ok q p Q P) as (_ & B' & _).
  split; [exact A|]. split; [exact C|]. split; [rewrite B, B', sqv_sym; reflexivity|]. apply dist_error; auto.
Qed.
Print Assumptions C127_distance.

(** Only pairs within 2^-50 of the distance can be counted wrongly. *)
Definition margin (r : R) : R := bpow radix2 (-50) * Rabs r + bpow radix2 (-534).
Lemma count_sides : forall p q d, usable p -> usable q -> fin d ->
  (D p q < V d - margin (V d) -> flt (dist64 p q) d = true) /\ (flt (dist64 p q) d = true -> D p q < V d + margin (V d)).
Proof.
  intros p q d P Q F. destruct (dist64_ok p q P Q) as (A & _ & N). pose proof (dist_error p q P Q) as E. pose proof (D_nonneg p q) as DN. apply Rabs_le_inv in E.
  unfold margin.
  assert (U4 : bpow radix2 (-51) = 4 * u). { unfold u. change 4 with (bpow radix2 2). rewrite <- bpow_plus. reflexivity. }
  assert (U8 : bpow radix2 (-50) = 8 * u). { unfold u. change 8 with (bpow radix2 3). rewrite <- bpow_plus. reflexivity. }
  assert (T2 : bpow radix2 (-534) = 2 * bpow radix2 (-535)). { change (-534)%Z with (1 + -535)%Z. rewrite bpow_plus. reflexivity. }
  rewrite U4 in E. rewrite U8, T2. set (t := bpow radix2 (-535)) in *. assert (T : 0 < t) by apply bpow_gt_0. pose proof u_ge as U.
  assert (Hu : u <= / 64). { change (/ 64) with (bpow radix2 (-6)). apply bpow_le. lia. }
  set (x := V (dist64 p q)) in *. set (y := D p q) in *. set (r := V d) in *. split.
  - intro H. apply flt_ok; auto. fold x r. destruct (Rle_lt_dec 0 r) as [R0|R0]; [rewrite Rabs_pos_eq in H by auto|rewrite Rabs_left in H by auto]; nra.
  - intro H. apply flt_ok in H; auto. fold x r in H. assert (R0 : 0 <= r) by lra. rewrite Rabs_pos_eq by auto. nra.
Qed.
Theorem C127_counts : forall l d, Forall usable l -> fin d ->
  (nearer l (V d - margin (V d)) <= closer64 l d <= nearer l (V d + margin (V d)))%nat /\
  ((forall p q, In p l -> In q l -> D p q < V d - margin (V d) \/ V d + margin (V d) <= D p q) -> closer64 l d = nearer l (V d)).
Proof.
  intros l d U F. rewrite Forall_forall in U.
  assert (H : forall p q, In (p, q) (pairs l) ->
    (D p q < V d - margin (V d) -> flt (dist64 p q) d = true) /\ (flt (dist64 p q) d = true -> D p q < V d + margin (V d))).
  { intros p q I. destruct (in_pairs l p q I). apply count_sides; auto. }
  rewrite closer_pairs. unfold nearer. split; [split|].
  - apply filter_length_le. intros [p q] I. cbn [fst snd]. destruct (Rlt_dec _ _) as [L|L]; [|discriminate]. intros _. apply (H p q I). exact L.
  - apply filter_length_le. intros [p q] I. cbn [fst snd]. intro C. destruct (Rlt_dec _ _) as [L|L]; [reflexivity|]. exfalso. apply L. apply (H p q I). exact C.
  - intro G. f_equal. apply filter_ext_in. intros [p q] I. cbn [fst snd]. destruct (in_pairs l p q I) as [Ip Iq]. destruct (H p q I) as [H1 H2].
    assert (M : 0 <= margin (V d)). { unfold margin. pose proof (bpow_gt_0 radix2 (-50)). pose proof (bpow_gt_0 radix2 (-534)). pose proof (Rabs_pos (V d)). nra. }
    destruct (G p q Ip Iq) as [L|L].
    + rewrite (H1 L). destruct (Rlt_dec _ _); [reflexivity|lra].
    + destruct (flt (dist64 p q) d) eqn:C; [specialize (H2 eq_refl); lra|]. destruct (Rlt_dec _ _); [lra|reflexivity].
Qed.
Print Assumptions C127_counts.

(** On a dyadic grid, for example with integer coordinates, the counts are exact. *)
Lemma exact_pair : forall j p q d, (-500 <= j)%Z -> usable p -> usable q -> fin d ->
  on_steps j (fst p) -> on_steps j (snd p) -> on_steps j (fst q) -> on_steps j (snd q) -> on_steps j d ->
  step_apart j p q -> V d <= bpow radix2 (j + 26) ->
  V (dist64 p q) = rnd (D p q) /\ (flt (dist64 p q) d = true <-> D p q < V d).
Proof.
  intros j p q d J P Q F [a1 A1] [b1 B1] [a2 A2] [b2 B2] [k K] [S1 S2] L.
  assert (J500 : (j + 26 <= 528 + j)%Z) by lia.
  assert (DX : V (fst p) - V (fst q) = IZR (a1 - a2) * bpow radix2 j) by (rewrite A1, A2, minus_IZR; ring).
  assert (DY : V (snd p) - V (snd q) = IZR (b1 - b2) * bpow radix2 j) by (rewrite B1, B2, minus_IZR; ring).
  set (a := (a1 - a2)%Z) in *. set (b := (b1 - b2)%Z) in *.
  assert (AB : forall z, Rabs (IZR z * bpow radix2 j) <= bpow radix2 (j + 26) -> (Z.abs z <= 2 ^ 26)%Z).
  { intros z H. rewrite Rabs_mult, (Rabs_pos_eq (bpow _ _)), bpow_plus, Rmult_comm in H by apply bpow_ge_0.
    apply Rmult_le_reg_l in H; [|apply bpow_gt_0]. rewrite <- abs_IZR, <- IZR_pow2 in H by lia. apply le_IZR in H. exact H. }
  assert (Aa : (Z.abs a <= 2 ^ 26)%Z) by (apply AB; rewrite <- DX; exact S1).
  assert (Ab : (Z.abs b <= 2 ^ 26)%Z) by (apply AB; rewrite <- DY; exact S2).
  assert (SQa : (a * a <= 2 ^ 52)%Z) by (change (2 ^ 52)%Z with (2 ^ 26 * 2 ^ 26)%Z; nia).
  assert (SQb : (b * b <= 2 ^ 52)%Z) by (change (2 ^ 52)%Z with (2 ^ 26 * 2 ^ 26)%Z; nia).
  assert (P0a : (0 <= a * a)%Z) by apply Z.square_nonneg. assert (P0b : (0 <= b * b)%Z) by apply Z.square_nonneg.
  assert (ST : forall z, (Z.abs z <= 2 ^ 53)%Z -> isfloat (IZR z * bpow radix2 (j + j))).
  { intros z H. apply grid_float; [lia|]. rewrite Rabs_mult, (Rabs_pos_eq (bpow _ _)), <- abs_IZR by apply bpow_ge_0. rewrite (bp (j + j)), Rmult_comm.
    apply Rmult_le_compat_l; [apply bpow_ge_0|]. rewrite <- IZR_pow2 by lia. apply IZR_le. exact H. }
  assert (SV : sqv p q = IZR (a * a + b * b) * bpow radix2 (j + j)).
  { unfold sqv. rewrite DX, DY. rewrite !(rnd_id (IZR _ * bpow radix2 j)) by (apply float_dyadic; lia).
    replace (IZR a * bpow radix2 j * (IZR a * bpow radix2 j)) with (IZR (a * a) * bpow radix2 (j + j)) by (rewrite mult_IZR, bp; ring).
    replace (IZR b * bpow radix2 j * (IZR b * bpow radix2 j)) with (IZR (b * b) * bpow radix2 (j + j)) by (rewrite mult_IZR, bp; ring).
    rewrite !(rnd_id (IZR (_ * _) * _)) by (apply ST; lia). rewrite <- Rmult_plus_distr_r, <- plus_IZR. apply rnd_id, ST. lia. }
  assert (DE : sqrt (sqv p q) = D p q).
  { unfold D. rewrite DX, DY, SV. f_equal. rewrite plus_IZR, !mult_IZR, bp. ring. }
  destruct (dist64_ok p q P Q) as (FD & VD & _). rewrite DE in VD. split; [exact VD|]. rewrite (flt_ok _ _ FD F), VD. split.
  - intro H. destruct (Rlt_le_dec (D p q) (V d)) as [X|X]; [exact X|]. apply rnd_le in X. rewrite (rnd_id (V d)) in X by apply V_float. lra.
  - intro H. pose proof (D_nonneg p q) as DN. assert (D1 : D p q = sqrt (IZR (a * a + b * b)) * bpow radix2 j).
    { rewrite <- DE, SV, bp, sqrt_mult_alt by (apply (IZR_le 0); lia). rewrite sqrt_square by apply bpow_ge_0. reflexivity. }
    set (s := (a * a + b * b)%Z) in *. rewrite D1, K in H. apply Rmult_lt_reg_r in H; [|apply bpow_gt_0].
    assert (K0 : (0 < k)%Z) by (apply lt_IZR; pose proof (sqrt_pos (IZR s)); lra).
    assert (K26 : (k <= 2 ^ 26)%Z).
    { rewrite K, bp, Rmult_comm in L. apply Rmult_le_reg_l in L; [|apply bpow_gt_0]. rewrite <- IZR_pow2 in L by lia. apply le_IZR in L. exact L. }
    assert (SK : (s <= k * k - 1)%Z).
    { assert (X : IZR s < IZR k * IZR k).
      { rewrite <- (sqrt_sqrt (IZR s)) by (apply (IZR_le 0); lia). pose proof (sqrt_pos (IZR s)). assert (0 < IZR k) by (apply (IZR_lt 0); lia). nra. }
      rewrite <- mult_IZR in X. apply lt_IZR in X. lia. }
    assert (LE : D p q <= IZR (k * 2 ^ 27 - 1) * bpow radix2 (j + -27)).
    { rewrite D1, bp. replace (IZR (k * 2 ^ 27 - 1) * (bpow radix2 j * bpow radix2 (-27))) with ((IZR (k * 2 ^ 27 - 1) * bpow radix2 (-27)) * bpow radix2 j) by ring.
      apply Rmult_le_compat_r; [apply bpow_ge_0|]. rewrite minus_IZR, mult_IZR, IZR_pow2 by lia.
      replace ((IZR k * bpow radix2 27 - 1) * bpow radix2 (-27)) with (IZR k - bpow radix2 (-27)).
      2: { rewrite Rmult_minus_distr_r, Rmult_assoc, <- bp. change (27 + -27)%Z with 0%Z. change (bpow radix2 0) with 1. ring. }
      set (e := bpow radix2 (-27)). assert (E0 : 0 < e) by apply bpow_gt_0. assert (E1 : e <= / 8) by (change (/ 8) with (bpow radix2 (-3)); apply bpow_le; lia).
      assert (KR : 1 <= IZR k) by (apply IZR_le; lia).
      assert (KE : IZR k * e <= / 2).
      { apply Rle_trans with (bpow radix2 26 * e); [apply Rmult_le_compat_r; [lra|]; rewrite <- IZR_pow2 by lia; apply IZR_le; exact K26|].
        unfold e. rewrite <- bp. change (/ 2) with (bpow radix2 (-1)). apply bpow_le. lia. }
      rewrite <- (sqrt_square (IZR k - e)) by lra. apply sqrt_le_1_alt. apply IZR_le in SK. rewrite minus_IZR, mult_IZR in SK. nra. }
    assert (FL : isfloat (IZR (k * 2 ^ 27 - 1) * bpow radix2 (j + -27))).
    { apply float_dyadic; [|lia]. change (2 ^ 53)%Z with (2 ^ 26 * 2 ^ 27)%Z. nia. }
    apply rnd_le in LE. rewrite (rnd_id _ FL) in LE. eapply Rle_lt_trans; [exact LE|]. rewrite K.
    replace (IZR k * bpow radix2 j) with (IZR (k * 2 ^ 27) * bpow radix2 (j + -27)).
    + apply Rmult_lt_compat_r; [apply bpow_gt_0|]. apply IZR_lt. lia.
    + rewrite mult_IZR, IZR_pow2, bp by lia. replace (bpow radix2 j) with (bpow radix2 27 * bpow radix2 (-27) * bpow radix2 j) at 2; [ring|].
      rewrite <- (bp 27). change (27 + -27)%Z with 0%Z. change (bpow radix2 0) with 1. ring.
Qed.
Theorem C127_exact : forall j l d, (-500 <= j)%Z -> Forall usable l -> fin d -> on_steps j d -> V d <= bpow radix2 (j + 26) ->
  (forall p, In p l -> on_steps j (fst p) /\ on_steps j (snd p)) -> (forall p q, In p l -> In q l -> step_apart j p q) ->
  closer64 l d = nearer l (V d).
Proof.
  intros j l d J U F O B G S. rewrite Forall_forall in U. rewrite closer_pairs. unfold nearer. f_equal. apply filter_ext_in. intros [p q] I. cbn [fst snd].
  destruct (in_pairs l p q I) as [Ip Iq]. destruct (G p Ip). destruct (G q Iq).
  destruct (exact_pair j p q d) as [_ E]; auto. destruct (flt (dist64 p q) d).
  - destruct (Rlt_dec _ _) as [L|L]; [reflexivity|]. exfalso. apply L, E. reflexivity.
  - destruct (Rlt_dec _ _) as [L|L]; [|reflexivity]. apply E in L. discriminate.
Qed.
Print Assumptions C127_exact.

(** ** The estimate *)
(** x is X up to k roundings. *)
Definition rel (k : nat) (x X : R) : Prop := X * (1 - u) ^ k <= x /\ x * (1 - u) ^ k <= X.
Lemma q_pos : forall k, 0 < (1 - u) ^ k <= 1.
Proof.
  assert (Q : 0 < 1 - u <= 1) by (pose proof u_ge; pose proof u_le; lra).
  induction k as [|k IH]; cbn [pow]; [lra|]. split; [apply Rmult_lt_0_compat; lra|]. apply Rle_trans with (1 * 1); [apply Rmult_le_compat; lra|lra].
Qed.
Lemma rel_nonneg : forall k x X, 0 <= X -> rel k x X -> 0 <= x.
Proof. intros k x X P [A _]. pose proof (q_pos k). assert (0 <= X * (1 - u) ^ k) by (apply Rmult_le_pos; lra). lra. Qed.
Lemma rel_mult : forall i j x X y Y, 0 <= X -> 0 <= Y -> rel i x X -> rel j y Y -> rel (i + j) (x * y) (X * Y).
Proof.
  intros i j x X y Y PX PY RX RY. pose proof (rel_nonneg _ _ _ PX RX). pose proof (rel_nonneg _ _ _ PY RY). destruct RX as [A1 A2]. destruct RY as [B1 B2].
  pose proof (q_pos i). pose proof (q_pos j). unfold rel. rewrite pow_add. split.
  - replace (X * Y * ((1 - u) ^ i * (1 - u) ^ j)) with (X * (1 - u) ^ i * (Y * (1 - u) ^ j)) by ring. apply Rmult_le_compat; auto; apply Rmult_le_pos; lra.
  - replace (x * y * ((1 - u) ^ i * (1 - u) ^ j)) with (x * (1 - u) ^ i * (y * (1 - u) ^ j)) by ring. apply Rmult_le_compat; auto; apply Rmult_le_pos; lra.
Qed.
Lemma rel_inv : forall k x X, 0 < X -> rel k x X -> rel k (/ x) (/ X).
Proof.
  intros k x X PX [A B]. pose proof (q_pos k) as Q. assert (0 < x) by nra. split.
  - apply Rmult_le_reg_l with (X * x); [apply Rmult_lt_0_compat; auto|]. replace (X * x * (/ X * (1 - u) ^ k)) with (x * (1 - u) ^ k) by (field; lra).
    replace (X * x * / x) with X by (field; lra). exact B.
  - apply Rmult_le_reg_l with (X * x); [apply Rmult_lt_0_compat; auto|]. replace (X * x * (/ x * (1 - u) ^ k)) with (X * (1 - u) ^ k) by (field; lra).
    replace (X * x * / X) with x by (field; lra). exact A.
Qed.
Lemma rel_err : forall k x X y, 0 <= X -> rel k x X -> Rabs (y - x) <= u * Rabs x -> rel (S k) y X.
Proof.
  intros k x X y P R E. pose proof (rel_nonneg _ _ _ P R) as x0. rewrite (Rabs_pos_eq x) in E by auto. apply Rabs_le_inv in E. destruct R as [A B].
  pose proof (q_pos k) as Q. pose proof u_ge. pose proof u_le. unfold rel. cbn [pow]. set (qk := (1 - u) ^ k) in *. split.
  - apply Rle_trans with ((1 - u) * x); [|lra]. replace (X * ((1 - u) * qk)) with ((1 - u) * (X * qk)) by ring. apply Rmult_le_compat_l; lra.
  - apply Rle_trans with (x * qk); [|exact B]. replace (y * ((1 - u) * qk)) with ((y * (1 - u)) * qk) by ring. apply Rmult_le_compat_r; [lra|]. nra.
Qed.
Lemma rel_rnd : forall k x X, bpow radix2 (-1022) <= x -> 0 <= X -> rel k x X -> rel (S k) (rnd x) X.
Proof.
  intros k x X N P R. pose proof (bpow_gt_0 radix2 (-1022)). apply (rel_err k x); auto. destruct (rnd_rel x) as (e & E & ->); [rewrite Rabs_pos_eq; lra|].
  replace (x * (1 + e) - x) with (e * x) by ring. rewrite Rabs_mult. apply Rmult_le_compat_r; [apply Rabs_pos|exact E].
Qed.
Lemma rel_exact : forall x, rel 0 x x.
Proof. intro x. unfold rel. cbn. lra. Qed.
Lemma q_half : forall k, (k <= 8)%nat -> / 2 <= (1 - u) ^ k.
Proof.
  intros k K. assert (Hu : u <= / 64) by (change (/ 64) with (bpow radix2 (-6)); apply bpow_le; lia). pose proof u_ge.
  assert (B : forall i, 1 - INR i * u <= (1 - u) ^ i).
  { induction i as [|i IH]; [cbn; lra|]. rewrite S_INR. cbn [pow]. pose proof (pos_INR i). nra. }
  specialize (B k). assert (INR k <= 8) by (apply Rle_trans with (INR 8); [apply le_INR; exact K|cbn; lra]). nra.
Qed.
Lemma rel_size : forall k x X, (k <= 8)%nat -> 0 <= X -> rel k x X -> X / 2 <= x <= 2 * X.
Proof. intros k x X K P R. pose proof (rel_nonneg _ _ _ P R). pose proof (q_half k K). pose proof (q_pos k). destruct R. split; nra. Qed.

(** n points, n^2 <= 2^53, in a box of area between 2^-900 and 2^900. *)
Definition ordinary (l : list fpt) (w h : R) : Prop :=
  l <> [] /\ Forall usable l /\ (Z.of_nat (List.length l) * Z.of_nat (List.length l) <= 2 ^ 53)%Z /\
  Extent fst l w /\ Extent snd l h /\ bpow radix2 (-900) <= w * h <= bpow radix2 900.
Lemma area_rel : forall l w h, ordinary l w h -> fin (area64 l) /\ rel 3 (V (area64 l)) (w * h).
Proof.
  intros l w h (N & U & _ & W & H & B1 & B2). destruct (area_ok l N U) as (w' & h' & W' & H' & F & E & _ & EW & EH).
  rewrite (extent_unique _ _ _ _ W' W) in *. rewrite (extent_unique _ _ _ _ H' H) in *. split; [exact F|]. rewrite E.
  pose proof (extent_nonneg _ _ _ W) as w0. pose proof (extent_nonneg _ _ _ H) as h0.
  assert (RR : rel 2 (rnd w * rnd h) (w * h)) by (apply (rel_mult 1 1); auto; eapply rel_err; eauto; apply rel_exact).
  pose proof (bpow_gt_0 radix2 (-900)). apply rel_rnd; [|lra|exact RR]. apply rel_size in RR; [|lia|lra].
  apply Rle_trans with (bpow radix2 (-900) / 2); [|lra]. change (/ 2) with (bpow radix2 (-1)). unfold Rdiv. change (/ 2) with (bpow radix2 (-1)). rewrite <- bp. apply bpow_le. lia.
Qed.
Definition inten (l : list fpt) : R := V (fdiv (fint (Z.of_nat (List.length l))) (area64 l)).
Lemma k_steps : forall l w h d, ordinary l w h -> let v := inten l in
  0 < v /\ rel 4 v (INR (List.length l) / (w * h)) /\
  fin (k64 l d) /\ V (k64 l d) = rnd (rnd (IZR (Z.of_nat (closer64 l d * 2)) / INR (List.length l)) / v).
Proof.
  intros l w h d O v. destruct (area_rel l w h O) as [AF AR]. destruct O as (N & U & N2 & _ & _ & B1 & B2).
  set (n := List.length l) in *. assert (n1 : (1 <= n)%nat) by (unfold n; destruct l; [congruence|cbn; lia]).
  assert (nz : (Z.of_nat n <= 2 ^ 53)%Z) by nia. destruct (fint_ok (Z.of_nat n)) as [NF NV]; [lia|]. rewrite <- INR_IZR_INZ in NV.
  pose proof (closer_le l d) as C. fold n in C. set (c := (closer64 l d * 2)%nat) in *.
  destruct (fint_ok (Z.of_nat c)) as [CF CV]; [nia|].
  assert (nR : 1 <= INR n) by (change 1 with (INR 1); apply le_INR; exact n1).
  assert (nR2 : INR n * INR n <= bpow radix2 53). { rewrite <- mult_INR, INR_IZR_INZ, <- IZR_pow2 by lia. apply IZR_le. nia. }
  pose proof (bpow_gt_0 radix2 (-900)) as T0. set (A := w * h) in *. assert (A0 : 0 < A) by lra.
  pose proof (rel_size 3 _ A ltac:(lia) ltac:(lra) AR) as AS.
  assert (P2 : forall k, bpow radix2 k / 2 = bpow radix2 (k - 1)) by (intro k; unfold Zminus; rewrite bp; reflexivity).
  assert (P22 : forall k, 2 * bpow radix2 k = bpow radix2 (k + 1)) by (intro k; rewrite bp; change (bpow radix2 1) with 2; ring).
  assert (AL : bpow radix2 (-901) <= V (area64 l)) by (change (-901)%Z with (-900 - 1)%Z; rewrite <- P2; lra).
  assert (AU : V (area64 l) <= bpow radix2 901) by (change 901%Z with (900 + 1)%Z; rewrite <- P22; lra).
  pose proof (bpow_gt_0 radix2 (-901)) as T1.
  assert (n53 : INR n <= bpow radix2 53) by nra.
  assert (inv : forall x k, bpow radix2 k <= x -> / x <= bpow radix2 (- k)) by (intros x k H; rewrite bpow_opp; apply Rinv_le; [apply bpow_gt_0|exact H]).
  assert (inv' : forall x k, 0 < x -> x <= bpow radix2 k -> bpow radix2 (- k) <= / x) by (intros x k H0 H; rewrite bpow_opp; apply Rinv_le; [exact H0|exact H]).
  (* n / area *)
  assert (D1 : bpow radix2 (-901) <= INR n / V (area64 l) <= bpow radix2 954).
  { pose proof (inv _ _ AL) as I1. pose proof (inv' (V (area64 l)) 901%Z ltac:(lra) AU) as I2. change (/ V (area64 l) <= bpow radix2 901) in I1. change (bpow radix2 (-901) <= / V (area64 l)) in I2. unfold Rdiv. split.
    - apply Rle_trans with (1 * / V (area64 l)); [lra|]. apply Rmult_le_compat_r; lra.
    - change 954%Z with (53 + 901)%Z. rewrite bp. apply Rmult_le_compat; lra. }
  destruct (fdiv_ok (fint (Z.of_nat n)) (area64 l) NF) as [QF QV]; [lra| |].
  { rewrite NV, Rabs_pos_eq by lra. eapply Rle_trans; [apply D1|apply bpow_le; lia]. }
  rewrite NV in QV. change (V (fdiv (fint (Z.of_nat n)) (area64 l))) with v in QV.
  assert (RV : rel 4 v (INR n / A)).
  { rewrite QV. apply rel_rnd.
    - apply Rle_trans with (bpow radix2 (-901)); [apply bpow_le; lia|apply D1].
    - apply Rmult_le_pos; [lra|]. apply Rlt_le, Rinv_0_lt_compat; exact A0.
    - apply (rel_mult 0 3); [lra|apply Rlt_le, Rinv_0_lt_compat; exact A0|apply rel_exact|apply rel_inv; auto]. }
  assert (X0 : 0 < INR n / A) by (apply Rdiv_lt_0_compat; lra).
  pose proof (rel_size 4 _ _ ltac:(lia) (Rlt_le _ _ X0) RV) as VS. assert (v0 : 0 < v) by lra.
  assert (VL : bpow radix2 (-902) <= v).
  { rewrite QV. rewrite <- (rnd_id (bpow radix2 (-902))) by (apply generic_format_bpow; unfold fexp64, FLT_exp; lia). apply rnd_le.
    apply Rle_trans with (bpow radix2 (-901)); [apply bpow_le; lia|apply D1]. }
  (* count / n *)
  assert (C0 : 0 <= IZR (Z.of_nat c)) by (apply (IZR_le 0); lia).
  assert (C1 : IZR (Z.of_nat c) <= bpow radix2 53). { rewrite <- IZR_pow2 by lia. apply IZR_le. nia. }
  assert (D2 : 0 <= IZR (Z.of_nat c) / INR n <= bpow radix2 53).
  { split; [apply Rmult_le_pos; [exact C0|apply Rlt_le, Rinv_0_lt_compat; lra]|]. apply Rmult_le_reg_r with (INR n); [lra|]. unfold Rdiv. rewrite Rmult_assoc, Rinv_l, Rmult_1_r by lra.
    pose proof (bpow_gt_0 radix2 53). nra. }
  destruct (fdiv_ok (fint (Z.of_nat c)) (fint (Z.of_nat n)) CF) as [EF EV]; [lra| |].
  { rewrite CV, NV, Rabs_pos_eq by apply D2. eapply Rle_trans; [apply D2|apply bpow_le; lia]. }
  rewrite CV, NV in EV. set (e := V (fdiv (fint (Z.of_nat c)) (fint (Z.of_nat n)))) in *.
  assert (E1 : 0 <= e <= bpow radix2 53).
  { rewrite EV. split; [apply rnd_nonneg, D2|]. rewrite <- (rnd_id (bpow radix2 53)) by (apply generic_format_bpow; unfold fexp64, FLT_exp; lia). apply rnd_le, D2. }
  destruct (fdiv_ok (fdiv (fint (Z.of_nat c)) (fint (Z.of_nat n))) (fdiv (fint (Z.of_nat n)) (area64 l)) EF) as [KF KV]; [change (v <> 0); lra| |].
  { change (Rabs (e / v) <= bpow radix2 1023). assert (IV : / v <= bpow radix2 902) by (apply (inv v (-902)%Z VL)). assert (0 < / v) by (apply Rinv_0_lt_compat; exact v0).
    rewrite Rabs_pos_eq by (apply Rmult_le_pos; lra). apply Rle_trans with (bpow radix2 53 * bpow radix2 902); [apply Rmult_le_compat; lra|]. rewrite <- bp. apply bpow_le. lia. }
  split; [exact v0|]. split; [exact RV|]. unfold k64. cbv zeta. fold n c. split; [exact KF|]. rewrite KV. change (V (fdiv (fint (Z.of_nat n)) (area64 l))) with v. fold e. rewrite EV. reflexivity.
Qed.
Lemma k_rel : forall l w h d, ordinary l w h ->
  let K := 2 * INR (closer64 l d) * (w * h) / (INR (List.length l) * INR (List.length l)) in
  fin (k64 l d) /\ rel 6 (V (k64 l d)) K /\ (K = 0 \/ bpow radix2 (-1006) <= K <= bpow radix2 955).
Proof.
  intros l w h d O K. destruct (k_steps l w h d O) as (v0 & RV & F & E). split; [exact F|]. rewrite E. set (v := inten l) in *. pose proof (closer_le l d) as CL.
  destruct O as (N & U & N2 & _ & _ & B1 & B2). pose proof (bpow_gt_0 radix2 (-900)) as T0.
  set (n := List.length l) in *. assert (n1 : (1 <= n)%nat) by (unfold n; destruct l; [congruence|cbn; lia]).
  assert (nR : 1 <= INR n) by (change 1 with (INR 1); apply le_INR; exact n1).
  assert (n53 : INR n <= bpow radix2 53).
  { rewrite INR_IZR_INZ, <- IZR_pow2 by lia. apply IZR_le. nia. }
  unfold K. set (c := closer64 l d) in *. fold n in CL. clearbody c.
  set (A := w * h) in *. assert (A0 : 0 < A) by lra.
  destruct c as [|c'].
  - cbn [INR]. change (Z.of_nat (0 * 2)) with 0%Z. unfold Rdiv. rewrite !Rmult_0_l, !Rmult_0_r, !Rmult_0_l, rnd_0, Rmult_0_l, rnd_0. split; [unfold rel; lra|left; reflexivity].
  - set (c := S c') in *. assert (C2 : IZR (Z.of_nat (c * 2)) = 2 * INR c) by (rewrite <- INR_IZR_INZ, mult_INR; cbn; ring).
    rewrite C2. assert (c1 : 1 <= INR c) by (change 1 with (INR 1); apply le_INR; unfold c; lia).
    set (X := 2 * INR c / INR n). set (Y := INR n / A) in *.
    assert (X0 : bpow radix2 (-53) <= X).
    { unfold X, Rdiv. assert (bpow radix2 (-53) <= / INR n) by (change (-53)%Z with (- (53))%Z; rewrite bpow_opp; apply Rinv_le; lra). pose proof (bpow_gt_0 radix2 (-53)). nra. }
    pose proof (bpow_gt_0 radix2 (-53)) as TX. assert (Y0 : 0 < Y) by (apply Rdiv_lt_0_compat; lra).
    assert (R1 : rel 1 (rnd X) X) by (apply rel_rnd; [eapply Rle_trans; [|exact X0]; apply bpow_le; lia|lra|apply rel_exact]).
    assert (R2 : rel 5 (rnd X / v) (X / Y)).
    { apply (rel_mult 1 4); [lra|apply Rlt_le, Rinv_0_lt_compat; exact Y0|exact R1|apply rel_inv; auto]. }
    assert (XY : 2 * INR c * A / (INR n * INR n) = X / Y) by (unfold X, Y; field; lra). rewrite XY.
    assert (BIG : bpow radix2 (-1006) <= X / Y).
    { rewrite <- XY. unfold Rdiv. assert (bpow radix2 (-106) <= / (INR n * INR n)).
      { change (-106)%Z with (- (53 + 53))%Z. rewrite bpow_opp, bp. apply Rinv_le; [nra|]. apply Rmult_le_compat; lra. }
      apply Rle_trans with (bpow radix2 (-900) * bpow radix2 (-106)); [rewrite <- bp; apply bpow_le; lia|].
      pose proof (bpow_gt_0 radix2 (-106)). apply Rmult_le_compat; try lra. nra. }
    pose proof (bpow_gt_0 radix2 (-1006)) as T1.
    assert (R3 : rel 6 (rnd (rnd X / v)) (X / Y)).
    { apply rel_rnd; [|lra|exact R2]. apply rel_size in R2; [|lia|lra].
      apply Rle_trans with (bpow radix2 (-1006) * bpow radix2 (-1)); [rewrite <- bp; apply bpow_le; lia|]. change (bpow radix2 (-1)) with (/ 2). lra. }
    split; [exact R3|]. right. split; [exact BIG|]. rewrite <- XY.
    assert (CN : INR c <= INR n * INR n) by (rewrite <- mult_INR; apply le_INR; lia).
    change 955%Z with (53 + 900 + 2)%Z. rewrite !bp. change (bpow radix2 2) with 4.
    assert (2 * INR c * A / (INR n * INR n) <= 2 * A).
    { apply Rmult_le_reg_r with (INR n * INR n); [nra|]. unfold Rdiv. rewrite Rmult_assoc, Rinv_l, Rmult_1_r by nra. nra. }
    assert (1 <= bpow radix2 53) by (change 1 with (bpow radix2 0); apply bpow_le; lia). nra.
Qed.
(** The estimate is 2 c area / n^2, for the count c, up to a relative error of 2^-50. *)
Lemma rel_value : forall k x X, (k <= 6)%nat -> 0 <= X -> rel k x X -> Rabs (x - X) <= bpow radix2 (-50) * X.
Proof.
  intros k r X K6 X0 RR. pose proof (rel_nonneg k r X X0 RR) as r0. destruct RR as [S1 S2].
  assert (U8 : bpow radix2 (-50) = 8 * u). { unfold u. change 8 with (bpow radix2 3). rewrite <- bpow_plus. reflexivity. }
  assert (Hu : u <= / 64) by (change (/ 64) with (bpow radix2 (-6)); apply bpow_le; lia). pose proof u_ge as U0.
  assert (Q6 : 1 - 6 * u <= (1 - u) ^ k).
  { assert (B : forall i, 1 - INR i * u <= (1 - u) ^ i).
    { induction i as [|i IH]; [cbn; lra|]. rewrite S_INR. cbn [pow]. pose proof (pos_INR i). nra. }
    specialize (B k). apply le_INR in K6. cbn [INR] in K6. nra. }
  rewrite U8. apply Rabs_le. split; [nra|].
  assert (r * (1 - 6 * u) <= X) by nra. assert (1 <= (1 - 6 * u) * (1 + 8 * u)) by nra.
  assert (r <= r * ((1 - 6 * u) * (1 + 8 * u))) by nra. nra.
Qed.
Theorem C127_value : forall l w h d, ordinary l w h ->
  let K := 2 * INR (closer64 l d) * (w * h) / (INR (List.length l) * INR (List.length l)) in
  fin (k64 l d) /\ Rabs (V (k64 l d) - K) <= bpow radix2 (-50) * K.
Proof.
  intros l w h d O K. destruct (k_rel l w h d O) as (F & RR & B). split; [exact F|]. apply (rel_value 6); [lia| |exact RR].
  fold K in B. pose proof (bpow_gt_0 radix2 (-1006)). destruct B; lra.
Qed.
Print Assumptions C127_value.
(** The estimates do not decrease with the distance. *)
Lemma closer_mono : forall l d d', Forall usable l -> fin d -> fin d' -> V d <= V d' -> (closer64 l d <= closer64 l d')%nat.
Proof.
  intros l d d' U F F' L. rewrite !closer_pairs. apply filter_length_le. rewrite Forall_forall in U. intros [p q] I. cbn [fst snd]. destruct (in_pairs l p q I) as [Ip Iq].
  destruct (dist64_ok p q (U p Ip) (U q Iq)) as (FD & _). intro X. apply flt_ok in X; auto. apply flt_ok; auto. lra.
Qed.
Theorem C127_monotone : forall l w h d d', ordinary l w h -> fin d -> fin d' -> V d <= V d' -> V (k64 l d) <= V (k64 l d').
Proof.
  intros l w h d d' O F F' L. destruct (k_steps l w h d O) as (v0 & _ & _ & E). destruct (k_steps l w h d' O) as (_ & _ & _ & E').
  assert (U : Forall usable l) by apply O. pose proof (closer_mono l d d' U F F' L) as C. rewrite E, E'.
  assert (n0 : 0 < INR (List.length l)) by (destruct O as [N _]; destruct l; [congruence|]; apply lt_0_INR; cbn; lia).
  apply rnd_le. apply Rmult_le_compat_r; [apply Rlt_le, Rinv_0_lt_compat; exact v0|]. apply rnd_le. apply Rmult_le_compat_r; [apply Rlt_le, Rinv_0_lt_compat; exact n0|].
  apply IZR_le. lia.
Qed.
Print Assumptions C127_monotone.
(** They do not depend on the order of the points. *)
Theorem C127_order : forall l l' d, Permutation l l' -> Forall usable l -> fin d -> closer64 l d = closer64 l' d /\
  (forall w h, ordinary l w h -> V (k64 l d) = V (k64 l' d)).
Proof.
  intros l l' d P U F. rewrite Forall_forall in U.
  assert (C : closer64 l d = closer64 l' d).
  { rewrite !closer_pairs. apply (pairs_perm (fun p q => flt (dist64 p q) d)); [exact P|]. intros p q Ip Iq. apply flt_dist_sym; auto. }
  split; [exact C|]. intros w h O.
  assert (I : forall p, In p l <-> In p l') by (intro p; split; apply Permutation_in; [exact P|apply Permutation_sym; exact P]).
  assert (LN : List.length l = List.length l') by (apply Permutation_length; exact P).
  assert (O' : ordinary l' w h).
  { destruct O as (N & U' & N2 & W & H & B). split; [intro X; subst l'; apply Permutation_sym, Permutation_nil in P; auto|].
    split; [apply Forall_forall; intros p Hp; apply U, I, Hp|]. rewrite <- LN. split; [exact N2|]. split; [eapply extent_in; eauto|]. split; [eapply extent_in; eauto|exact B]. }
  destruct (k_steps l w h d O) as (_ & _ & _ & E). destruct (k_steps l' w h d O') as (_ & _ & _ & E'). rewrite E, E', C, LN. do 2 f_equal.
  unfold inten. rewrite LN.
  destruct (area_rel l w h O) as [A1 A2]. destruct (area_rel l' w h O') as [A1' A2'].
  assert (AE : V (area64 l) = V (area64 l')).
  { destruct O as (N & U' & _ & W & H & _). destruct O' as (N' & U'' & _ & W' & H' & _).
    destruct (area_ok l N U') as (w1 & h1 & W1 & H1 & _ & -> & _). destruct (area_ok l' N' U'') as (w2 & h2 & W2 & H2 & _ & -> & _).
    rewrite (extent_unique _ _ _ _ W1 W), (extent_unique _ _ _ _ H1 H), (extent_unique _ _ _ _ W2 W'), (extent_unique _ _ _ _ H2 H'). reflexivity. }
  assert (AP : 0 < V (area64 l)).
  { destruct O as (_ & _ & _ & _ & _ & B1 & _). pose proof (bpow_gt_0 radix2 (-900)). apply rel_size in A2; [lra|lia|lra]. }
  assert (IJ : area64 l = area64 l'); [|rewrite IJ; reflexivity].
  apply (B2R_inj 53 1024); [..|exact AE]; apply is_finite_strict_B2R; unfold V in *; lra.
Qed.
Print Assumptions C127_order.
(** Points with a common coordinate have an estimate of zero at every distance. *)
Theorem C127_flat : forall l d, l <> [] -> Forall usable l -> (Z.of_nat (List.length l) * Z.of_nat (List.length l) <= 2 ^ 53)%Z ->
  Extent fst l 0 \/ Extent snd l 0 -> fin (k64 l d) /\ V (k64 l d) = 0.
Proof.
  intros l d N U N2 X. destruct (area_ok l N U) as (w & h & W & H & F & E & _).
  assert (A0 : V (area64 l) = 0).
  { rewrite E. destruct X as [X|X]; [rewrite (extent_unique _ _ _ _ W X)|rewrite (extent_unique _ _ _ _ H X)]; rewrite rnd_0, ?Rmult_0_l, ?Rmult_0_r; apply rnd_0. }
  assert (n1 : (1 <= List.length l)%nat) by (destruct l; [congruence|cbn; lia]).
  destruct (fint_ok (Z.of_nat (List.length l))) as [NF NV]; [nia|]. pose proof (closer_le l d) as C.
  destruct (fint_ok (Z.of_nat (closer64 l d * 2))) as [CF CV]; [nia|]. unfold k64. cbv zeta.
  assert (nR : 1 <= V (fint (Z.of_nat (List.length l)))) by (rewrite NV; apply IZR_le; lia).
  set (n := fint (Z.of_nat (List.length l))) in *. set (c := fint (Z.of_nat (closer64 l d * 2))) in *.
  assert (C0 : 0 <= V c <= bpow radix2 53). { rewrite CV. split; [apply (IZR_le 0); lia|]. rewrite <- IZR_pow2 by lia. apply IZR_le. nia. }
  destruct (fdiv_ok c n CF) as [DF DV]; [lra| |].
  { pose proof (Rinv_0_lt_compat (V n) ltac:(lra)). assert (/ V n <= 1) by (rewrite <- Rinv_1; apply Rinv_le; lra). unfold Rdiv. rewrite Rabs_pos_eq by (apply Rmult_le_pos; lra).
    apply Rle_trans with (bpow radix2 53); [nra|apply bpow_le; lia]. }
  set (q := fdiv c n) in *. clearbody q c. unfold V, fin in *.
  destruct (area64 l) as [s|s| |s m e B]; try discriminate.
  - destruct n as [sn|sn| |sn mn en Bn]; try discriminate; [cbn in nR; lra|]. unfold fdiv. cbn. destruct q as [sq|sq| |sq mq eq Bq]; try discriminate; cbn; auto.
  - exfalso. cbn in A0. revert A0. destruct s; [apply Rlt_not_eq, F2R_lt_0; reflexivity|apply Rgt_not_eq, F2R_gt_0; reflexivity].
Qed.
Print Assumptions C127_flat.

(** ** Nearest neighbours *)
Lemma fold_nearest : forall p l m, usable p -> Forall usable l -> fin m ->
  fin (fold_left (fun m r => fmin m (dist64 p r)) l m) /\
  (V (fold_left (fun m r => fmin m (dist64 p r)) l m) = V m \/ exists r, In r l /\ V (fold_left (fun m r => fmin m (dist64 p r)) l m) = V (dist64 p r)) /\
  V (fold_left (fun m r => fmin m (dist64 p r)) l m) <= V m /\ (forall r, In r l -> V (fold_left (fun m r => fmin m (dist64 p r)) l m) <= V (dist64 p r)).
Proof.
  intros p l. induction l as [|a l IH]; intros m P U F.
  - cbn. split; [exact F|]. split; [left; reflexivity|]. split; [lra|]. intros r [].
  - inversion U as [|? ? Ua Ul]; subst. cbn [fold_left]. destruct (dist64_ok p a P Ua) as (FD & _). destruct (fmin_ok m (dist64 p a) F FD) as [FM EM].
    destruct (IH (fmin m (dist64 p a)) P Ul FM) as (I1 & I2 & I3 & I4). rewrite EM in I2, I3. split; [exact I1|].
    pose proof (Rmin_l (V m) (V (dist64 p a))). pose proof (Rmin_r (V m) (V (dist64 p a))). split; [|split].
    + destruct I2 as [I2|(r & R1 & R2)]; [|right; exists r; split; [right; exact R1|exact R2]]. unfold Rmin in I2. destruct (Rle_dec _ _); [left; exact I2|right; exists a; split; [left; reflexivity|exact I2]].
    + lra.
    + intros r [<-|Hr]; [lra|auto].
Qed.
(** The distance to the nearest of some points is off by at most 2^-51 of it. *)
Theorem C127_nearest : forall p q l, usable p -> Forall usable (q :: l) -> exists r, In r (q :: l) /\ (forall s, In s (q :: l) -> D p r <= D p s) /\
  fin (nearest64 p q l) /\ Rabs (V (nearest64 p q l) - D p r) <= bpow radix2 (-51) * D p r + bpow radix2 (-535).
Proof.
  intros p q l P U. assert (MIN : exists r, In r (q :: l) /\ forall s, In s (q :: l) -> D p r <= D p s).
  { clear U. revert q. induction l as [|a l IH]; intro q.
    - exists q. split; [left; reflexivity|]. intros s [<-|[]]. lra.
    - destruct (IH a) as (r & R1 & R2). destruct (Rle_lt_dec (D p q) (D p r)) as [L|L].
      + exists q. split; [left; reflexivity|]. intros s [<-|Hs]; [lra|]. specialize (R2 s Hs). lra.
      + exists r. split; [right; exact R1|]. intros s [<-|Hs]; [lra|auto]. }
  destruct MIN as (r & R1 & R2). exists r. split; [exact R1|]. split; [exact R2|]. inversion U as [|? ? Uq Ul]; subst.
  destruct (dist64_ok p q P Uq) as (FQ & _). unfold nearest64. destruct (fold_nearest p l (dist64 p q) P Ul FQ) as (I1 & I2 & I3 & I4). split; [exact I1|].
  set (x := V (fold_left (fun m r0 => fmin m (dist64 p r0)) l (dist64 p q))) in *. rewrite Forall_forall in U.
  assert (X1 : exists s, In s (q :: l) /\ x = V (dist64 p s)).
  { destruct I2 as [I2|(s & S1 & S2)]; [exists q; split; [left; reflexivity|exact I2]|exists s; split; [right; exact S1|exact S2]]. }
  assert (X2 : x <= V (dist64 p r)) by (destruct R1 as [<-|R1]; auto).
  destruct X1 as (s & S1 & S2). pose proof (dist_error p s P (U s S1)) as ES. pose proof (dist_error p r P (U r R1)) as ER. specialize (R2 s S1).
  rewrite <- S2 in ES. apply Rabs_le_inv in ES. apply Rabs_le_inv in ER. apply Rabs_le.
  assert (H : bpow radix2 (-51) <= 1) by (change 1 with (bpow radix2 0); apply bpow_le; lia). pose proof (bpow_gt_0 radix2 (-51)). split; [|lra].
  assert ((1 - bpow radix2 (-51)) * D p r <= (1 - bpow radix2 (-51)) * D p s) by (apply Rmult_le_compat_l; lra). lra.
Qed.
Print Assumptions C127_nearest.

(** Without the margin the counts are wrong: two points less than 1 apart are not
    counted at the distance 1, as their computed distance is 1. *)
Theorem C127_counts_refuted : exists p q d, usable p /\ usable q /\ fin d /\ V d = 1 /\ D p q < 1 /\ closer64 [p; q] d = 0%nat /\ nearer [p; q] (V d) = 1%nat.
Proof.
  assert (P60 : 0 < bpow radix2 (-60) <= / 8). { split; [apply bpow_gt_0|]. change (/ 8) with (bpow radix2 (-3)). apply bpow_le. lia. }
  assert (P500 : 1 <= bpow radix2 500) by (change 1 with (bpow radix2 0); apply bpow_le; lia).
  destruct (fdyadic_ok 1 (-60)) as [F E]; [rewrite Rmult_1_l, Rabs_pos_eq by lra; apply bpow_le; lia|].
  rewrite Rmult_1_l, rnd_id in E by (apply generic_format_bpow; unfold fexp64, FLT_exp; lia).
  destruct (fint_ok 1) as [F1 E1]; [lia|]. destruct (fint_ok 0) as [F0 E0]; [lia|].
  exists (fint 1, fint 0), (fdyadic 1 (-60), fint 0), (fint 1).
  assert (DD : D (fint 1, fint 0) (fdyadic 1 (-60), fint 0) = 1 - bpow radix2 (-60)).
  { unfold D. cbn [fst snd]. rewrite E, E1, E0. replace ((1 - bpow radix2 (-60)) ^ 2 + (0 - 0) ^ 2) with ((1 - bpow radix2 (-60)) * (1 - bpow radix2 (-60))) by ring. apply sqrt_square. lra. }
  split; [split; cbn [fst snd]; (split; [assumption|]); rewrite ?E1, ?E0, ?Rabs_R0, ?Rabs_R1; lra|].
  split; [split; cbn [fst snd]; (split; [assumption|]); rewrite ?E, ?E0, ?Rabs_R0; [rewrite Rabs_pos_eq; lra|lra]|].
  split; [exact F1|]. split; [exact E1|]. split; [rewrite DD; lra|]. split; [vm_compute; reflexivity|].
  unfold nearer. cbn [pairs map app filter fst snd]. rewrite DD, E1. destruct (Rlt_dec _ _); [reflexivity|lra].
Qed.
Print Assumptions C127_counts_refuted.

(** Four corners of a square of side 2: four sides below 5/2, all six pairs below 3. *)
Definition square64 : list fpt := [(fint 0, fint 0); (fint 2, fint 0); (fint 0, fint 2); (fint 2, fint 2)].
Example C127_case : closer64 square64 (fint 2) = 0%nat /\ closer64 square64 (fdyadic 5 (-1)) = 4%nat /\ closer64 square64 (fint 3) = 6%nat /\
  B2SF (k64 square64 (fint 3)) = B2SF (fint 3) /\ B2SF (k64 square64 (fdyadic 5 (-1))) = B2SF (fint 2) /\
  B2SF (nearest64 (fint 0, fint 0) (fint 3, fint 4) [(fint 6, fint 8); (fint 5, fint 12)]) = B2SF (fint 5).
Proof. repeat split; vm_compute; reflexivity. Qed.
