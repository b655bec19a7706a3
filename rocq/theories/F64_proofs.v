(** Rounding errors of sums and means on binary64. *)
From Coq Require Import Reals ZArith List Bool Lia Lra Psatz.
From Flocq Require Import Core BinarySingleNaN Relative Plus_error.
From Verif Require Import Float_model Float_proofs F64_model.
Import ListNotations.
Local Open Scope R_scope.

(** The real number of a float, and finiteness. *)
Definition V (x : f64) : R := B2R x.
Definition fin (x : f64) : Prop := is_finite x = true.
Definition Vsum (l : list f64) : R := fold_right Rplus 0 (map V l).
Definition Vabs (l : list f64) : R := fold_right Rplus 0 (map (fun x => Rabs (V x)) l).

Lemma V_float : forall x : f64, isfloat (V x).
Proof. intro x. apply (generic_format_B2R 53 1024). Qed.

(** ** No overflow *)
Lemma pow1023_float : isfloat (bpow radix2 1023).
Proof. apply generic_format_bpow. unfold fexp64, FLT_exp. lia. Qed.
Lemma rnd_abs_le : forall x b, isfloat b -> Rabs x <= b -> Rabs (rnd x) <= b.
Proof.
  intros x b F H. apply Rabs_le_inv in H. apply Rabs_le. split.
  - rewrite <- (rnd_id (- b)) by (apply generic_format_opp; exact F). apply rnd_le. lra.
  - rewrite <- (rnd_id b) by exact F. apply rnd_le. lra.
Qed.
Lemma no_overflow : forall x, Rabs x <= bpow radix2 1023 -> Rlt_bool (Rabs (rnd x)) (bpow radix2 1024) = true.
Proof.
  intros x H. apply Rlt_bool_true. eapply Rle_lt_trans; [apply rnd_abs_le; [exact pow1023_float|exact H]|].
  apply bpow_lt. lia.
Qed.
Lemma fadd_ok : forall x y, fin x -> fin y -> Rabs (V x + V y) <= bpow radix2 1023 -> fin (fadd x y) /\ V (fadd x y) = rnd (V x + V y).
Proof.
  intros x y Fx Fy H. generalize (Bplus_correct 53 1024 eq_refl eq_refl mode_NE x y Fx Fy).
  change (round radix2 _ _ (B2R x + B2R y)) with (rnd (V x + V y)). rewrite (no_overflow _ H). intros (A & B & _). split; assumption.
Qed.
Lemma fsub_ok : forall x y, fin x -> fin y -> Rabs (V x - V y) <= bpow radix2 1023 -> fin (fsub x y) /\ V (fsub x y) = rnd (V x - V y).
Proof.
  intros x y Fx Fy H. generalize (Bminus_correct 53 1024 eq_refl eq_refl mode_NE x y Fx Fy).
  change (round radix2 _ _ (B2R x - B2R y)) with (rnd (V x - V y)). rewrite (no_overflow _ H). intros (A & B & _). split; assumption.
Qed.
Lemma fmul_ok : forall x y, fin x -> fin y -> Rabs (V x * V y) <= bpow radix2 1023 -> fin (fmul x y) /\ V (fmul x y) = rnd (V x * V y).
Proof.
  intros x y Fx Fy H. generalize (Bmult_correct 53 1024 eq_refl eq_refl mode_NE x y).
  change (round radix2 _ _ (B2R x * B2R y)) with (rnd (V x * V y)). rewrite (no_overflow _ H). intros (A & B & _).
  unfold fin in *. rewrite Fx, Fy in B. split; assumption.
Qed.
Lemma fdiv_ok : forall x y, fin x -> V y <> 0 -> Rabs (V x / V y) <= bpow radix2 1023 -> fin (fdiv x y) /\ V (fdiv x y) = rnd (V x / V y).
Proof.
  intros x y Fx Fy H. generalize (Bdiv_correct 53 1024 eq_refl eq_refl mode_NE x y Fy).
  change (round radix2 _ _ (B2R x / B2R y)) with (rnd (V x / V y)). rewrite (no_overflow _ H). intros (A & B & _).
  unfold fin in *. rewrite Fx in B. split; assumption.
Qed.
Lemma fdyadic_ok : forall m e, Rabs (IZR m * bpow radix2 e) <= bpow radix2 1023 -> fin (fdyadic m e) /\ V (fdyadic m e) = rnd (IZR m * bpow radix2 e).
Proof.
  intros m e H. generalize (binary_normalize_correct 53 1024 eq_refl eq_refl mode_NE m e false). cbv zeta.
  change (round radix2 _ _ (F2R _)) with (rnd (IZR m * bpow radix2 e)). rewrite (no_overflow _ H). intros (A & B & _). split; assumption.
Qed.

Lemma IZR_pow2 : forall k, (0 <= k)%Z -> IZR (2 ^ k) = bpow radix2 k.
Proof. intros k H. apply (IZR_Zpower radix2). exact H. Qed.
Lemma float_int : forall k, (Z.abs k <= 2 ^ 53)%Z -> isfloat (IZR k).
Proof.
  intros k H. destruct (Z_lt_le_dec (Z.abs k) (2 ^ 53)) as [L|L].
  - rewrite <- (Rmult_1_r (IZR k)). change 1 with (bpow radix2 0). apply float_dyadic; [exact L|lia].
  - assert (E : k = (2 ^ 53)%Z \/ k = (- 2 ^ 53)%Z) by lia. destruct E as [->| ->].
    + rewrite IZR_pow2 by lia. apply generic_format_bpow. unfold fexp64, FLT_exp. lia.
    + rewrite opp_IZR, IZR_pow2 by lia. apply generic_format_opp, generic_format_bpow. unfold fexp64, FLT_exp. lia.
Qed.
Lemma fint_ok : forall k, (Z.abs k <= 2 ^ 53)%Z -> fin (fint k) /\ V (fint k) = IZR k.
Proof.
  intros k H. unfold fint. destruct (fdyadic_ok k 0) as [A B].
  - change (bpow radix2 0) with 1. rewrite Rmult_1_r, <- abs_IZR. apply Rle_trans with (bpow radix2 53); [|apply bpow_le; lia].
    rewrite <- IZR_pow2 by lia. apply IZR_le. exact H.
  - split; [exact A|]. rewrite B. change (bpow radix2 0) with 1. rewrite Rmult_1_r. apply rnd_id, float_int. exact H.
Qed.

(** ** Error of one operation *)
Definition tiny : R := bpow radix2 (-1075).
Lemma u_ge : 0 < u. Proof. apply bpow_gt_0. Qed.
Lemma tiny_gt : 0 < tiny. Proof. apply bpow_gt_0. Qed.
Lemma rnd_error : forall x, Rabs (rnd x - x) <= u * Rabs x + tiny.
Proof.
  intro x. destruct (error_N_FLT radix2 (-1074) 53 eq_refl (fun x => negb (Z.even x)) x) as (e & h & E & H & _ & R).
  change (rnd x = x * (1 + e) + h) in R. rewrite R. replace (x * (1 + e) + h - x) with (x * e + h) by ring.
  assert (E' : Rabs e <= u). { eapply Rle_trans; [exact E|]. unfold u. change (/2) with (bpow radix2 (-1)). rewrite <- bpow_plus. apply bpow_le. lia. }
  assert (H' : Rabs h <= tiny). { eapply Rle_trans; [exact H|]. unfold tiny. change (/2) with (bpow radix2 (-1)). rewrite <- bpow_plus. apply bpow_le. lia. }
  eapply Rle_trans; [apply Rabs_triang|]. rewrite Rabs_mult. pose proof (Rabs_pos x). pose proof (Rabs_pos e). nra.
Qed.
(** Sums of two floats have no underflow error. *)
Lemma rnd_plus_error : forall x y, isfloat x -> isfloat y -> Rabs (rnd (x + y) - (x + y)) <= u * Rabs (x + y).
Proof.
  intros x y Fx Fy. destruct (float_multiple x Fx) as [k ->]. destruct (float_multiple y Fy) as [m ->].
  replace (IZR k * bpow radix2 (-1074) + IZR m * bpow radix2 (-1074)) with (IZR (k + m) * bpow radix2 (-1074)) by (rewrite plus_IZR; ring).
  destruct (rnd_rel_multiple (k + m)) as (e & E & ->). set (z := IZR (k + m) * bpow radix2 (-1074)).
  replace (z * (1 + e) - z) with (z * e) by ring. rewrite Rabs_mult, Rmult_comm. apply Rmult_le_compat_r; [apply Rabs_pos|exact E].
Qed.

(** ** Sums *)
(** Accumulated relative error of k operations. *)
Definition g (k : nat) : R := (1 + u) ^ k - 1.
Lemma g_S : forall k, g (S k) = g k * (1 + u) + u.
Proof. intro k. unfold g. cbn [pow]. ring. Qed.
Lemma g_pos : forall k, 0 <= g k.
Proof. intro k. unfold g. pose proof (pow_R1_Rle (1 + u) k). pose proof u_ge. assert (1 <= (1 + u) ^ k) by (apply H; lra). lra. Qed.
Lemma g_mono : forall k, g k <= g (S k).
Proof. intro k. rewrite g_S. pose proof (g_pos k). pose proof u_ge. nra. Qed.
Lemma g_bound : forall k, INR k * u <= / 2 -> g k <= 2 * INR k * u.
Proof.
  induction k as [|k IH]; intro H.
  - unfold g. cbn. lra.
  - rewrite S_INR in *. pose proof u_ge. pose proof (pos_INR k). assert (A : INR k * u <= / 2) by nra. specialize (IH A).
    rewrite g_S. assert (INR k * u * u <= / 2 * u) by (apply Rmult_le_compat_r; lra). nra.
Qed.
Lemma g_one : forall k, INR k * u <= / 2 -> g k <= 1.
Proof. intros k H. pose proof (g_bound k H). lra. Qed.

Lemma Vabs_pos : forall l, 0 <= Vabs l.
Proof. induction l as [|x l IH]; unfold Vabs in *; cbn; [lra|]. pose proof (Rabs_pos (V x)). lra. Qed.
Lemma Vsum_abs : forall l, Rabs (Vsum l) <= Vabs l.
Proof.
  induction l as [|x l IH]; unfold Vabs, Vsum in *; cbn; [rewrite Rabs_R0; lra|].
  eapply Rle_trans; [apply Rabs_triang|]. lra.
Qed.

Lemma fold_error : forall l s S B k, fin s -> Forall fin l -> Rabs (V s - S) <= g k * B -> Rabs S <= B ->
  (INR (k + List.length l) * u <= / 2) -> 2 * (B + Vabs l) <= bpow radix2 1023 ->
  fin (fold_left fadd l s) /\ Rabs (V (fold_left fadd l s) - (S + Vsum l)) <= g (k + List.length l) * (B + Vabs l).
Proof.
  induction l as [|x l IH]; intros s S B k Fs Fl E SB K O.
  - cbn. unfold Vsum, Vabs. cbn. rewrite Nat.add_0_r, !Rplus_0_r. auto.
  - inversion Fl as [|? ? Fx Fl']; subst. cbn [fold_left]. unfold Vabs, Vsum in *. cbn [map fold_right] in *. fold (Vabs l) in *. fold (Vsum l) in *.
    cbn [List.length] in *. replace (k + Datatypes.S (List.length l))%nat with (Datatypes.S k + List.length l)%nat in * by lia.
    pose proof (Vabs_pos l) as P. pose proof (Rabs_pos (V x)) as Px. pose proof (Rabs_pos S) as PS. pose proof u_ge as U.
    assert (K' : INR k * u <= / 2). { eapply Rle_trans; [|exact K]. apply Rmult_le_compat_r; [lra|]. apply le_INR. lia. }
    pose proof (g_one k K') as G1. pose proof (g_pos k) as G0.
    assert (VS : Rabs (V s) <= 2 * B). { replace (V s) with (V s - S + S) by ring. eapply Rle_trans; [apply Rabs_triang|]. nra. }
    assert (VX : Rabs (V s + V x) <= bpow radix2 1023). { eapply Rle_trans; [apply Rabs_triang|]. lra. }
    destruct (fadd_ok s x Fs Fx VX) as [A1 A2].
    assert (S1 : Rabs (S + V x) <= B + Rabs (V x)). { eapply Rle_trans; [apply Rabs_triang|]. lra. }
    destruct (IH (fadd s x) (S + V x) (B + Rabs (V x)) (Datatypes.S k) A1 Fl') as [I1 I2].
    + rewrite A2, g_S. replace (rnd (V s + V x) - (S + V x)) with ((rnd (V s + V x) - (V s + V x)) + (V s - S)) by ring.
      eapply Rle_trans; [apply Rabs_triang|]. pose proof (rnd_plus_error _ _ (V_float s) (V_float x)) as Q.
      assert (T : Rabs (V s + V x) <= g k * B + (B + Rabs (V x))).
      { replace (V s + V x) with ((V s - S) + (S + V x)) by ring. eapply Rle_trans; [apply Rabs_triang|]. lra. }
      assert (u * Rabs (V s + V x) <= u * (g k * B + (B + Rabs (V x)))) by (apply Rmult_le_compat_l; lra).
      assert (0 <= g k * Rabs (V x)) by (apply Rmult_le_pos; lra). assert (0 <= u * (g k * Rabs (V x))) by (apply Rmult_le_pos; lra). lra.
    + exact S1.
    + exact K.
    + lra.
    + split; [exact I1|]. replace (S + (V x + Vsum l)) with (S + V x + Vsum l) by ring. replace (B + (Rabs (V x) + Vabs l)) with (B + Rabs (V x) + Vabs l) by ring. exact I2.
Qed.

Lemma len_u : forall n, (Z.of_nat n <= 2 ^ 52)%Z -> INR n * u <= / 2.
Proof.
  intros n H. rewrite INR_IZR_INZ. replace (/ 2) with (IZR (2 ^ 52) * u).
  - apply Rmult_le_compat_r; [apply Rlt_le, u_ge|]. apply IZR_le. exact H.
  - rewrite IZR_pow2 by lia. unfold u. rewrite <- bpow_plus. reflexivity.
Qed.

Lemma fsum_error : forall l, Forall fin l -> (Z.of_nat (List.length l) <= 2 ^ 52)%Z -> Vabs l <= bpow radix2 1022 ->
  fin (fsum l) /\ Rabs (V (fsum l) - Vsum l) <= g (Nat.pred (List.length l)) * Vabs l.
Proof.
  intros [|x l] F N O.
  - destruct (fint_ok 0) as [A B]; [lia|]. split; [exact A|]. cbn [fsum]. rewrite B. unfold Vsum, Vabs. cbn. rewrite Rminus_0_r, Rabs_R0. lra.
  - inversion F as [|? ? Fx Fl]; subst. cbn [fsum List.length Nat.pred]. unfold Vabs, Vsum in *. cbn [map fold_right] in *. fold (Vabs l) in *. fold (Vsum l) in *.
    replace (List.length l) with (0 + List.length l)%nat by reflexivity. apply fold_error; auto.
    + unfold g. cbn. rewrite (Rminus_diag_eq (V x)), Rabs_R0 by reflexivity. pose proof (Rabs_pos (V x)). lra.
    + lra.
    + apply len_u. cbn [List.length] in N. lia.
    + change (bpow radix2 1023) with (bpow radix2 (1 + 1022)). rewrite bpow_plus. change (bpow radix2 1) with 2. lra.
Qed.

(** ** Means *)
Definition size (l : list f64) : R := INR (List.length l).
Lemma size_pos : forall l, l <> [] -> 1 <= size l.
Proof. intros [|x l] H; [contradiction|]. unfold size. cbn [List.length]. rewrite S_INR. pose proof (pos_INR (List.length l)). lra. Qed.
Lemma size_float : forall l, (Z.of_nat (List.length l) <= 2 ^ 52)%Z -> fin (fint (Z.of_nat (List.length l))) /\ V (fint (Z.of_nat (List.length l))) = size l.
Proof. intros l H. destruct (fint_ok (Z.of_nat (List.length l))) as [A B]; [lia|]. split; [exact A|]. rewrite B. unfold size. symmetry. apply INR_IZR_INZ. Qed.

Lemma fmean_error_g : forall l, l <> [] -> Forall fin l -> (Z.of_nat (List.length l) <= 2 ^ 52)%Z -> Vabs l <= bpow radix2 1022 ->
  fin (fmean l) /\ Rabs (V (fmean l) - Vsum l / size l) <= g (List.length l) * (Vabs l / size l) + tiny.
Proof.
  intros l NE F N O. destruct (fsum_error l F N O) as [FS E]. destruct (size_float l N) as [FN VN]. pose proof (size_pos l NE) as P.
  pose proof (Vabs_pos l) as A0. pose proof (Vsum_abs l) as SA. pose proof u_ge as U.
  set (k := Nat.pred (List.length l)) in *. assert (EL : List.length l = S k) by (destruct l; [contradiction|reflexivity]).
  assert (K : INR k * u <= / 2). { eapply Rle_trans; [|apply (len_u _ N)]. apply Rmult_le_compat_r; [lra|]. apply le_INR. lia. }
  pose proof (g_one k K) as G1. pose proof (g_pos k) as G0.
  assert (SB : Rabs (V (fsum l)) <= 2 * Vabs l).
  { replace (V (fsum l)) with (V (fsum l) - Vsum l + Vsum l) by ring. eapply Rle_trans; [apply Rabs_triang|]. nra. }
  assert (IP : 0 < / size l <= 1). { split; [apply Rinv_0_lt_compat; lra|]. rewrite <- Rinv_1. apply Rinv_le_contravar; lra. }
  assert (D : Rabs (V (fsum l) / size l) <= 2 * Vabs l).
  { unfold Rdiv. rewrite Rabs_mult, (Rabs_pos_eq (/ size l)) by lra. nra. }
  destruct (fdiv_ok (fsum l) (fint (Z.of_nat (List.length l))) FS) as [R1 R2].
  - rewrite VN. lra.
  - rewrite VN. eapply Rle_trans; [exact D|]. change (bpow radix2 1023) with (bpow radix2 (1 + 1022)). rewrite bpow_plus. change (bpow radix2 1) with 2. lra.
  - split; [exact R1|]. unfold fmean. rewrite R2, VN. clear R1 R2 VN FN.
    set (q := V (fsum l) / size l) in *. set (a := Vabs l / size l). set (m := Vsum l / size l).
    assert (QM : Rabs (q - m) <= g k * a).
    { unfold q, m, a, Rdiv. rewrite <- Rmult_minus_distr_r, Rabs_mult, (Rabs_pos_eq (/ size l)), <- Rmult_assoc by lra. apply Rmult_le_compat_r; lra. }
    assert (MA : Rabs m <= a). { unfold m, a, Rdiv. rewrite Rabs_mult, (Rabs_pos_eq (/ size l)) by lra. apply Rmult_le_compat_r; lra. }
    pose proof (rnd_error q) as RE.
    assert (QA : Rabs q <= g k * a + a). { replace q with (q - m + m) by ring. eapply Rle_trans; [apply Rabs_triang|]. lra. }
    rewrite EL, g_S. replace (rnd q - m) with (rnd q - q + (q - m)) by ring. eapply Rle_trans; [apply Rabs_triang|].
    assert (u * Rabs q <= u * (g k * a + a)) by (apply Rmult_le_compat_l; lra). lra.
Qed.

(** ** Variances *)
Definition Vsq (l : list f64) : R := fold_right Rplus 0 (map (fun x => V x * V x) l).
Lemma Vsq_pos : forall l, 0 <= Vsq l.
Proof. induction l as [|x l IH]; unfold Vsq in *; cbn; [lra|]. pose proof (Rle_0_sqr (V x)) as H. unfold Rsqr in H. lra. Qed.
Lemma abs_le_sq : forall l, 2 * Vabs l <= size l + Vsq l.
Proof.
  induction l as [|x l IH]; unfold Vabs, Vsq, size in *; cbn [map fold_right List.length]; [cbn; lra|]. rewrite S_INR.
  assert (2 * Rabs (V x) <= 1 + V x * V x); [|lra].
  assert (E : V x * V x = Rabs (V x) * Rabs (V x)) by (rewrite <- Rabs_mult, Rabs_pos_eq; [reflexivity|apply Rle_0_sqr]).
  pose proof (Rle_0_sqr (Rabs (V x) - 1)) as H. unfold Rsqr in H. lra.
Qed.
(** The square of a sum of absolute values. *)
Lemma abs_sq : forall l, Vabs l * Vabs l <= size l * Vsq l.
Proof.
  induction l as [|x l IH]; [unfold Vabs, Vsq, size; cbn; lra|].
  unfold Vabs, Vsq, size in *; cbn [map fold_right List.length]. fold (Vabs l) in *. fold (Vsq l) in *. fold (size l) in *. rewrite S_INR. fold (size l).
  assert (E : V x * V x = Rabs (V x) * Rabs (V x)) by (rewrite <- Rabs_mult, Rabs_pos_eq; [reflexivity|apply Rle_0_sqr]).
  rewrite E. set (a := Rabs (V x)) in *. set (A := Vabs l) in *. set (B := Vsq l) in *. set (n := size l) in *.
  assert (N : 0 <= n) by apply pos_INR. assert (Bp : 0 <= B) by apply Vsq_pos.
  assert (2 * a * A <= B + n * (a * a)); [|lra].
  destruct (Req_dec n 0) as [Z|Z].
  - assert (A = 0). { rewrite Z in IH. pose proof (Rle_0_sqr A) as S. unfold Rsqr in S. assert (E0 : A * A = 0) by lra. apply Rmult_integral in E0. destruct E0; assumption. }
    rewrite H, Z. lra.
  - assert (Q : 2 * a * A <= A * A / n + n * (a * a)).
    { apply Rmult_le_reg_l with n; [lra|]. replace (n * (A * A / n + n * (a * a))) with (A * A + n * a * (n * a)) by (field; lra).
      pose proof (Rle_0_sqr (A - n * a)) as H. unfold Rsqr in H. lra. }
    assert (A * A / n <= B). { apply Rmult_le_reg_l with n; [lra|]. replace (n * (A * A / n)) with (A * A) by (field; lra). exact IH. }
    lra.
Qed.

Lemma tiny_facts : tiny * tiny <= tiny / 8 /\ tiny * tiny <= u * tiny / 8 /\ tiny <= u.
Proof.
  assert (A : bpow radix2 (-3) = / 8) by reflexivity. unfold tiny, u. split; [|split].
  - unfold Rdiv. rewrite <- A, <- !bpow_plus. apply bpow_le. lia.
  - unfold Rdiv. rewrite <- A, <- !bpow_plus. apply bpow_le. lia.
  - apply bpow_le. lia.
Qed.
Lemma u_le : u <= / 8.
Proof. change (/ 8) with (bpow radix2 (-3)). apply bpow_le. lia. Qed.

Definition sqs (l : list f64) : list f64 := map (fun x => fmul x x) l.
Lemma squares : forall l, Forall fin l -> Vsq l <= bpow radix2 1020 ->
  Forall fin (sqs l) /\ Vabs (sqs l) = Vsum (sqs l) /\ Rabs (Vsum (sqs l) - Vsq l) <= u * Vsq l + size l * tiny.
Proof.
  intros l F. induction F as [|x l Fx F IH]; intro B.
  - split; [constructor|]. split; [reflexivity|]. unfold Vsum, Vsq, size. cbn. rewrite Rminus_0_r, Rabs_R0. lra.
  - unfold Vsq in B. cbn [map fold_right] in B. fold (Vsq l) in B. pose proof (Vsq_pos l) as P. pose proof (Rle_0_sqr (V x)) as X. unfold Rsqr in X.
    destruct IH as (I1 & I2 & I3); [lra|]. destruct (fmul_ok x x Fx Fx) as [A1 A2].
    { rewrite Rabs_pos_eq by exact X. apply Rle_trans with (bpow radix2 1020); [lra|apply bpow_le; lia]. }
    unfold sqs. cbn [map]. split; [constructor; assumption|]. unfold Vabs, Vsum, Vsq, size in *. cbn [map fold_right List.length]. rewrite A2.
    fold (sqs l). split; [rewrite I2, Rabs_pos_eq by (apply rnd_nonneg; exact X); reflexivity|].
    rewrite S_INR. pose proof (rnd_error (V x * V x)) as R. rewrite (Rabs_pos_eq (V x * V x)) in R by exact X.
    match goal with |- Rabs (?a + ?b - (?c + ?d)) <= _ => replace (a + b - (c + d)) with ((a - c) + (b - d)) by ring end.
    eapply Rle_trans; [apply Rabs_triang|]. lra.
Qed.

Lemma pow2_split : forall a b, bpow radix2 (a + b) = bpow radix2 a * bpow radix2 b.
Proof. intros. apply bpow_plus. Qed.

Lemma variance_error : forall l, l <> [] -> Forall fin l -> (Z.of_nat (List.length l) <= 2 ^ 52)%Z -> Vsq l <= bpow radix2 1020 ->
  fin (variance64 l) /\
  Rabs (V (variance64 l) - (Vsq l / size l - (Vsum l / size l) * (Vsum l / size l))) <= (8 * size l + 14) * u * (Vsq l / size l) + 8 * tiny.
Proof.
  intros l NE F N B. pose proof (size_pos l NE) as P. pose proof u_ge as U0. pose proof u_le as U1. pose proof tiny_gt as T0.
  destruct tiny_facts as (T1 & T2 & T3). pose proof (Vsq_pos l) as X0.
  assert (SN : size l * u <= / 2) by (apply len_u; exact N).
  assert (NB : size l <= bpow radix2 52).
  { unfold size. rewrite INR_IZR_INZ, <- IZR_pow2 by lia. apply IZR_le. exact N. }
  assert (PW : bpow radix2 52 <= bpow radix2 1020) by (apply bpow_le; lia).
  assert (P22 : bpow radix2 1022 = 4 * bpow radix2 1020) by (change 1022%Z with (2 + 1020)%Z; rewrite bpow_plus; reflexivity).
  assert (P23 : bpow radix2 1023 = 8 * bpow radix2 1020) by (change 1023%Z with (3 + 1020)%Z; rewrite bpow_plus; reflexivity).
  assert (P1 : 8 <= bpow radix2 1020) by (change 8 with (bpow radix2 3); apply bpow_le; lia).
  destruct (squares l F B) as (Q1 & Q2 & Q3).
  pose proof (g_bound _ (len_u _ N)) as G2. pose proof (g_one _ (len_u _ N)) as G1. pose proof (g_pos (List.length l)) as G0.
  fold (size l) in G2. set (gn := g (List.length l)) in *.
  assert (T4 : tiny <= / 8) by lra.
  assert (NT : size l * tiny <= 1) by (apply Rle_trans with (size l * u); [apply Rmult_le_compat_l; lra|lra]).
  assert (QB : Vsum (sqs l) <= 2 * bpow radix2 1020).
  { apply Rabs_le_inv in Q3. assert (u * Vsq l <= / 8 * Vsq l) by (apply Rmult_le_compat_r; lra). lra. }
  assert (LE : List.length (sqs l) = List.length l) by apply map_length.
  assert (SE : size (sqs l) = size l) by (unfold size; rewrite LE; reflexivity).
  destruct (fmean_error_g (sqs l)) as [A1 A2].
  { destruct l; [contradiction|discriminate]. } { exact Q1. } { rewrite LE. exact N. } { rewrite Q2. lra. }
  destruct (fmean_error_g l NE F N) as [M1 M2].
  { pose proof (abs_le_sq l). lra. }
  rewrite LE, SE, Q2 in A2. fold gn in A2, M2.
  set (n := size l) in *. set (M := Vsq l / n). set (A := Vabs l / n) in *. set (mu := Vsum l / n) in *. set (a := fmean (sqs l)) in *. set (m := fmean l) in *.
  assert (IN : 0 < / n <= 1). { split; [apply Rinv_0_lt_compat; lra|]. rewrite <- Rinv_1. apply Rinv_le_contravar; lra. }
  assert (MP : 0 <= M) by (unfold M, Rdiv; apply Rmult_le_pos; lra).
  assert (MB : M <= bpow radix2 1020) by (unfold M, Rdiv; nra).
  assert (AP : 0 <= A) by (unfold A, Rdiv; apply Rmult_le_pos; [apply Vabs_pos|lra]).
  assert (AM : A * A <= M).
  { unfold A, M. apply Rmult_le_reg_l with (n * n); [nra|]. replace (n * n * (Vabs l / n * (Vabs l / n))) with (Vabs l * Vabs l) by (field; lra).
    replace (n * n * (Vsq l / n)) with (n * Vsq l) by (field; lra). apply abs_sq. }
  assert (MU : Rabs mu <= A). { unfold mu, A, Rdiv. rewrite Rabs_mult, (Rabs_pos_eq (/ n)) by lra. apply Rmult_le_compat_r; [lra|apply Vsum_abs]. }
  (* the mean of squares *)
  assert (QM : Rabs (Vsum (sqs l) / n - M) <= u * M + tiny).
  { unfold M, Rdiv. rewrite <- Rmult_minus_distr_r, Rabs_mult, (Rabs_pos_eq (/ n)) by lra.
    replace (u * (Vsq l * / n) + tiny) with ((u * Vsq l + n * tiny) * / n) by (field; lra). apply Rmult_le_compat_r; lra. }
  set (Q := Vsum (sqs l) / n) in *.
  assert (uM : u * M <= / 8 * M) by (apply Rmult_le_compat_r; lra).
  assert (EA : Rabs (V a - M) <= (gn + 2 * u) * M + 3 * tiny).
  { replace (V a - M) with ((V a - Q) + (Q - M)) by ring. eapply Rle_trans; [apply Rabs_triang|].
    assert (Q <= M + (u * M + tiny)) by (apply Rabs_le_inv in QM; lra).
    assert (gn * Q <= gn * (M + (u * M + tiny))) by (apply Rmult_le_compat_l; lra).
    assert (gn * (u * M) <= 1 * (u * M)) by (apply Rmult_le_compat_r; [apply Rmult_le_pos; lra|lra]).
    assert (gn * tiny <= 1 * tiny) by (apply Rmult_le_compat_r; lra). lra. }
  (* the square of the mean *)
  assert (gA : gn * A <= A) by (assert (gn * A <= 1 * A) by (apply Rmult_le_compat_r; lra); lra).
  assert (AT : 4 * (A * tiny) <= u * (A * A) + tiny / 2).
  { assert (S : 0 <= u * A * (u * A) - 4 * (u * A * tiny) + 4 * (tiny * tiny)) by (pose proof (Rle_0_sqr (u * A - 2 * tiny)) as H; unfold Rsqr in H; lra).
    apply Rmult_le_reg_l with u; [lra|]. lra. }
  assert (DM : Rabs (V m * V m - mu * mu) <= (3 * gn + u) * (A * A) + tiny).
  { replace (V m * V m - mu * mu) with ((V m - mu) * ((V m - mu) + 2 * mu)) by ring. rewrite Rabs_mult.
    assert (R2 : Rabs (V m - mu + 2 * mu) <= 3 * A + tiny).
    { eapply Rle_trans; [apply Rabs_triang|]. rewrite (Rabs_mult 2), (Rabs_pos_eq 2) by lra. lra. }
    eapply Rle_trans; [apply Rmult_le_compat; [apply Rabs_pos|apply Rabs_pos|exact M2|exact R2]|].
    assert (gn * A * tiny <= A * tiny) by (apply Rmult_le_compat_r; lra).
    replace ((gn * A + tiny) * (3 * A + tiny)) with (3 * gn * (A * A) + gn * A * tiny + 3 * (A * tiny) + tiny * tiny) by ring. lra. }
  assert (MM : Rabs (mu * mu) <= A * A) by (rewrite Rabs_mult; apply Rmult_le_compat; try apply Rabs_pos; exact MU).
  assert (gAA : gn * (A * A) <= A * A) by (assert (gn * (A * A) <= 1 * (A * A)) by (apply Rmult_le_compat_r; [apply Rmult_le_pos; lra|lra]); lra).
  assert (uAA : u * (A * A) <= / 8 * (A * A)) by (apply Rmult_le_compat_r; [apply Rmult_le_pos; lra|lra]).
  assert (AA0 : 0 <= A * A) by (apply Rmult_le_pos; lra).
  assert (VM : Rabs (V m * V m) <= 5 * (A * A) + tiny).
  { replace (V m * V m) with ((V m * V m - mu * mu) + mu * mu) by ring. eapply Rle_trans; [apply Rabs_triang|]. lra. }
  destruct (fmul_ok m m M1 M1) as [B1 B2]; [lra|]. set (b := fmul m m) in *.
  assert (ut : u * tiny <= tiny) by (assert (u * tiny <= 1 * tiny) by (apply Rmult_le_compat_r; lra); lra).
  assert (EB : Rabs (V b - mu * mu) <= (3 * gn + 6 * u) * (A * A) + 3 * tiny).
  { rewrite B2. replace (rnd (V m * V m) - mu * mu) with ((rnd (V m * V m) - V m * V m) + (V m * V m - mu * mu)) by ring.
    eapply Rle_trans; [apply Rabs_triang|]. pose proof (rnd_error (V m * V m)) as R.
    assert (u * Rabs (V m * V m) <= u * (5 * (A * A) + tiny)) by (apply Rmult_le_compat_l; lra). lra. }
  assert (EB' : Rabs (V b - mu * mu) <= (3 * gn + 6 * u) * M + 3 * tiny).
  { eapply Rle_trans; [exact EB|]. apply Rplus_le_compat_r. apply Rmult_le_compat_l; lra. }
  (* the difference *)
  assert (gM : gn * M <= M) by (assert (gn * M <= 1 * M) by (apply Rmult_le_compat_r; lra); lra).
  assert (E1 : Rabs (V a - V b - (M - mu * mu)) <= (4 * gn + 8 * u) * M + 6 * tiny).
  { replace (V a - V b - (M - mu * mu)) with ((V a - M) + - (V b - mu * mu)) by ring. eapply Rle_trans; [apply Rabs_triang|]. rewrite Rabs_Ropp. lra. }
  assert (DV : Rabs (V a - V b) <= 6 * M + 6 * tiny).
  { replace (V a - V b) with ((V a - V b - (M - mu * mu)) + (M - mu * mu)) by ring. eapply Rle_trans; [apply Rabs_triang|].
    assert (Rabs (M - mu * mu) <= M).
    { rewrite Rabs_pos_eq; [|apply Rabs_le_inv in MM; lra]. pose proof (Rle_0_sqr mu) as H. unfold Rsqr in H. lra. }
    lra. }
  destruct (fsub_ok a b A1 B1) as [C1 C2]; [lra|].
  assert (EV : variance64 l = fsub a b) by (unfold variance64, a, b, m, sqs, fmean; rewrite map_length; reflexivity).
  rewrite EV. split; [exact C1|]. rewrite C2.
  replace (rnd (V a - V b) - (M - mu * mu)) with ((rnd (V a - V b) - (V a - V b)) + (V a - V b - (M - mu * mu))) by ring.
  eapply Rle_trans; [apply Rabs_triang|]. pose proof (rnd_error (V a - V b)) as R.
  assert (u * Rabs (V a - V b) <= u * (6 * M + 6 * tiny)) by (apply Rmult_le_compat_l; lra).
  assert (u * tiny <= / 8 * tiny) by (apply Rmult_le_compat_r; lra).
  assert (gn * M <= 2 * n * u * M) by (apply Rmult_le_compat_r; lra). lra.
Qed.

Lemma float_double : forall x, isfloat x -> isfloat (2 * x).
Proof.
  intros x H. apply FLT_format_generic in H; auto with typeclass_instances. destruct H as [f F1 F2 F3].
  apply generic_format_FLT. exists (Float radix2 (Fnum f) (Fexp f + 1)); cbn [Fnum Fexp]; [|exact F2|lia].
  rewrite F1. unfold F2R. cbn [Fnum Fexp]. rewrite bpow_plus. change (bpow radix2 1) with 2. ring.
Qed.
