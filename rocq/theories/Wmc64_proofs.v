(** Lemmas about weighted averages and total distances on binary64. *)
From Coq Require Import Reals ZArith List Bool Lia Lra Psatz Permutation Arith.
From Flocq Require Import Core BinarySingleNaN.
From Verif Require Import Base Float_model Float_proofs F64_model F64_proofs F64_props Hex64_proofs K64_model K64_spec K64_proofs Area64_model Area64_spec Area64_proofs Wmc64_model Wmc64_spec.
Import ListNotations.
Local Open Scope R_scope.

(** The number of additions, in units of the precision. *)
Lemma few : forall m, (Z.of_nat m <= 2 ^ 50)%Z -> INR m * u <= / 8 /\ INR m <= bpow radix2 50.
Proof.
  intros m N. assert (M50 : INR m <= bpow radix2 50). { rewrite <- IZR_pow2, INR_IZR_INZ by lia. apply IZR_le. exact N. }
  assert (UE : u * bpow radix2 50 = / 8) by (unfold u; rewrite <- bpow_plus; cbn; lra). pose proof u_ge. split; [nra|exact M50].
Qed.
Lemma g_few : forall m, INR m * u <= / 8 -> 0 <= g (m - 1) <= 2 * (INR m * u).
Proof.
  intros m MU. split; [apply g_pos|]. pose proof u_ge as U.
  assert (MU1 : INR (m - 1) * u <= INR m * u) by (apply Rmult_le_compat_r; [lra|apply le_INR; lia]). eapply Rle_trans; [apply g_bound; lra|]. lra.
Qed.
Lemma one64 : forall x, fin x -> Rabs (V x) <= bpow radix2 1023 -> fin (fmul x (fint 1)) /\ V (fmul x (fint 1)) = V x.
Proof.
  intros x F B. destruct (fint_ok 1) as [F1 V1]; [lia|]. destruct (fmul_ok x (fint 1) F F1) as [A E]; [rewrite V1, Rmult_1_r; exact B|].
  split; [exact A|]. rewrite E, V1, Rmult_1_r. apply rnd_id, V_float.
Qed.
Lemma nonneg_abs : forall w, Forall (fun x => fin x /\ 0 <= V x) w -> Vabs w = Vsum w /\ Forall fin w /\ Forall (fun x => V x <= Vsum w) w.
Proof.
  induction w as [|x w IH]; intro F; [split; [reflexivity|split; constructor]|]. inversion F as [|? ? [Fx Px] Fw]; subst. destruct (IH Fw) as (A & B & C).
  unfold Vabs, Vsum in *. cbn [map fold_right]. rewrite A, Rabs_pos_eq by exact Px. split; [reflexivity|]. split; [constructor; assumption|].
  assert (P : 0 <= fold_right Rplus 0 (map V w)). { clear - Fw. induction Fw as [|y w [_ Py] Fw IH]; cbn; [lra|]. lra. }
  constructor; [lra|]. eapply Forall_impl; [|exact C]. cbn. intros y Y. lra.
Qed.
(** The computed sum of the weights. *)
Lemma weights_ok : forall w t, good_weights w -> Adds t w -> (Z.of_nat (length (leaves t)) <= 2 ^ 50)%Z ->
  fin (tsum t) /\ Rabs (V (tsum t) - Vsum w) <= 2 * (INR (length (leaves t)) * u) * Vsum w.
Proof.
  intros w t [F [L H]] AD N. destruct (nonneg_abs w F) as (A & B & _). destruct (adds_ok t w AD B) as (C1 & C2 & C3 & _).
  change (total (map V w)) with (Vsum w) in *. destruct (few _ N) as [MU _]. pose proof (bpow_gt_0 radix2 (-900)) as P.
  assert (B9 : 2 * bpow radix2 900 <= bpow radix2 1023) by (change 2 with (bpow radix2 1); rewrite <- bpow_plus; apply bpow_le; lia).
  destruct (tsum_error t C1 ltac:(lra) ltac:(lra)) as [S1 S2]. rewrite C2, C3, A in S2. split; [exact S1|].
  destruct (g_few _ MU) as [G0 G1]. eapply Rle_trans; [exact S2|]. apply Rmult_le_compat_r; lra.
Qed.
(** One share, for a sum within 1/4 of the exact one. *)
Lemma share_ok : forall s x W e, fin s -> fin x -> 0 <= V x <= W -> 0 < W -> W <= bpow radix2 900 -> 0 <= e <= / 4 -> Rabs (V s - W) <= e * W ->
  fin (share64 s x) /\ Rabs (V (share64 s x) - V x / W) <= (3 / 2 * e + 2 * u) * (V x / W) + tiny /\ 0 <= V (share64 s x).
Proof.
  intros s x W e Fs Fx X W0 WB E S. apply Rabs_le_inv in S. assert (BB : bpow radix2 900 <= bpow radix2 1023) by (apply bpow_le; lia).
  destruct (one64 x Fx) as [F1 V1]; [rewrite Rabs_pos_eq by lra; lra|]. set (a := V x / W).
  assert (IW : 0 < / W) by (apply Rinv_0_lt_compat; exact W0).
  assert (XA : V x = a * W) by (unfold a; field; lra). assert (A0 : 0 <= a) by (unfold a, Rdiv; apply Rmult_le_pos; lra).
  assert (A1 : a <= 1). { apply Rmult_le_reg_r with W; [exact W0|]. rewrite <- XA. lra. }
  assert (S0 : 3 / 4 * W <= V s) by nra. assert (SP : 0 < V s) by lra. set (q := V x / V s).
  assert (XQ : V x = q * V s) by (unfold q; field; lra). assert (Q0 : 0 <= q). { unfold q, Rdiv. apply Rmult_le_pos; [lra|]. apply Rlt_le, Rinv_0_lt_compat; exact SP. }
  assert (QA : q <= 4 / 3 * a). { apply Rmult_le_reg_r with (3 / 4 * W); [lra|]. nra. }
  assert (DQ : Rabs (q - a) <= 3 / 2 * e * a).
  { assert (ED : (q - a) * W = q * (W - V s)) by (rewrite Rmult_minus_distr_r, <- XA, XQ; ring). apply Rabs_le.
    assert (QE : 0 <= q * (e * W) <= 4 / 3 * a * (e * W)). { assert (0 <= e * W) by (apply Rmult_le_pos; lra). split; [apply Rmult_le_pos; lra|apply Rmult_le_compat_r; lra]. }
    assert (H1 : - (q * (e * W)) <= (q - a) * W <= q * (e * W)) by (rewrite ED; split; nra).
    assert (AE : 0 <= a * e) by (apply Rmult_le_pos; lra).
    split; apply Rmult_le_reg_r with W; try exact W0; nra. }
  assert (Q2 : Rabs (V (fmul x (fint 1)) / V s) <= bpow radix2 1023).
  { rewrite V1. fold q. rewrite Rabs_pos_eq by exact Q0. apply Rle_trans with 2; [lra|]. change 2 with (bpow radix2 1). apply bpow_le. lia. }
  destruct (fdiv_ok (fmul x (fint 1)) s F1 ltac:(lra) Q2) as [D1 D2]. rewrite V1 in D2. fold q in D2. split; [exact D1|]. unfold share64. rewrite D2. split; [|apply rnd_nonneg; exact Q0].
  pose proof (rnd_error q) as RE. rewrite (Rabs_pos_eq q) in RE by exact Q0. pose proof u_ge as U.
  replace (rnd q - a) with ((rnd q - q) + (q - a)) by ring. eapply Rle_trans; [apply Rabs_triang|].
  assert (u * q <= u * (4 / 3 * a)) by (apply Rmult_le_compat_l; lra). assert (0 <= u * a) by (apply Rmult_le_pos; lra). lra.
Qed.
(** One product. *)
Lemma part_ok : forall s w x W k, fin s -> fin w -> fin x -> 0 <= V w <= W -> 0 < W -> W <= bpow radix2 900 -> 0 <= k <= / 8 -> Rabs (V s - W) <= 2 * k * W -> Rabs (V x) <= bpow radix2 1000 ->
  let a := V w / W in
  fin (fmul (share64 s w) x) /\ Rabs (V (fmul (share64 s w) x) - a * V x) <= (3 * k + 4 * u) * (a * Rabs (V x)) + tiny * (2 * Rabs (V x) + 1).
Proof.
  intros s w x W k Fs Fw Fx X W0 WB K S B a. destruct (share_ok s w W (2 * k) Fs Fw X W0 WB ltac:(lra) S) as (Q1 & Q2 & Q3). fold a in Q2.
  set (q := V (share64 s w)) in *. pose proof u_ge as U. pose proof tiny_gt as T. pose proof tiny_small as T1. assert (US : u <= / 100) by (rewrite u_small; lra).
  assert (A0 : 0 <= a). { unfold a, Rdiv. apply Rmult_le_pos; [lra|]. apply Rlt_le, Rinv_0_lt_compat; exact W0. }
  assert (A1 : a <= 1). { unfold a. apply Rmult_le_reg_r with W; [exact W0|]. replace (V w / W * W) with (V w) by (field; lra). lra. }
  pose proof Q2 as Q2'. apply Rabs_le_inv in Q2'. assert (KA : (3 / 2 * (2 * k) + 2 * u) * a <= / 2 * a) by (apply Rmult_le_compat_r; lra).
  assert (QU : q <= 3 / 2 * a + tiny) by lra. set (r := Rabs (V x)) in *. assert (R0 : 0 <= r) by apply Rabs_pos.
  assert (QX : Rabs (q * V x) = q * r) by (rewrite Rabs_mult, Rabs_pos_eq by exact Q3; reflexivity).
  assert (B3 : 4 * bpow radix2 1000 <= bpow radix2 1023) by (change 4 with (bpow radix2 2); rewrite <- bpow_plus; apply bpow_le; lia).
  destruct (fmul_ok (share64 s w) x Q1 Fx) as [M1 M2]; [fold q; rewrite QX; nra|]. split; [exact M1|]. rewrite M2. fold q.
  pose proof (rnd_error (q * V x)) as RE. rewrite QX in RE.
  replace (rnd (q * V x) - a * V x) with ((rnd (q * V x) - q * V x) + (q - a) * V x) by ring. eapply Rle_trans; [apply Rabs_triang|]. rewrite Rabs_mult. fold r.
  assert (E1 : Rabs (q - a) * r <= ((3 / 2 * (2 * k) + 2 * u) * a + tiny) * r) by (apply Rmult_le_compat_r; lra).
  assert (E2 : q * r <= (3 / 2 * a + tiny) * r) by (apply Rmult_le_compat_r; lra).
  assert (E3 : u * (q * r) <= u * ((3 / 2 * a + tiny) * r)) by (apply Rmult_le_compat_l; lra).
  assert (AR : 0 <= a * r) by (apply Rmult_le_pos; lra). assert (UAR : 0 <= u * (a * r)) by (apply Rmult_le_pos; lra). assert (TR : 0 <= tiny * r) by (apply Rmult_le_pos; lra).
  assert (UTR : u * (tiny * r) <= 1 * (tiny * r)) by (apply Rmult_le_compat_r; lra). nra.
Qed.

(** ** All products *)
Definition wsum (W : R) (l : list (f64 * f64)) : R := total (map (fun p => V (fst p) / W * V (snd p)) l).
Definition wabs (W : R) (l : list (f64 * f64)) : R := total (map (fun p => V (fst p) / W * Rabs (V (snd p))) l).
Definition wroom (l : list (f64 * f64)) : R := total (map (fun p => 2 * Rabs (V (snd p)) + 1) l).
Lemma parts_ok : forall s W k l, fin s -> 0 < W -> W <= bpow radix2 900 -> 0 <= k <= / 8 -> Rabs (V s - W) <= 2 * k * W ->
  Forall (fun p => (fin (fst p) /\ 0 <= V (fst p) <= W) /\ fin (snd p) /\ Rabs (V (snd p)) <= bpow radix2 1000) l ->
  let c := map (fun p => fmul (share64 s (fst p)) (snd p)) l in
  Forall fin c /\ Rabs (Vsum c - wsum W l) <= (3 * k + 4 * u) * wabs W l + tiny * wroom l /\ Vabs c <= 3 / 2 * wabs W l + tiny * wroom l /\ 0 <= wabs W l /\ 0 <= wroom l /\ Rabs (wsum W l) <= wabs W l.
Proof.
  intros s W k l Fs W0 WB K S. induction l as [|[w x] l IH]; intros F; cbv zeta.
  - unfold Vsum, Vabs, wsum, wabs, wroom, total. cbn. rewrite Rminus_0_r, Rabs_R0. split; [constructor|]. lra.
  - inversion F as [|? ? [[Fw Pw] [Fx Bx]] Fl]; subst. cbn [fst snd] in *. destruct (IH Fl) as (I1 & I2 & I3 & I4 & I5 & I6).
    destruct (part_ok s w x W k Fs Fw Fx Pw W0 WB K S Bx) as [P1 P2].
    unfold wsum, wabs, wroom, Vsum, Vabs, total in *. cbn [map fold_right fst snd].
    set (c := map (fun p => fmul (share64 s (fst p)) (snd p)) l) in *.
    set (sc := fold_right Rplus 0 (map V c)) in *. set (ac := fold_right Rplus 0 (map (fun x => Rabs (V x)) c)) in *.
    set (S1 := fold_right Rplus 0 (map (fun p => V (fst p) / W * V (snd p)) l)) in *. set (A1 := fold_right Rplus 0 (map (fun p => V (fst p) / W * Rabs (V (snd p))) l)) in *.
    set (R1 := fold_right Rplus 0 (map (fun p => 2 * Rabs (V (snd p)) + 1) l)) in *. set (a := V w / W) in *. set (v := V (fmul (share64 s w) x)) in *.
    assert (A0 : 0 <= a). { unfold a, Rdiv. apply Rmult_le_pos; [lra|]. apply Rlt_le, Rinv_0_lt_compat; exact W0. }
    pose proof (Rabs_pos (V x)) as X0. assert (AX : 0 <= a * Rabs (V x)) by (apply Rmult_le_pos; lra).
    assert (AXE : Rabs (a * V x) = a * Rabs (V x)) by (rewrite Rabs_mult, Rabs_pos_eq by exact A0; reflexivity).
    pose proof u_ge as U. assert (US : u <= / 100) by (rewrite u_small; lra).
    assert (VU : Rabs v <= 3 / 2 * (a * Rabs (V x)) + tiny * (2 * Rabs (V x) + 1)).
    { replace v with ((v - a * V x) + a * V x) by ring. eapply Rle_trans; [apply Rabs_triang|]. rewrite AXE.
      assert ((3 * k + 4 * u) * (a * Rabs (V x)) <= / 2 * (a * Rabs (V x))) by (apply Rmult_le_compat_r; lra). lra. }
    split; [constructor; assumption|]. split.
    { replace (v + sc - (a * V x + S1)) with ((v - a * V x) + (sc - S1)) by ring. eapply Rle_trans; [apply Rabs_triang|]. lra. }
    split; [lra|]. split; [lra|]. split; [lra|]. eapply Rle_trans; [apply Rabs_triang|]. lra.
Qed.
Lemma total_div : forall (A : Type) (f : A -> R) W l, total (map (fun p => f p / W) l) = total (map f l) / W.
Proof. intros A f W l. unfold total. induction l as [|x l IH]; cbn; [unfold Rdiv; ring|]. rewrite IH. unfold Rdiv. ring. Qed.
Lemma room_combine : forall w x, length w = length x -> wroom (combine w x) = room x.
Proof. induction w as [|a w IH]; intros [|b x] L; cbn in L; try discriminate; [reflexivity|]. unfold wroom, room, total in *. cbn. rewrite IH by lia. reflexivity. Qed.
Lemma average_ok : forall w x, average w x = wsum (Vsum w) (combine w x) /\ magnitude w x = wabs (Vsum w) (combine w x).
Proof.
  intros w x. unfold average, magnitude, wsum, wabs. change (total (map V w)) with (Vsum w). rewrite <- !total_div. split; f_equal; apply map_ext; intros [a b]; cbn [fst snd]; unfold Rdiv; ring.
Qed.
(** The average of numbers between two bounds. *)
Lemma average_between : forall w x lo hi, Forall (fun v => 0 <= V v) w -> 0 < Vsum w -> length w = length x -> Forall (fun v => lo <= V v <= hi) x -> lo <= average w x <= hi.
Proof.
  intros w x lo hi P W L B. assert (G : lo * Vsum w <= total (map (fun p => V (fst p) * V (snd p)) (combine w x)) <= hi * Vsum w).
  { clear W. revert x L B. induction w as [|a w IH]; intros [|b x] L B; cbn in L; try discriminate; [unfold total, Vsum; cbn; lra|].
    inversion P as [|? ? Pa Pw]; inversion B as [|? ? Bb Bx]; subst. specialize (IH Pw x ltac:(lia) Bx). unfold total, Vsum in *. cbn. nra. }
  unfold average. change (total (map V w)) with (Vsum w). set (T := total _) in *. split; apply Rmult_le_reg_r with (Vsum w); try exact W; replace (T / Vsum w * Vsum w) with T by (field; lra); lra.
Qed.

(** ** Equal shares *)
Lemma fdiv_same : forall a b s t, fin a -> fin b -> V s <> 0 -> V t <> 0 -> Bsign a = Bsign b -> Bsign s = Bsign t -> Rabs (V a / V s) <= bpow radix2 1023 -> V a / V s = V b / V t ->
  fdiv a s = fdiv b t.
Proof.
  intros a b s t Fa Fb S0 T0 SG ST B E. 
  generalize (Bdiv_correct 53 1024 eq_refl eq_refl mode_NE a s S0). generalize (Bdiv_correct 53 1024 eq_refl eq_refl mode_NE b t T0).
  change (round radix2 _ _ (B2R a / B2R s)) with (rnd (V a / V s)). change (round radix2 _ _ (B2R b / B2R t)) with (rnd (V b / V t)). rewrite <- E, (no_overflow _ B).
  intros (A1 & A2 & A3) (B1 & B2 & B3). unfold fin in *. rewrite Fb in A2. rewrite Fa in B2.
  assert (NN : forall z : f64, is_finite z = true -> is_nan z = false) by (intros [| | |]; cbn; congruence).
  apply B2R_Bsign_inj; [exact B2|exact A2|transitivity (rnd (V a / V s)); [exact B1|symmetry; exact A1]|]. transitivity (xorb (Bsign a) (Bsign s)); [exact (B3 (NN _ B2))|]. rewrite SG, ST. symmetry. exact (A3 (NN _ A2)).
Qed.
Lemma pos_sign : forall x : f64, fin x -> 0 < V x -> Bsign x = false.
Proof.
  intros x F P. unfold fin, V in *. destruct x as [s|s| |s m e B]; try discriminate F; [exfalso; exact (Rlt_irrefl 0 P)|]. destruct s; [|reflexivity].
  exfalso. apply (Rlt_asym _ _ P). change (F2R (Float radix2 (Z.neg m) e) < 0). apply F2R_lt_0. reflexivity.
Qed.
