(** Theorems about the weighted mean centre and total distances on binary64: property C133. *)
From Coq Require Import Reals ZArith List Bool Lia Lra Psatz Permutation.
From Flocq Require Import Core BinarySingleNaN.
From Verif Require Import Base Float_model Float_proofs F64_model F64_proofs F64_props Hex64_proofs K64_model K64_spec K64_proofs Area64_model Area64_spec Area64_proofs Area64_props Wmc64_model Wmc64_spec Wmc64_proofs.
Import ListNotations.
Local Open Scope R_scope.

(** Distance of one coordinate of the centre from the exact weighted average, for at
    most m additions: relative to the coordinates, whatever the weights. *)
Definition centre_slack (m : nat) (w x : list f64) : R := (6 * INR m + 4) * bpow radix2 (-53) * magnitude w x + bpow radix2 (-1074) * room x.
Definition good_coords (x : list f64) : Prop := Forall (fun v => fin v /\ Rabs (V v) <= bpow radix2 1000) x /\ room x <= bpow radix2 1020.
Theorem C133_centre : forall w x t0 t m, good_weights w -> good_coords x -> length w = length x -> Adds t0 w -> Adds t (parts64 (tsum t0) w x) ->
  (length (leaves t0) <= m)%nat -> (length (leaves t) <= m)%nat -> (Z.of_nat m <= 2 ^ 50)%Z ->
  fin (tsum t) /\ Rabs (V (tsum t) - average w x) <= centre_slack m w x.
Proof.
  intros w x t0 t m GW [GX RB] L A0 A1 L0 L1 N. destruct (weights_ok w t0 GW A0 ltac:(lia)) as [S1 S2]. destruct GW as [FW [WL WU]]. change (total (map V w)) with (Vsum w) in *.
  assert (W0 : 0 < Vsum w) by (pose proof (bpow_gt_0 radix2 (-900)); lra). pose proof u_ge as U. destruct (few m N) as [MU MB]. set (k := INR m * u) in *.
  assert (K0 : 0 <= k) by (apply Rmult_le_pos; [apply pos_INR|lra]).
  assert (K1 : INR (length (leaves t0)) * u <= k) by (apply Rmult_le_compat_r; [lra|apply le_INR; exact L0]).
  assert (K2 : INR (length (leaves t)) * u <= k) by (apply Rmult_le_compat_r; [lra|apply le_INR; exact L1]).
  assert (S3 : Rabs (V (tsum t0) - Vsum w) <= 2 * k * Vsum w) by (eapply Rle_trans; [exact S2|]; apply Rmult_le_compat_r; lra).
  destruct (nonneg_abs w FW) as (_ & _ & WW). rewrite Forall_forall in *.
  assert (F : Forall (fun p => (fin (fst p) /\ 0 <= V (fst p) <= Vsum w) /\ fin (snd p) /\ Rabs (V (snd p)) <= bpow radix2 1000) (combine w x)).
  { apply Forall_forall. intros [a b] H. cbn [fst snd]. pose proof (in_combine_l _ _ _ _ H) as Ha. pose proof (in_combine_r _ _ _ _ H) as Hb. destruct (FW a Ha). specialize (WW a Ha). cbn in WW. split; [split; [assumption|lra]|]. exact (GX b Hb). }
  destruct (parts_ok (tsum t0) (Vsum w) k (combine w x) S1 W0 WU ltac:(lra) S3 F) as (P1 & P2 & P3 & P4 & P5 & P6).
  change (map (fun p => fmul (share64 (tsum t0) (fst p)) (snd p)) (combine w x)) with (parts64 (tsum t0) w x) in *.
  destruct (average_ok w x) as [E1 E2]. rewrite <- E1, <- E2, (room_combine w x L) in *. destruct (adds_ok t _ A1 P1) as (B1 & B2 & B3 & _).
  pose proof tiny_gt as T. pose proof tiny_small as T1. set (A := magnitude w x) in *. set (R0 := room x) in *.
  assert (AB : A <= bpow radix2 1000).
  { assert (AX : Rabs (average w x) <= A) by exact P6. unfold A, magnitude. change (total (map V w)) with (Vsum w).
    apply Rmult_le_reg_r with (Vsum w); [exact W0|]. replace (total (map (fun p => V (fst p) * Rabs (V (snd p))) (combine w x)) / Vsum w * Vsum w) with (total (map (fun p => V (fst p) * Rabs (V (snd p))) (combine w x))) by (field; lra).
    clear - FW GX L. revert x GX L. induction w as [|a w IH]; intros [|b x] GX L; cbn in L; try discriminate; [unfold total, Vsum; cbn; lra|].
    unfold total, Vsum in *. cbn [combine map fold_right fst snd]. assert (I : fold_right Rplus 0 (map (fun p => V (fst p) * Rabs (V (snd p))) (combine w x)) <= bpow radix2 1000 * fold_right Rplus 0 (map V w)).
    { apply IH; [intros y Y; apply FW; right; exact Y|intros y Y; apply GX; right; exact Y|lia]. }
    destruct (FW a (or_introl eq_refl)) as [_ Pa]. destruct (GX b (or_introl eq_refl)) as [_ Pb].
    assert (V a * Rabs (V b) <= V a * bpow radix2 1000) by (apply Rmult_le_compat_l; assumption). lra. }
  assert (TR : 0 <= tiny * R0 <= R0) by (split; [apply Rmult_le_pos; lra|]; rewrite <- (Rmult_1_l R0) at 2; apply Rmult_le_compat_r; lra).
  assert (VB : 2 * Vabs (leaves t) <= bpow radix2 1023).
  { rewrite B3. assert (BB1 : 8 * bpow radix2 1020 = bpow radix2 1023) by (change 8 with (bpow radix2 3); rewrite <- bpow_plus; reflexivity).
    assert (BB2 : bpow radix2 1000 <= bpow radix2 1020) by (apply bpow_le; lia). lra. }
  destruct (tsum_error t B1 ltac:(lra) VB) as [Q1 Q2]. rewrite B2, B3 in Q2. split; [exact Q1|]. destruct (g_few (length (leaves t)) ltac:(lra)) as [G0 G1].
  pose proof (Vabs_pos (parts64 (tsum t0) w x)) as VP.
  assert (GV : g (length (leaves t) - 1) * Vabs (parts64 (tsum t0) w x) <= 2 * k * (3 / 2 * A + tiny * R0)) by (apply Rmult_le_compat; lra).
  replace (V (tsum t) - average w x) with ((V (tsum t) - Vsum (parts64 (tsum t0) w x)) + (Vsum (parts64 (tsum t0) w x) - average w x)) by ring.
  eapply Rle_trans; [apply Rabs_triang|]. unfold centre_slack. fold u. fold A. fold R0.
  assert (T2 : bpow radix2 (-1074) = 2 * tiny) by (unfold tiny; change (-1074)%Z with (1 + -1075)%Z; rewrite bpow_plus; reflexivity). rewrite T2.
  replace ((6 * INR m + 4) * u * A) with ((6 * k + 4 * u) * A) by (unfold k; ring).
  assert (k * (tiny * R0) <= / 8 * (tiny * R0)) by (apply Rmult_le_compat_r; lra). nra.
Qed.
Print Assumptions C133_centre.

(** So the centre lies in any interval that holds the coordinates, up to the slack. *)
Theorem C133_inside : forall w x t0 t m lo hi, good_weights w -> good_coords x -> length w = length x -> Adds t0 w -> Adds t (parts64 (tsum t0) w x) ->
  (length (leaves t0) <= m)%nat -> (length (leaves t) <= m)%nat -> (Z.of_nat m <= 2 ^ 50)%Z -> Forall (fun v => lo <= V v <= hi) x ->
  lo - centre_slack m w x <= V (tsum t) <= hi + centre_slack m w x.
Proof.
  intros w x t0 t m lo hi GW GX L A0 A1 L0 L1 N B. destruct (C133_centre w x t0 t m GW GX L A0 A1 L0 L1 N) as [_ E]. apply Rabs_le_inv in E.
  destruct GW as [FW [WL _]]. assert (0 < Vsum w) by (change (Vsum w) with (total (map V w)); pose proof (bpow_gt_0 radix2 (-900)); lra).
  assert (A : lo <= average w x <= hi). { apply average_between; auto. eapply Forall_impl; [|exact FW]. cbn. intros y [_ Y]. exact Y. } lra.
Qed.
Print Assumptions C133_inside.

(** Weights with few digits, for example counts up to 2^53 in total, can be multiplied
    by a common factor, and added in another order, without any change. *)
Definition counts (e : Z) (w : list f64) : Prop :=
  w <> [] /\ (-500 <= e <= 400)%Z /\ Forall (fun v => fin v /\ 0 < V v /\ multiple e v) w /\ total (map V w) <= bpow radix2 (e + 53).
Lemma counts_sum : forall e w t, counts e w -> Adds t w -> fin (tsum t) /\ V (tsum t) = Vsum w /\ 0 < Vsum w /\ Bsign (tsum t) = false.
Proof.
  intros e w t (NE & E & F & B) AD. change (total (map V w)) with (Vsum w) in B.
  assert (F0 : Forall (fun x => fin x /\ 0 <= V x) w) by (eapply Forall_impl; [|exact F]; cbn; intros y (Y1 & Y2 & _); split; [exact Y1|lra]).
  assert (FM : Forall (multiple e) w) by (eapply Forall_impl; [|exact F]; cbn; intros y (_ & _ & Y); exact Y).
  destruct (nonneg_abs w F0) as (A1 & A2 & A3). destruct (adds_ok t w AD A2) as (C1 & C2 & C3 & _ & C5).
  destruct (tsum_exact t e ltac:(lia) C1 (C5 e FM) ltac:(lra)) as (S1 & S2 & _). assert (P : 0 < Vsum w).
  { destruct w as [|y w]; [congruence|]. inversion A3; subst. inversion F as [|? ? (_ & Y & _) _]; subst. lra. }
  split; [exact S1|]. split; [lra|]. split; [exact P|]. apply pos_sign; [exact S1|lra].
Qed.
Theorem C133_scale : forall e e' c w w' x t0 t0', counts e w -> counts e' w' -> Forall2 (fun a b => V b = c * V a) w w' -> Adds t0 w -> Adds t0' w' ->
  parts64 (tsum t0') w' x = parts64 (tsum t0) w x.
Proof.
  intros e e' c w w' x t0 t0' CW CW' R0 A A'. destruct (counts_sum _ _ _ CW A) as (S1 & S2 & S3 & S4). destruct (counts_sum _ _ _ CW' A') as (S1' & S2' & S3' & S4').
  assert (VC : Vsum w' = c * Vsum w). { clear - R0. unfold Vsum. induction R0 as [|a b w w' H R0 IH]; cbn; [lra|]. rewrite IH, H. ring. }
  assert (C0 : 0 < c) by nra. destruct CW as (_ & E1 & F & B). destruct CW' as (_ & E2 & F' & B'). change (total (map V w)) with (Vsum w) in B. change (total (map V w')) with (Vsum w') in B'.
  assert (LE : Forall (fun v => V v <= Vsum w) w). { apply nonneg_abs. eapply Forall_impl; [|exact F]. cbn. intros y (Y1 & Y2 & _). split; [exact Y1|lra]. }
  assert (BB : bpow radix2 (e + 53) <= bpow radix2 1000 /\ bpow radix2 (e' + 53) <= bpow radix2 1000 /\ bpow radix2 1000 <= bpow radix2 1023) by (split; [|split]; apply bpow_le; lia).
  assert (LE' : Forall (fun v => V v <= Vsum w') w'). { apply nonneg_abs. eapply Forall_impl; [|exact F']. cbn. intros y (Y1 & Y2 & _). split; [exact Y1|lra]. }
  assert (SH : Forall2 (fun a b => share64 (tsum t0') b = share64 (tsum t0) a) w w').
  { set (s := tsum t0) in *. set (s' := tsum t0') in *. set (W := Vsum w) in *. set (W' := Vsum w') in *. clearbody s s' W W'. clear A A'.
    induction R0 as [|a b w w' H R0 IH]; [constructor|]. apply Forall_cons_iff in F, F', LE, LE'. destruct F as [(Fa & Pa & _) Fw]. destruct F' as [(Fb & Pb & _) Fw']. destruct LE as [La Lw]. destruct LE' as [Lb Lw'].
    constructor; [|apply IH; assumption]. unfold share64.
    destruct (one64 a Fa) as [Ga Va]; [rewrite Rabs_pos_eq; lra|]. destruct (one64 b Fb) as [Gb Vb]; [rewrite Rabs_pos_eq; lra|].
    assert (QE : V b / V s' = V a / V s) by (rewrite S2, S2', VC, H; field; lra).
    apply fdiv_same; auto; try lra.
    - rewrite !pos_sign; auto; lra.
    - rewrite S4, S4'. reflexivity.
    - rewrite Vb, QE, S2. assert (Q1 : 0 <= V a / W <= 1).
      { split; [unfold Rdiv; apply Rmult_le_pos; [lra|apply Rlt_le, Rinv_0_lt_compat; exact S3]|]. apply Rmult_le_reg_r with W; [exact S3|]. replace (V a / W * W) with (V a) by (field; lra). lra. }
      rewrite Rabs_pos_eq by lra. apply Rle_trans with (bpow radix2 0); [cbn; lra|apply bpow_le; lia].
    - rewrite Va, Vb. exact QE. }
  unfold parts64. clear - SH. revert x. induction SH as [|a b w w' H SH IH]; intros [|y x]; cbn; try reflexivity. rewrite H. f_equal. apply IH.
Qed.
Print Assumptions C133_scale.

(** Total distance: relative error, never negative, zero for points at the centre. *)
Definition distance_slack (m n : nat) (c : fpt) (l : list fpt) : R := (3 * INR m + 4) * bpow radix2 (-53) * total_distance c l + INR n * bpow radix2 (-534).
Lemma dists_ok : forall c l, usable c -> Forall usable l ->
  Forall fin (dists64 c l) /\ Vabs (dists64 c l) = Vsum (dists64 c l) /\ 0 <= total_distance c l <= INR (length l) * bpow radix2 503 /\
  Rabs (Vsum (dists64 c l) - total_distance c l) <= 4 * u * total_distance c l + INR (length l) * bpow radix2 (-535).
Proof.
  intros c l C F. induction F as [|p l P F IH].
  - unfold dists64, total_distance, Vabs, Vsum, total. cbn. rewrite Rminus_0_r, Rabs_R0. split; [constructor|]. split; [reflexivity|]. lra.
  - destruct IH as (I1 & I2 & I3 & I4). destruct (dist64_ok p c P C) as (D1 & _ & D3). pose proof (dist_error p c P C) as DE. pose proof (D_nonneg p c) as DN.
    assert (U51 : bpow radix2 (-51) = 4 * u) by (unfold u; change (-51)%Z with (2 + -53)%Z; rewrite bpow_plus; reflexivity). rewrite U51 in DE.
    assert (DU : D p c <= bpow radix2 503).
    { destruct P as [[_ P1] [_ P2]]. destruct C as [[_ C1] [_ C2]]. unfold D. rewrite <- (sqrt_square (bpow radix2 503)) by apply bpow_ge_0. apply sqrt_le_1_alt.
      apply Rabs_le_inv in P1, P2, C1, C2. assert (E : bpow radix2 503 = 8 * bpow radix2 500) by (change 8 with (bpow radix2 3); rewrite <- bpow_plus; reflexivity). rewrite E.
      set (b := bpow radix2 500) in *. assert (H : forall z, -(2 * b) <= z <= 2 * b -> z ^ 2 <= 4 * b * b) by (intros z Z; nra).
      pose proof (H (V (fst p) - V (fst c)) ltac:(lra)). pose proof (H (V (snd p) - V (snd c)) ltac:(lra)). nra. }
    unfold dists64, total_distance, Vabs, Vsum, total in *. cbn [map fold_right length]. rewrite S_INR, (Rabs_pos_eq (V (dist64 p c))) by exact D3.
    split; [constructor; assumption|]. split; [rewrite I2; reflexivity|]. split; [lra|].
    set (a := fold_right Rplus 0 (map V (map (fun p => dist64 p c) l))) in *. set (b := fold_right Rplus 0 (map (fun p => D p c) l)) in *.
    replace (V (dist64 p c) + a - (D p c + b)) with ((V (dist64 p c) - D p c) + (a - b)) by ring. eapply Rle_trans; [apply Rabs_triang|]. lra.
Qed.
Theorem C133_distance : forall c l t, usable c -> Forall usable l -> Adds t (dists64 c l) -> (Z.of_nat (length (leaves t)) <= 2 ^ 50)%Z ->
  fin (tsum t) /\ 0 <= V (tsum t) /\ Rabs (V (tsum t) - total_distance c l) <= distance_slack (length (leaves t)) (length l) c l.
Proof.
  intros c l t C F AD N. destruct (dists_ok c l C F) as (D1 & D2 & D3 & D4). destruct (adds_ok t _ AD D1) as (A1 & A2 & A3 & A4 & _).
  unfold dists64 in A4 at 1. rewrite map_length in A4. destruct (few _ N) as [MU MB]. pose proof u_ge as U. assert (US : u <= / 100) by (rewrite u_small; lra).
  set (m := INR (length (leaves t))) in *. set (n := INR (length l)) in *. assert (NM : 0 <= n <= m) by (split; [apply pos_INR|apply le_INR; exact A4]).
  set (S0 := total_distance c l) in *. set (q := bpow radix2 (-535)) in *. assert (q0 : 0 < q) by apply bpow_gt_0. assert (NQ : 0 <= n * q) by (apply Rmult_le_pos; lra).
  assert (SB : S0 <= bpow radix2 553). { change 553%Z with (50 + 503)%Z. rewrite bpow_plus. eapply Rle_trans; [apply D3|]. apply Rmult_le_compat_r; [apply bpow_ge_0|lra]. }
  assert (q1 : q <= 1) by (unfold q; change 1 with (bpow radix2 0); apply bpow_le; lia).
  assert (NQ1 : n * q <= bpow radix2 50) by nra.
  assert (D4' := D4). apply Rabs_le_inv in D4'. assert (UB : 4 * u * S0 <= / 4 * S0) by (apply Rmult_le_compat_r; lra).
  assert (VB : 2 * Vabs (leaves t) <= bpow radix2 1023).
  { rewrite A3, D2. assert (8 * bpow radix2 553 <= bpow radix2 1023) by (change 8 with (bpow radix2 3); rewrite <- bpow_plus; apply bpow_le; lia).
    assert (bpow radix2 50 <= bpow radix2 553) by (apply bpow_le; lia). lra. }
  destruct (tsum_error t A1 ltac:(fold m; lra) VB) as [S1 S2]. rewrite A2, A3, D2 in S2. destruct (g_few _ MU) as [G0 G1]. fold m in G1.
  pose proof (Vabs_pos (dists64 c l)) as VP. rewrite D2 in VP. set (X := Vsum (dists64 c l)) in *.
  assert (GX : g (length (leaves t) - 1) * X <= 2 * (m * u) * X) by (apply Rmult_le_compat_r; lra).
  assert (GX1 : 2 * (m * u) * X <= 1 * X) by (apply Rmult_le_compat_r; lra).
  split; [exact S1|]. pose proof S2 as S2'. apply Rabs_le_inv in S2'. split; [lra|].
  replace (V (tsum t) - S0) with ((V (tsum t) - X) + (X - S0)) by ring. eapply Rle_trans; [apply Rabs_triang|]. unfold distance_slack. fold u. fold S0 m n.
  assert (T2 : bpow radix2 (-534) = 2 * q) by (unfold q; change (-534)%Z with (1 + -535)%Z; rewrite bpow_plus; reflexivity). rewrite T2.
  assert (XU : X <= 5 / 4 * S0 + n * q) by lra. assert (M0 : 0 <= m * u) by (apply Rmult_le_pos; lra).
  assert (MX : m * u * X <= m * u * (5 / 4 * S0 + n * q)) by (apply Rmult_le_compat_l; lra).
  assert (m * u * (n * q) <= / 8 * (n * q)) by (apply Rmult_le_compat_r; lra). assert (0 <= m * u * S0) by (apply Rmult_le_pos; lra).
  replace ((3 * m + 4) * u * S0 + n * (2 * q)) with (3 * (m * u * S0) + 4 * u * S0 + 2 * (n * q)) by ring. lra.
Qed.
Print Assumptions C133_distance.
Theorem C133_zero : forall c l t, usable c -> Forall usable l -> Adds t (dists64 c l) -> (Z.of_nat (length (leaves t)) <= 2 ^ 50)%Z ->
  Forall (fun p => V (fst p) = V (fst c) /\ V (snd p) = V (snd c)) l -> V (tsum t) = 0.
Proof.
  intros c l t C F AD N E. destruct (dists_ok c l C F) as (D1 & D2 & _). destruct (adds_ok t _ AD D1) as (A1 & A2 & A3 & _).
  assert (Z0 : Vsum (dists64 c l) = 0).
  { clear - C F E. unfold Vsum, dists64. induction F as [|p l P F IH]; [reflexivity|]. inversion E as [|? ? [E1 E2] El]; subst. cbn. rewrite (IH El).
    destruct (dist64_ok p c P C) as (_ & D2 & _). rewrite D2. unfold sqv. rewrite E1, E2. rewrite !Rminus_diag_eq by reflexivity. rewrite !rnd_0, Rmult_0_l, !rnd_0, Rplus_0_l, !rnd_0, sqrt_0, rnd_0. lra. }
  destruct (few _ N) as [MU _]. destruct (tsum_error t A1 ltac:(lra)) as [_ S2]; [rewrite A3, D2, Z0; pose proof (bpow_gt_0 radix2 1023); lra|].
  rewrite A2, A3, D2, Z0, Rmult_0_r, Rminus_0_r in S2. apply Rabs_le_inv in S2. lra.
Qed.
Print Assumptions C133_zero.
(** Of two candidate centres, the better one by more than the slack is found better. *)
Theorem C133_better : forall c c' l t t', usable c -> usable c' -> Forall usable l -> Adds t (dists64 c l) -> Adds t' (dists64 c' l) ->
  (Z.of_nat (length (leaves t)) <= 2 ^ 50)%Z -> (Z.of_nat (length (leaves t')) <= 2 ^ 50)%Z ->
  total_distance c l + distance_slack (length (leaves t)) (length l) c l + distance_slack (length (leaves t')) (length l) c' l < total_distance c' l -> V (tsum t) < V (tsum t').
Proof.
  intros c c' l t t' C C' F A A' N N' H. destruct (C133_distance c l t C F A N) as (_ & _ & E). destruct (C133_distance c' l t' C' F A' N') as (_ & _ & E').
  apply Rabs_le_inv in E, E'. lra.
Qed.
Print Assumptions C133_better.

(** Finding: six coincident points of equal weight have a weighted mean centre below
    them, nine have one above, though their mean centre is the point itself. *)
Definition ones (n : nat) : list f64 := repeat (fint 1) n.
Definition centre_of (w x : list f64) : f64 := tsum (in_order (parts64 (tsum (in_order w)) w x)).
Theorem C133_outside_refuted :
  V (centre_of (ones 6) (ones 6)) = 1 - bpow radix2 (-53) /\ V (centre_of (ones 9) (ones 9)) = 1 + bpow radix2 (-52) /\
  V (fmean (ones 6)) = 1 /\ V (fmean (ones 9)) = 1 /\
  Adds (in_order (ones 6)) (ones 6) /\ Adds (in_order (parts64 (tsum (in_order (ones 6))) (ones 6) (ones 6))) (parts64 (tsum (in_order (ones 6))) (ones 6) (ones 6)).
Proof.
  assert (E1 : centre_of (ones 6) (ones 6) = fdyadic (2 ^ 53 - 1) (-53)) by (apply B2SF_inj; vm_compute; reflexivity).
  assert (E2 : centre_of (ones 9) (ones 9) = fdyadic (2 ^ 52 + 1) (-52)) by (apply B2SF_inj; vm_compute; reflexivity).
  assert (E3 : fmean (ones 6) = fint 1) by (apply B2SF_inj; vm_compute; reflexivity). assert (E4 : fmean (ones 9) = fint 1) by (apply B2SF_inj; vm_compute; reflexivity).
  assert (DY : forall k e, (Z.abs k < 2 ^ 53)%Z -> (-100 <= e <= 0)%Z -> V (fdyadic k e) = IZR k * bpow radix2 e).
  { intros k e K E. destruct (fdyadic_ok k e) as [_ D]; [|rewrite D; apply rnd_id, float_dyadic; lia].
    rewrite Rabs_mult, (Rabs_pos_eq (bpow radix2 e)), <- abs_IZR by apply bpow_ge_0. apply Rle_trans with (bpow radix2 53 * bpow radix2 0).
    - apply Rmult_le_compat; [apply IZR_le; lia|apply bpow_ge_0|rewrite <- IZR_pow2 by lia; apply IZR_le; lia|apply bpow_le; lia].
    - rewrite <- bpow_plus. apply bpow_le. lia. }
  rewrite E1, E2, E3, E4, !DY by lia. split; [|split; [|split; [|split; [|split; apply in_order_adds]]]].
  - rewrite minus_IZR, IZR_pow2 by lia. rewrite Rmult_minus_distr_r, <- bpow_plus. cbn. lra.
  - rewrite plus_IZR, IZR_pow2 by lia. rewrite Rmult_plus_distr_r, <- bpow_plus. cbn. lra.
  - apply fint_ok. lia.
  - apply fint_ok. lia.
Qed.
Print Assumptions C133_outside_refuted.

(** Weights 1, 1, 2 and 3, 3, 6 on coordinates 0, 4, 6; distances 3, 4, 5 from the origin. *)
Example C133_case :
  let w := [fint 1; fint 1; fint 2] in let w3 := [fint 3; fint 3; fint 6] in let x := [fint 0; fint 4; fint 6] in
  B2SF (centre_of w x) = B2SF (fint 4) /\ B2SF (centre_of w3 x) = B2SF (fint 4) /\
  map (@B2SF 53 1024) (parts64 (fint 4) w x) = map (@B2SF 53 1024) [fint 0; fint 1; fint 3] /\
  map (@B2SF 53 1024) (dists64 (fint 0, fint 0) [(fint 3, fint 0); (fint 0, fint (-4)); (fint 3, fint 4)]) = map (@B2SF 53 1024) [fint 3; fint 4; fint 5] /\
  B2SF (tsum (in_order (dists64 (fint 1, fint 0) [(fint 4, fint 4); (fint 1, fint (-4)); (fint 1, fint 0)]))) = B2SF (fint 9).
Proof. cbv zeta. repeat split; vm_compute; reflexivity. Qed.
