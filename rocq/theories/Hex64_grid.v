(** Rounding in the hexagonal grid on binary64: where the computed numbers lie. *)
From Coq Require Import Reals ZArith List Bool Lia Lra Psatz.
From Flocq Require Import Core BinarySingleNaN.
From Verif Require Import Base BaseLemmas Float_model Float_proofs F64_model F64_proofs Hex64_model Hex64_proofs Quadrat_proofs.
Import ListNotations.
Local Open Scope R_scope.

(** A float within [e] of a real number. *)
Definition near (x : f64) (r e : R) : Prop := fin x /\ Rabs (V x - r) <= e.
Lemma near_exact : forall x, fin x -> near x (V x) 0.
Proof. intros x F. split; [exact F|]. rewrite Rminus_diag_eq, Rabs_R0 by reflexivity. lra. Qed.
Lemma near_abs : forall x r e M, near x r e -> Rabs r <= M -> Rabs (V x) <= M + e.
Proof. intros x r e M [_ N] H. apply Rabs_le_inv in N. apply Rabs_le_inv in H. apply Rabs_le. lra. Qed.
Lemma near_weak : forall x r e f, near x r e -> e <= f -> near x r f.
Proof. intros x r e f [A B] H. split; [exact A|lra]. Qed.
Lemma near_eq : forall x r t e, near x r e -> r = t -> near x t e.
Proof. intros x r t e N <-. exact N. Qed.
Lemma near_add : forall x y r t e f M G, near x r e -> near y t f -> Rabs (r + t) <= M -> M + e + f <= bpow radix2 1023 ->
  e + f + u * (M + e + f) <= G -> near (fadd x y) (r + t) G.
Proof.
  intros x y r t e f M G [Fx Nx] [Fy Ny] H O E. apply Rabs_le_inv in Nx. apply Rabs_le_inv in Ny. apply Rabs_le_inv in H.
  assert (B : Rabs (V x + V y) <= M + e + f) by (apply Rabs_le; lra).
  destruct (fadd_ok x y Fx Fy) as [A1 A2]; [lra|]. split; [exact A1|]. rewrite A2.
  pose proof (rnd_plus_error (V x) (V y) (V_float x) (V_float y)) as R. pose proof u_ge as U.
  assert (u * Rabs (V x + V y) <= u * (M + e + f)) by (apply Rmult_le_compat_l; lra).
  assert (R' := R). apply Rabs_le_inv in R'. apply Rabs_le. lra.
Qed.
Lemma near_sub : forall x y r t e f M G, near x r e -> near y t f -> Rabs (r - t) <= M -> M + e + f <= bpow radix2 1023 ->
  e + f + u * (M + e + f) <= G -> near (fsub x y) (r - t) G.
Proof.
  intros x y r t e f M G [Fx Nx] [Fy Ny] H O E. apply Rabs_le_inv in Nx. apply Rabs_le_inv in Ny. apply Rabs_le_inv in H.
  assert (B : Rabs (V x - V y) <= M + e + f) by (apply Rabs_le; lra).
  destruct (fsub_ok x y Fx Fy) as [A1 A2]; [lra|]. split; [exact A1|]. rewrite A2.
  pose proof (rnd_plus_error (V x) (- V y) (V_float x) (generic_format_opp _ _ _ (V_float y))) as R. pose proof u_ge as U.
  change (V x + - V y) with (V x - V y) in R.
  assert (u * Rabs (V x - V y) <= u * (M + e + f)) by (apply Rmult_le_compat_l; lra).
  assert (R' := R). apply Rabs_le_inv in R'. apply Rabs_le. lra.
Qed.
Lemma near_mul : forall x y r t e f A B G, near x r e -> near y t f -> Rabs r <= A -> Rabs t <= B ->
  A * B + (e * B + A * f + e * f) <= bpow radix2 1023 ->
  (e * B + A * f + e * f) + u * (A * B + (e * B + A * f + e * f)) + tiny <= G -> near (fmul x y) (r * t) G.
Proof.
  intros x y r t e f A B G [Fx Nx] [Fy Ny] HA HB O E.
  assert (P : Rabs (V x * V y - r * t) <= e * B + A * f + e * f).
  { replace (V x * V y - r * t) with ((V x - r) * t + r * (V y - t) + (V x - r) * (V y - t)) by ring.
    pose proof (Rabs_pos (V x - r)). pose proof (Rabs_pos (V y - t)). pose proof (Rabs_pos r). pose proof (Rabs_pos t).
    eapply Rle_trans; [apply Rabs_triang|]. eapply Rle_trans; [apply Rplus_le_compat_r, Rabs_triang|]. rewrite !Rabs_mult.
    repeat apply Rplus_le_compat; apply Rmult_le_compat; auto. }
  assert (Q : Rabs (r * t) <= A * B) by (rewrite Rabs_mult; apply Rmult_le_compat; auto; apply Rabs_pos).
  assert (S : Rabs (V x * V y) <= A * B + (e * B + A * f + e * f)).
  { apply Rabs_le_inv in P. apply Rabs_le_inv in Q. apply Rabs_le. lra. }
  destruct (fmul_ok x y Fx Fy) as [M1 M2]; [lra|]. split; [exact M1|]. rewrite M2.
  pose proof (rnd_error (V x * V y)) as R. pose proof u_ge as U.
  assert (u * Rabs (V x * V y) <= u * (A * B + (e * B + A * f + e * f))) by (apply Rmult_le_compat_l; lra).
  apply Rabs_le_inv in R. apply Rabs_le_inv in P. apply Rabs_le. lra.
Qed.
(** Quotients: [t] known up to less than its half, [|r| <= K |t|]. *)
Lemma near_div : forall x y r t e f K G, near x r e -> near y t f -> t <> 0 -> f <= Rabs t / 2 -> Rabs r <= K * Rabs t ->
  K + 2 * (e + K * f) / Rabs t <= bpow radix2 1023 ->
  2 * (e + K * f) / Rabs t + u * (K + 2 * (e + K * f) / Rabs t) + tiny <= G -> near (fdiv x y) (r / t) G.
Proof.
  intros x y r t e f K G [Fx Nx] [Fy Ny] T0 F2 HK O E. pose proof u_ge as U. pose proof (Rabs_pos_lt t T0) as T.
  assert (Y : Rabs t / 2 <= Rabs (V y)). { pose proof (Rabs_triang (V y) (t - V y)) as H. replace (V y + (t - V y)) with t in H by ring. rewrite Rabs_minus_sym in Ny. lra. }
  assert (Y0 : V y <> 0) by (intro H; rewrite H, Rabs_R0 in Y; lra).
  assert (K0 : 0 <= K). { apply Rmult_le_reg_r with (Rabs t); [exact T|]. rewrite Rmult_0_l. pose proof (Rabs_pos r). lra. }
  assert (e0 : 0 <= e) by (pose proof (Rabs_pos (V x - r)); lra). assert (f0 : 0 <= f) by (pose proof (Rabs_pos (V y - t)); lra).
  assert (Q : Rabs (r / t) <= K).
  { unfold Rdiv. rewrite Rabs_mult, Rabs_Rinv by exact T0.
    apply Rmult_le_reg_r with (Rabs t); [exact T|]. rewrite Rmult_assoc, Rinv_l, Rmult_1_r by lra. exact HK. }
  assert (P : Rabs (V x / V y - r / t) <= 2 * (e + K * f) / Rabs t).
  { replace (V x / V y - r / t) with (((V x - r) + (r / t) * (t - V y)) / V y) by (field; auto).
    unfold Rdiv at 1. rewrite Rabs_mult, Rabs_Rinv by exact Y0.
    assert (I : / Rabs (V y) <= 2 / Rabs t). { replace (2 / Rabs t) with (/ (Rabs t / 2)) by (field; lra). apply Rinv_le_contravar; lra. }
    assert (N : Rabs (V x - r + r / t * (t - V y)) <= e + K * f).
    { eapply Rle_trans; [apply Rabs_triang|]. rewrite Rabs_mult. apply Rplus_le_compat; [exact Nx|].
      apply Rmult_le_compat; try apply Rabs_pos; [exact Q|]. rewrite Rabs_minus_sym. exact Ny. }
    replace (2 * (e + K * f) / Rabs t) with ((e + K * f) * (2 / Rabs t)) by (field; lra).
    apply Rmult_le_compat; [apply Rabs_pos|apply Rlt_le, Rinv_0_lt_compat; lra|exact N|exact I]. }
  assert (S : Rabs (V x / V y) <= K + 2 * (e + K * f) / Rabs t).
  { apply Rabs_le_inv in P. apply Rabs_le_inv in Q. apply Rabs_le. lra. }
  destruct (fdiv_ok x y Fx) as [M1 M2]; [exact Y0|lra|]. split; [exact M1|]. rewrite M2.
  pose proof (rnd_error (V x / V y)) as R.
  assert (u * Rabs (V x / V y) <= u * (K + 2 * (e + K * f) / Rabs t)) by (apply Rmult_le_compat_l; lra).
  apply Rabs_le_inv in R. apply Rabs_le_inv in P. apply Rabs_le. lra.
Qed.

Lemma fle_ok : forall a b, fin a -> fin b -> fle a b = true <-> V a <= V b.
Proof.
  intros a b Fa Fb. unfold fle. rewrite (Bleb_correct 53 1024 a b Fa Fb). unfold V.
  destruct (Rle_bool_spec (B2R a) (B2R b)); split; intro; try assumption; try reflexivity; try discriminate. lra.
Qed.
Lemma near_opp : forall x r e, near x r e -> near (@Bopp 53 1024 x) (- r) e.
Proof.
  intros x r e [F N]. split; [unfold fin; rewrite is_finite_Bopp; exact F|]. unfold V. rewrite B2R_Bopp. fold (V x).
  replace (- V x - - r) with (- (V x - r)) by ring. rewrite Rabs_Ropp. exact N.
Qed.

(** ** The line through two corners *)
Section Line.
Variables (W s S : R).
Hypothesis W0 : bpow radix2 (-400) <= W <= bpow radix2 400.
Hypothesis Hs : 0 < s /\ 2 * s <= W /\ W <= bpow radix2 36 * s.
Hypothesis HS : s <= S <= 2 * s.
Let eps : R := u * W.
Let om : R := eps * W / s.
Lemma line_facts : 0 < eps /\ 0 < om /\ 2 * eps <= om /\ u * eps <= eps / 1024 /\ 1024 * eps <= s /\ tiny <= eps /\ tiny <= eps * W / 1024 /\ eps * eps <= eps * W / 1024 /\
  u * om <= om / 1024 /\ om * 1024 <= W /\ 1024 * (W * W) + 1024 * W <= bpow radix2 1023 /\ 0 < u /\ u * 1024 <= 1 /\ u * W = eps /\ om * s = eps * W /\ 2 * u <= eps / s /\ tiny <= u / 1024 /\ u * (eps / s) <= (eps / s) / 1024 /\ 1024 * (eps / s) <= 1.
Proof.
  destruct W0 as [Wlo Whi]. destruct Hs as (s0 & sW & Ws). pose proof u_ge as U.
  assert (WP : 0 < W) by (pose proof (bpow_gt_0 radix2 (-400)); lra).
  assert (U1 : u * 1024 <= 1). { unfold u. change 1024 with (bpow radix2 10). rewrite <- bpow_plus. change 1 with (bpow radix2 0). apply bpow_le. lia. }
  assert (U2 : u * bpow radix2 46 <= 1). { unfold u. rewrite <- bpow_plus. change 1 with (bpow radix2 0). apply bpow_le. lia. }
  assert (E0 : 0 < eps) by (unfold eps; apply Rmult_lt_0_compat; lra).
  assert (IS : 0 < / s) by (apply Rinv_0_lt_compat; lra).
  assert (OM : om * s = eps * W) by (unfold om; field; lra).
  assert (O0 : 0 < om) by (unfold om, Rdiv; repeat apply Rmult_lt_0_compat; lra).
  assert (ES : 1024 * eps <= s).
  { unfold eps. apply Rle_trans with (1024 * (u * (bpow radix2 36 * s))); [apply Rmult_le_compat_l; [lra|]; apply Rmult_le_compat_l; lra|].
    replace (1024 * (u * (bpow radix2 36 * s))) with ((u * (bpow radix2 36 * bpow radix2 10)) * s) by (change (bpow radix2 10) with 1024; ring).
    rewrite <- bpow_plus. change (36 + 10)%Z with 46%Z. assert (u * bpow radix2 46 * s <= 1 * s) by (apply Rmult_le_compat_r; lra). lra. }
  assert (T1 : tiny * 1024 <= bpow radix2 (-53) * (bpow radix2 (-400) * bpow radix2 (-400))).
  { rewrite <- !bpow_plus. unfold tiny. change 1024 with (bpow radix2 10). rewrite <- bpow_plus. apply bpow_le. lia. }
  assert (T2 : bpow radix2 (-400) * bpow radix2 (-400) <= W * W) by (apply Rmult_le_compat; try apply bpow_ge_0; lra).
  assert (T3 : u * (bpow radix2 (-400) * bpow radix2 (-400)) <= u * (W * W)) by (apply Rmult_le_compat_l; lra).
  assert (T4 : tiny * 1024 <= bpow radix2 (-53) * bpow radix2 (-400)).
  { rewrite <- !bpow_plus. unfold tiny. change 1024 with (bpow radix2 10). rewrite <- bpow_plus. apply bpow_le. lia. }
  assert (T5 : u * bpow radix2 (-400) <= u * W) by (apply Rmult_le_compat_l; lra).
  fold u in T1, T4.
  assert (KS : 0 < eps / s) by (unfold Rdiv; apply Rmult_lt_0_compat; lra).
  assert (EW : eps * 1024 <= W). { unfold eps. assert (u * 1024 * W <= 1 * W) by (apply Rmult_le_compat_r; lra). lra. }
  repeat split.
  - exact E0.
  - exact O0.
  - apply Rmult_le_reg_r with s; [lra|]. rewrite OM. replace (2 * eps * s) with (eps * (2 * s)) by ring. apply Rmult_le_compat_l; lra.
  - assert (u * 1024 * eps <= 1 * eps) by (apply Rmult_le_compat_r; lra). lra.
  - exact ES.
  - unfold eps. pose proof tiny_gt. lra.
  - unfold eps. lra.
  - assert (eps * (eps * 1024) <= eps * W) by (apply Rmult_le_compat_l; lra). lra.
  - assert (u * 1024 * om <= 1 * om) by (apply Rmult_le_compat_r; lra). lra.
  - apply Rmult_le_reg_r with s; [lra|]. replace (om * 1024 * s) with (1024 * (om * s)) by ring. rewrite OM. assert (W * (1024 * eps) <= W * s) by (apply Rmult_le_compat_l; lra). lra.
  - assert (A : W * W <= bpow radix2 400 * bpow radix2 400) by (apply Rmult_le_compat; lra). rewrite <- bpow_plus in A.
    assert (B : 1024 * (bpow radix2 800 + bpow radix2 400) <= bpow radix2 1023).
    { apply Rle_trans with (bpow radix2 10 * (bpow radix2 1 * bpow radix2 800)); [|rewrite <- !bpow_plus; apply bpow_le; lia].
      change (bpow radix2 10) with 1024. apply Rmult_le_compat_l; [lra|]. change (bpow radix2 1) with 2.
      assert (bpow radix2 400 <= bpow radix2 800) by (apply bpow_le; lia). lra. }
    change (400 + 400)%Z with 800%Z in A. lra.
  - exact U.
  - exact U1.
  - exact OM.
  - apply Rmult_le_reg_r with s; [lra|]. replace (eps / s * s) with (u * W) by (unfold eps; field; lra). assert (u * (2 * s) <= u * W) by (apply Rmult_le_compat_l; lra). lra.
  - unfold u, tiny. apply Rle_trans with (bpow radix2 (-1065) / 1024).
    + change 1024 with (bpow radix2 10). unfold Rdiv. rewrite <- bpow_opp, <- bpow_plus. apply bpow_le. lia.
    + unfold Rdiv. apply Rmult_le_compat_r; [lra|]. apply bpow_le. lia.
  - assert (u * 1024 * (eps / s) <= 1 * (eps / s)) by (apply Rmult_le_compat_r; lra). lra.
  - apply Rmult_le_reg_r with s; [lra|]. replace (1024 * (eps / s) * s) with (1024 * eps) by (field; lra). lra.
Qed.

(** The expression of lines 380-395, for corners known up to 17 eps. *)
Lemma line_ok : forall x y x0 y0 x1 y1 X0 Y0 X1 Y1, fin x -> fin y -> Rabs (V x) <= W -> Rabs (V y) <= W ->
  near x0 X0 (17 * eps) -> near x1 X1 (17 * eps) -> near y0 Y0 (17 * eps) -> near y1 Y1 (17 * eps) ->
  Rabs X0 <= 2 * W -> Rabs X1 <= 2 * W -> Rabs Y0 <= 4 * W -> Rabs Y1 <= 4 * W -> Rabs (X0 - X1) = s -> Rabs (Y0 - Y1) = S ->
  near (fsub y (fadd (fmul (fdiv (fsub y0 y1) (fsub x0 x1)) x) (fdiv (fsub (fmul x0 y1) (fmul x1 y0)) (fsub x0 x1))))
       (V y - (Y0 + (Y0 - Y1) / (X0 - X1) * (V x - X0))) (1320 * om).
Proof.
  intros x y x0 y0 x1 y1 X0 Y0 X1 Y1 Fx Fy Hx Hy N0 N1 M0 M1 BX0 BX1 BY0 BY1 DX DY.
  destruct line_facts as (G1 & G2 & G3 & G4 & G5 & G6 & G7 & G8 & G9 & G10 & G11 & G12 & G13 & G14 & G15 & G16 & G17 & G18 & G19). destruct Hs as (s0 & sW & Ws).
  assert (WP : 0 < W) by lra.
  assert (DN : near (fsub x0 x1) (X0 - X1) (36 * eps)).
  { eapply near_sub with (M := W); [exact N0|exact N1|lra| |].
    - assert (0 <= W * W) by (apply Rmult_le_pos; lra). lra.
    - replace (u * (W + 17 * eps + 17 * eps)) with (u * W + 34 * (u * eps)) by ring. lra. }
  assert (WW : 0 <= W * W) by (apply Rmult_le_pos; lra).
  assert (YN : near (fsub y0 y1) (Y0 - Y1) (36 * eps)).
  { eapply near_sub with (M := W); [exact M0|exact M1|lra|lra|].
    replace (u * (W + 17 * eps + 17 * eps)) with (u * W + 34 * (u * eps)) by ring. lra. }
  assert (D0 : X0 - X1 <> 0) by (intro H; rewrite H, Rabs_R0 in DX; lra).
  set (ka := eps / s) in *. assert (KA : 0 < ka) by (unfold ka, Rdiv; apply Rmult_lt_0_compat; [lra|apply Rinv_0_lt_compat; lra]).
  assert (SL : near (fdiv (fsub y0 y1) (fsub x0 x1)) ((Y0 - Y1) / (X0 - X1)) (220 * ka)).
  { eapply near_div with (K := 2); [exact YN|exact DN|exact D0|rewrite DX; lra|rewrite DX, DY; lra| |]; rewrite DX.
    - replace (2 * (36 * eps + 2 * (36 * eps)) / s) with (216 * ka) by (unfold ka; field; lra). apply Rle_trans with 4; [lra|]. change 4 with (bpow radix2 2). apply bpow_le. lia.
    - replace (2 * (36 * eps + 2 * (36 * eps)) / s) with (216 * ka) by (unfold ka; field; lra).
      replace (u * (2 + 216 * ka)) with (2 * u + 216 * (u * ka)) by ring. lra. }
  assert (SB : Rabs ((Y0 - Y1) / (X0 - X1)) <= 2).
  { unfold Rdiv. rewrite Rabs_mult, Rabs_Rinv, DX, DY by exact D0. apply Rmult_le_reg_r with s; [lra|]. rewrite Rmult_assoc, Rinv_l by lra. lra. }
  assert (KW : ka * W = om) by (unfold ka, om; field; lra).
  assert (PR : near (fmul (fdiv (fsub y0 y1) (fsub x0 x1)) x) ((Y0 - Y1) / (X0 - X1) * V x) (224 * om)).
  { eapply near_mul with (A := 2) (B := W); [exact SL|apply near_exact; exact Fx|exact SB|exact Hx| |].
    - replace (220 * ka * W + 2 * 0 + 220 * ka * 0) with (220 * (ka * W)) by ring. rewrite KW. lra.
    - replace (220 * ka * W + 2 * 0 + 220 * ka * 0) with (220 * (ka * W)) by ring. rewrite KW.
      replace (u * (2 * W + 220 * om)) with (2 * (u * W) + 220 * (u * om)) by ring. rewrite G14. lra. }
  assert (MU : forall a b A B, near a A (17 * eps) -> near b B (17 * eps) -> Rabs A <= 2 * W -> Rabs B <= 4 * W -> near (fmul a b) (A * B) (112 * (eps * W))).
  { intros a b A B Na Nb HA HB. assert (EE : 0 <= eps * eps) by (apply Rmult_le_pos; lra). assert (EWp : 0 < eps * W) by (apply Rmult_lt_0_compat; lra).
    eapply near_mul with (A := 2 * W) (B := 4 * W); [exact Na|exact Nb|exact HA|exact HB| |].
    - assert (eps * W <= W * W) by (apply Rmult_le_compat_r; lra). lra.
    - replace (17 * eps * (4 * W) + 2 * W * (17 * eps) + 17 * eps * (17 * eps)) with (102 * (eps * W) + 289 * (eps * eps)) by ring.
      replace (u * (2 * W * (4 * W) + (102 * (eps * W) + 289 * (eps * eps)))) with (8 * ((u * W) * W) + 102 * ((u * eps) * W) + 289 * ((u * eps) * eps)) by ring. rewrite G14.
      assert (u * eps * W <= eps / 1024 * W) by (apply Rmult_le_compat_r; lra). assert (u * eps * eps <= eps / 1024 * eps) by (apply Rmult_le_compat_r; lra). lra. }
  assert (P1 := MU _ _ _ _ N0 M1 BX0 BY1). assert (P2 := MU _ _ _ _ N1 M0 BX1 BY0).
  assert (EWp : 0 < eps * W) by (apply Rmult_lt_0_compat; lra). assert (EWW : eps * W <= W * W) by (apply Rmult_le_compat_r; lra).
  assert (AB : forall A B, Rabs A <= 2 * W -> Rabs B <= 4 * W -> Rabs (A * B) <= 8 * (W * W)).
  { intros A B HA HB. rewrite Rabs_mult. replace (8 * (W * W)) with (2 * W * (4 * W)) by ring. apply Rmult_le_compat; auto; apply Rabs_pos. }
  assert (NN : near (fsub (fmul x0 y1) (fmul x1 y0)) (X0 * Y1 - X1 * Y0) (242 * (eps * W))).
  { eapply near_sub with (M := 16 * (W * W)); [exact P1|exact P2| |lra|].
    - pose proof (AB _ _ BX0 BY1) as Q1. pose proof (AB _ _ BX1 BY0) as Q2. apply Rabs_le_inv in Q1. apply Rabs_le_inv in Q2. apply Rabs_le. lra.
    - replace (u * (16 * (W * W) + 112 * (eps * W) + 112 * (eps * W))) with (16 * ((u * W) * W) + 224 * ((u * eps) * W)) by ring. rewrite G14.
      assert (u * eps * W <= eps / 1024 * W) by (apply Rmult_le_compat_r; lra). lra. }
  assert (NB : Rabs (X0 * Y1 - X1 * Y0) <= (8 * W) * s).
  { replace (X0 * Y1 - X1 * Y0) with ((X0 - X1) * Y0 - X0 * (Y0 - Y1)) by ring.
    assert (Q1 : Rabs ((X0 - X1) * Y0) <= s * (4 * W)) by (rewrite Rabs_mult, DX; apply Rmult_le_compat_l; lra).
    assert (Q2 : Rabs (X0 * (Y0 - Y1)) <= 2 * W * (2 * s)) by (rewrite Rabs_mult, DY; apply Rmult_le_compat; try apply Rabs_pos; lra).
    apply Rabs_le_inv in Q1. apply Rabs_le_inv in Q2. apply Rabs_le. lra. }
  assert (IC : near (fdiv (fsub (fmul x0 y1) (fmul x1 y0)) (fsub x0 x1)) ((X0 * Y1 - X1 * Y0) / (X0 - X1)) (1070 * om)).
  { eapply near_div with (K := 8 * W); [exact NN|exact DN|exact D0|rewrite DX; lra|rewrite DX; lra| |]; rewrite DX;
      replace (2 * (242 * (eps * W) + 8 * W * (36 * eps)) / s) with (1060 * om) by (unfold om; field; lra); [lra|].
    replace (u * (8 * W + 1060 * om)) with (8 * (u * W) + 1060 * (u * om)) by ring. rewrite G14. lra. }
  assert (SX : Rabs ((Y0 - Y1) / (X0 - X1) * V x) <= 2 * W) by (rewrite Rabs_mult; apply Rmult_le_compat; try apply Rabs_pos; lra).
  assert (CB : Rabs ((X0 * Y1 - X1 * Y0) / (X0 - X1)) <= 8 * W).
  { unfold Rdiv. rewrite Rabs_mult, Rabs_Rinv, DX by exact D0. apply Rmult_le_reg_r with s; [lra|]. rewrite Rmult_assoc, Rinv_l by lra. lra. }
  apply Rabs_le_inv in SX. apply Rabs_le_inv in CB.
  assert (LN : near (fadd (fmul (fdiv (fsub y0 y1) (fsub x0 x1)) x) (fdiv (fsub (fmul x0 y1) (fmul x1 y0)) (fsub x0 x1)))
      ((Y0 - Y1) / (X0 - X1) * V x + (X0 * Y1 - X1 * Y0) / (X0 - X1)) (1302 * om)).
  { eapply near_add with (M := 10 * W); [exact PR|exact IC|apply Rabs_le; lra|lra|].
    replace (u * (10 * W + 224 * om + 1070 * om)) with (10 * (u * W) + 1294 * (u * om)) by ring. rewrite G14. lra. }
  apply near_eq with (V y - ((Y0 - Y1) / (X0 - X1) * V x + (X0 * Y1 - X1 * Y0) / (X0 - X1))); [|field; exact D0].
  apply Rabs_le_inv in Hy. eapply near_sub with (M := 11 * W); [apply near_exact; exact Fy|exact LN|apply Rabs_le; lra|lra|].
  replace (u * (11 * W + 0 + 1302 * om)) with (11 * (u * W) + 1302 * (u * om)) by ring. rewrite G14. lra.
Qed.
End Line.

Section Grid.
Variables (cos6 lh : f64) (W : R).
Hypothesis Flh : fin lh.
Hypothesis Fcos : fin cos6.
Hypothesis Llo : bpow radix2 (-1000) <= V lh.
Hypothesis Lhi : V lh <= W.
Hypothesis Whi : W <= bpow radix2 1000.
Hypothesis Cos : / 2 <= V cos6 <= 1.
Let s : R := V lh / 2.
Hypothesis Ws : W <= bpow radix2 48 * s.
Let eps : R := u * W.
Let sh : f64 := fmul lh cos6.
Let S : R := V sh.

Lemma grid_facts : 0 < s /\ 2 * s <= W /\ 0 < eps /\ u * eps <= eps / 1024 /\ 16 * eps <= s /\ W * 1024 <= bpow radix2 1023 /\ tiny * W <= eps / 1024 /\ tiny <= eps /\ u * 1024 <= 1 /\ eps * 1024 <= W.
Proof.
  assert (P : 0 < V lh) by (pose proof (bpow_gt_0 radix2 (-1000)); lra).
  assert (W0 : 0 < W) by lra. pose proof u_ge as U.
  assert (U1 : u * 1024 <= 1). { unfold u. change 1024 with (bpow radix2 10). rewrite <- bpow_plus. change 1 with (bpow radix2 0). apply bpow_le. lia. }
  assert (E0 : 0 < eps) by (unfold eps; apply Rmult_lt_0_compat; lra).
  assert (T1 : tiny * 1024 <= u). { unfold tiny, u. change 1024 with (bpow radix2 10). rewrite <- bpow_plus. apply bpow_le. lia. }
  repeat split.
  - unfold s. lra.
  - unfold s. lra.
  - exact E0.
  - assert (u * 1024 * eps <= 1 * eps) by (apply Rmult_le_compat_r; lra). lra.
  - unfold eps. assert (u * W <= u * (bpow radix2 48 * s)) by (apply Rmult_le_compat_l; lra).
    assert (Q : 16 * (u * (bpow radix2 48 * s)) = (16 * u * bpow radix2 48) * s) by ring.
    assert (Q2 : 16 * u * bpow radix2 48 <= 1). { unfold u. change 16 with (bpow radix2 4). rewrite <- !bpow_plus. change 1 with (bpow radix2 0). apply bpow_le. lia. }
    assert (16 * u * bpow radix2 48 * s <= 1 * s) by (apply Rmult_le_compat_r; [unfold s; lra|exact Q2]). lra.
  - apply Rle_trans with (bpow radix2 1000 * bpow radix2 10).
    + change (bpow radix2 10) with 1024. apply Rmult_le_compat_r; lra.
    + rewrite <- bpow_plus. apply bpow_le. lia.
  - unfold eps. assert (tiny * 1024 * W <= u * W) by (apply Rmult_le_compat_r; lra). lra.
  - unfold eps. apply Rle_trans with (bpow radix2 (-53) * bpow radix2 (-1000)).
    + rewrite <- bpow_plus. unfold tiny. apply bpow_le. lia.
    + unfold u. apply Rmult_le_compat_l; [apply bpow_ge_0|lra].
  - exact U1.
  - unfold eps. assert (u * 1024 * W <= 1 * W) by (apply Rmult_le_compat_r; lra). lra.
Qed.

Lemma semi_ok : fin (fdiv lh f2) /\ V (fdiv lh f2) = s.
Proof.
  destruct (fint_ok 2) as [F2 V2]; [lia|]. pose proof grid_facts as G.
  destruct (fdiv_ok lh f2 Flh) as [A B].
  - unfold f2. rewrite V2. lra.
  - unfold f2. rewrite V2, Rabs_pos_eq by (unfold s in G; lra). unfold s in G. lra.
  - split; [exact A|]. rewrite B. unfold f2. rewrite V2. apply rnd_id.
    pose proof (V_float lh) as H. apply FLT_format_generic in H; auto with typeclass_instances. destruct H as [f F1 F3 F4].
    pose proof (bpow_gt_0 radix2 (-1000)) as P0.
    destruct (Z_lt_le_dec (-1074) (Fexp f)) as [L|L].
    + apply generic_format_FLT. exists (Float radix2 (Fnum f) (Fexp f - 1)); cbn [Fnum Fexp]; [|exact F3|lia].
      unfold s. rewrite F1. unfold F2R. cbn [Fnum Fexp]. unfold Z.sub. rewrite bpow_plus. change (bpow radix2 (-(1))) with (/ 2). lra.
    + exfalso. assert (E : Fexp f = (-1074)%Z) by lia. unfold F2R in F1. rewrite E in F1.
      assert (C : V lh <= bpow radix2 53 * bpow radix2 (-1074)).
      { rewrite F1. apply Rmult_le_compat_r; [apply bpow_ge_0|]. rewrite <- IZR_pow2 by lia. apply IZR_le. change (radix2 ^ 53)%Z with (2 ^ 53)%Z in F3. lia. }
      rewrite <- bpow_plus in C. assert (bpow radix2 (53 + -1074) < bpow radix2 (-1000)) by (apply bpow_lt; lia). lra.
Qed.
Lemma s_float : isfloat s.
Proof. destruct semi_ok as [_ <-]. apply V_float. Qed.
Lemma sh_ok : fin sh /\ s <= S <= 2 * s.
Proof.
  pose proof grid_facts as G. assert (P : 0 < V lh) by (unfold s in G; lra).
  assert (B : V lh * / 2 <= V lh * V cos6 <= V lh * 1) by (split; apply Rmult_le_compat_l; lra).
  destruct (fmul_ok lh cos6 Flh Fcos) as [A1 A2]; [rewrite Rabs_pos_eq; lra|]. split; [exact A1|]. unfold S, sh. rewrite A2. split.
  - rewrite <- (rnd_id s) by exact s_float. apply rnd_le. unfold s. lra.
  - replace (2 * s) with (V lh) by (unfold s; lra). rewrite <- (rnd_id (V lh)) at 2 by apply V_float. apply rnd_le. lra.
Qed.
Lemma sh2_ok : fin (fmul f2 sh) /\ V (fmul f2 sh) = 2 * S.
Proof.
  pose proof grid_facts as G. destruct sh_ok as [F R]. destruct (fint_ok 2) as [F2 V2]; [lia|].
  destruct (fmul_ok f2 sh F2 F) as [A1 A2].
  - unfold f2. rewrite V2. fold S. rewrite Rabs_pos_eq; lra.
  - split; [exact A1|]. rewrite A2. unfold f2. rewrite V2. fold S. apply rnd_id, float_double, V_float.
Qed.
Lemma len15_ok : near (fmul f1_5 lh) (3 * s) (u * (3 * s)).
Proof.
  pose proof grid_facts as G. assert (F : fin f1_5 /\ V f1_5 = 3 / 2).
  { destruct (fdyadic_ok 3 (-1)) as [A B].
    - change (bpow radix2 (-1)) with (/ 2). rewrite Rabs_pos_eq by lra. apply Rle_trans with (bpow radix2 1); [change (bpow radix2 1) with 2; lra|apply bpow_le; lia].
    - split; [exact A|]. unfold f1_5. rewrite B. rewrite rnd_id; [change (bpow radix2 (-1)) with (/ 2); lra|].
      apply generic_format_FLT. exists (Float radix2 3 (-1)); cbn [Fnum Fexp]; [reflexivity|cbn; lia|lia]. }
  destruct F as [F VF]. destruct (fmul_ok f1_5 lh F Flh) as [A B]; [rewrite VF, Rabs_pos_eq; unfold s in G; lra|].
  split; [exact A|]. rewrite B, VF. replace (3 / 2 * V lh) with (V lh + s) by (unfold s; lra).
  pose proof (rnd_plus_error (V lh) s (V_float lh) s_float) as R. replace (3 * s) with (V lh + s) by (unfold s; lra).
  rewrite (Rabs_pos_eq (V lh + s)) in R by (unfold s in *; lra). exact R.
Qed.
(** Rounded quotient by an approximate length. *)
Lemma quotient_ok : forall a b A t e, near a A e -> near b t (u * t) -> Rabs A <= 4 * W -> 0 <= e <= 8 * eps -> s <= t <= 4 * W ->
  fin (fdiv a b) /\ Rabs (V (fdiv a b) * t - A) <= e + 12 * eps /\ V (fdiv a b) = rnd (V a / V b) /\ Rabs (V (fdiv a b)) <= bpow radix2 51.
Proof.
  intros a b A t e [Fa Na] [Fb Nb] HA He Ht. pose proof grid_facts as G. pose proof u_ge as U. pose proof u_le as U8.
  assert (T0 : 0 < t) by lra. assert (Y : 7 / 8 * t <= V b). { apply Rabs_le_inv in Nb. assert (u * t <= / 8 * t) by (apply Rmult_le_compat_r; lra). lra. }
  assert (Y0 : 0 < / V b) by (apply Rinv_0_lt_compat; lra).
  assert (X : Rabs (V a) <= 5 * W). { apply Rabs_le_inv in Na. apply Rabs_le_inv in HA. apply Rabs_le. lra. }
  assert (X' : Rabs (V a) <= 4 * W + 8 * eps). { apply Rabs_le_inv in Na. apply Rabs_le_inv in HA. apply Rabs_le. lra. }
  assert (TY : t / V b <= 8 / 7). { apply Rmult_le_reg_r with (V b); [lra|]. unfold Rdiv at 1. rewrite Rmult_assoc, Rinv_l by lra. lra. }
  assert (Q : Rabs (V a / V b) <= bpow radix2 51).
  { unfold Rdiv. rewrite Rabs_mult, (Rabs_pos_eq (/ V b)) by lra. apply Rmult_le_reg_r with (V b); [lra|]. rewrite Rmult_assoc, Rinv_l, Rmult_1_r by lra.
    apply Rle_trans with (bpow radix2 51 * (7 / 8 * s)); [|apply Rmult_le_compat_l; [apply bpow_ge_0|lra]].
    replace (bpow radix2 51) with (8 * bpow radix2 48) by (change 8 with (bpow radix2 3); rewrite <- bpow_plus; reflexivity). lra. }
  destruct (fdiv_ok a b Fa) as [D1 D2]; [lra|apply Rle_trans with (1 := Q); apply bpow_le; lia|].
  split; [exact D1|]. split; [|split; [exact D2|rewrite D2; apply rnd_abs_le; [apply generic_format_bpow; unfold fexp64, FLT_exp; lia|exact Q]]].
  rewrite D2. pose proof (rnd_error (V a / V b)) as R. set (q := V a / V b) in *.
  assert (E1 : Rabs (rnd q * t - q * t) <= u * (8 / 7 * Rabs (V a)) + tiny * t).
  { replace (rnd q * t - q * t) with ((rnd q - q) * t) by ring. rewrite Rabs_mult, (Rabs_pos_eq t) by lra.
    apply Rle_trans with ((u * Rabs q + tiny) * t); [apply Rmult_le_compat_r; lra|]. rewrite Rmult_plus_distr_r. apply Rplus_le_compat_r.
    rewrite Rmult_assoc. apply Rmult_le_compat_l; [lra|]. unfold q, Rdiv. rewrite Rabs_mult, (Rabs_pos_eq (/ V b)) by lra.
    rewrite Rmult_assoc, (Rmult_comm (Rabs (V a))). apply Rmult_le_compat_r; [apply Rabs_pos|]. rewrite Rmult_comm. exact TY. }
  assert (E2 : Rabs (q * t - V a) <= u * (8 / 7 * Rabs (V a))).
  { replace (q * t - V a) with (V a * (t - V b) * / V b) by (unfold q; field; lra). rewrite !Rabs_mult, (Rabs_pos_eq (/ V b)) by lra.
    rewrite Rabs_minus_sym. apply Rle_trans with (Rabs (V a) * (u * t) * / V b).
    - apply Rmult_le_compat_r; [lra|]. apply Rmult_le_compat_l; [apply Rabs_pos|exact Nb].
    - replace (Rabs (V a) * (u * t) * / V b) with (u * ((t / V b) * Rabs (V a))) by (unfold Rdiv; ring).
      apply Rmult_le_compat_l; [lra|]. apply Rmult_le_compat_r; [apply Rabs_pos|exact TY]. }
  assert (E3 : u * (8 / 7 * Rabs (V a)) <= u * (8 / 7 * (4 * W + 8 * eps))) by (apply Rmult_le_compat_l; lra).
  assert (E4 : u * (8 / 7 * (4 * W + 8 * eps)) = 32 / 7 * eps + 64 / 7 * (u * eps)) by (unfold eps; field).
  assert (E5 : tiny * t <= tiny * (4 * W)) by (apply Rmult_le_compat_l; [apply Rlt_le, tiny_gt|lra]).
  apply Rabs_le_inv in E1. apply Rabs_le_inv in E2. apply Rabs_le_inv in Na. apply Rabs_le. lra.
Qed.
(** Differences of coordinates. *)
Lemma diff_ok : forall x m, fin x -> fin m -> Rabs (V x) <= W -> Rabs (V m) <= W -> near (fsub x m) (V x - V m) (2 * eps).
Proof.
  intros x m Fx Fm Hx Hm. pose proof grid_facts as G. apply Rabs_le_inv in Hx. apply Rabs_le_inv in Hm.
  apply near_sub with (e := 0) (f := 0) (M := 2 * W); try (apply near_exact; assumption).
  - apply Rabs_le. lra.
  - lra.
  - unfold eps. lra.
Qed.
Lemma diff_mono : forall x y m, fin x -> fin y -> fin m -> Rabs (V x) <= W -> Rabs (V y) <= W -> Rabs (V m) <= W -> V x <= V y -> V (fsub x m) <= V (fsub y m).
Proof.
  intros x y m Fx Fy Fm Hx Hy Hm L. pose proof grid_facts as G. apply Rabs_le_inv in Hx. apply Rabs_le_inv in Hy. apply Rabs_le_inv in Hm.
  destruct (fsub_ok x m Fx Fm) as [_ ->]; [apply Rabs_le; lra|]. destruct (fsub_ok y m Fy Fm) as [_ ->]; [apply Rabs_le; lra|]. apply rnd_le. lra.
Qed.
Lemma diff_pos : forall x m, fin x -> fin m -> Rabs (V x) <= W -> Rabs (V m) <= W -> V m <= V x -> 0 <= V (fsub x m).
Proof.
  intros x m Fx Fm Hx Hm L. pose proof grid_facts as G. apply Rabs_le_inv in Hx. apply Rabs_le_inv in Hm.
  destruct (fsub_ok x m Fx Fm) as [_ ->]; [apply Rabs_le; lra|]. apply rnd_nonneg. lra.
Qed.
(** The numerator of an even column's row. *)
Lemma up_ok : forall y m, fin y -> fin m -> Rabs (V y) <= W -> Rabs (V m) <= W -> near (fsub (fadd y sh) m) (V y + S - V m) (6 * eps).
Proof.
  intros y m Fy Fm Hy Hm. pose proof grid_facts as G. destruct sh_ok as [F R]. apply Rabs_le_inv in Hy. apply Rabs_le_inv in Hm.
  assert (A : near (fadd y sh) (V y + S) (2 * eps)).
  { apply near_add with (e := 0) (f := 0) (M := 2 * W); try (apply near_exact; assumption); [apply Rabs_le; lra|lra|unfold eps; lra]. }
  apply near_sub with (e := 2 * eps) (f := 0) (M := 3 * W); [exact A|apply near_exact; exact Fm|apply Rabs_le; lra|lra|].
  replace (u * (3 * W + 2 * eps + 0)) with (3 * eps + 2 * (u * eps)) by (unfold eps; ring). lra.
Qed.
Lemma up_sum : forall y, fin y -> Rabs (V y) <= W -> fin (fadd y sh) /\ V (fadd y sh) = rnd (V y + S) /\ V y <= V (fadd y sh) /\ Rabs (V (fadd y sh)) <= 3 * W.
Proof.
  intros y Fy Hy. pose proof grid_facts as G. destruct sh_ok as [F R]. apply Rabs_le_inv in Hy.
  destruct (fadd_ok y sh Fy F) as [A B]; [fold S; apply Rabs_le; lra|]. fold S in B. split; [exact A|]. split; [exact B|].
  assert (N : near (fadd y sh) (V y + S) (2 * eps)).
  { apply near_add with (e := 0) (f := 0) (M := 2 * W); try (apply near_exact; assumption); [apply Rabs_le; lra|lra|unfold eps; lra]. }
  split.
  - rewrite B. rewrite <- (rnd_id (V y)) at 1 by apply V_float. apply rnd_le. lra.
  - destruct N as [_ N]. apply Rabs_le_inv in N. apply Rabs_le. lra.
Qed.
Lemma up_mono : forall x y m, fin x -> fin y -> fin m -> Rabs (V x) <= W -> Rabs (V y) <= W -> Rabs (V m) <= W -> V x <= V y ->
  V (fsub (fadd x sh) m) <= V (fsub (fadd y sh) m).
Proof.
  intros x y m Fx Fy Fm Hx Hy Hm L. pose proof grid_facts as G. destruct (up_sum x Fx Hx) as (A1 & A2 & _ & A3). destruct (up_sum y Fy Hy) as (B1 & B2 & _ & B3).
  apply Rabs_le_inv in Hm. apply Rabs_le_inv in A3. apply Rabs_le_inv in B3.
  destruct (fsub_ok _ m A1 Fm) as [_ ->]; [apply Rabs_le; lra|]. destruct (fsub_ok _ m B1 Fm) as [_ ->]; [apply Rabs_le; lra|].
  apply rnd_le. rewrite A2, B2. assert (rnd (V x + S) <= rnd (V y + S)) by (apply rnd_le; lra). lra.
Qed.
Lemma up_pos : forall y m, fin y -> fin m -> Rabs (V y) <= W -> Rabs (V m) <= W -> V m <= V y -> 0 <= V (fsub (fadd y sh) m).
Proof.
  intros y m Fy Fm Hy Hm L. pose proof grid_facts as G. destruct (up_sum y Fy Hy) as (A1 & A2 & A4 & A3). apply Rabs_le_inv in Hm. apply Rabs_le_inv in A3.
  destruct (fsub_ok _ m A1 Fm) as [_ ->]; [apply Rabs_le; lra|]. apply rnd_nonneg. lra.
Qed.

(** The double column number of a point. *)
Lemma deg_ok : forall x m, fin x -> fin m -> Rabs (V x) <= W -> Rabs (V m) <= W -> V m <= V x ->
  py_floor (floordiv64 (fsub x m) (fdiv lh f2)) = Ok (Zfloor (V (fsub x m) / s)).
Proof.
  intros x m Fx Fm Hx Hm L. pose proof grid_facts as G. destruct semi_ok as [F VS]. destruct (diff_ok x m Fx Fm Hx Hm) as [D1 D2].
  pose proof (diff_pos x m Fx Fm Hx Hm L) as P. apply Rabs_le_inv in D2. apply Rabs_le_inv in Hx. apply Rabs_le_inv in Hm. rewrite <- VS.
  assert (B : V (fsub x m) <= 3 * W) by lra. apply floordiv64_ok; auto; rewrite ?VS.
  - split; [exact P|]. replace (bpow radix2 1023) with (2 * bpow radix2 1022) in G; [lra|]. change 2 with (bpow radix2 1). rewrite <- bpow_plus. reflexivity.
  - lra.
  - rewrite IZR_pow2 by lia. apply Rmult_lt_reg_r with s; [lra|]. unfold Rdiv. rewrite Rmult_assoc, Rinv_l, Rmult_1_r by lra.
    replace (bpow radix2 50) with (4 * bpow radix2 48) by (change 4 with (bpow radix2 2); rewrite <- bpow_plus; reflexivity). lra.
Qed.
(** Row numbers. *)
Lemma row_even_ok : forall y m, fin y -> fin m -> Rabs (V y) <= W -> Rabs (V m) <= W -> V m <= V y ->
  let q := fdiv (fsub (fadd y sh) m) (fmul f2 sh) in
  py_int q = Ok (Zfloor (V q)) /\ 0 <= V q <= bpow radix2 51 /\ Rabs (V q * (2 * S) - (V y + S - V m)) <= 18 * eps.
Proof.
  intros y m Fy Fm Hy Hm L q. pose proof grid_facts as G. destruct sh_ok as [F R]. destruct sh2_ok as [F2 V2].
  pose proof (up_ok y m Fy Fm Hy Hm) as N. pose proof (up_pos y m Fy Fm Hy Hm L) as P. apply Rabs_le_inv in Hy. apply Rabs_le_inv in Hm.
  assert (Nb : near (fmul f2 sh) (2 * S) (u * (2 * S))).
  { split; [exact F2|]. rewrite V2, Rminus_diag_eq, Rabs_R0 by reflexivity. pose proof u_ge. apply Rmult_le_pos; lra. }
  destruct (quotient_ok _ _ _ _ _ N Nb) as (Q1 & Q2 & Q3 & Q4); [apply Rabs_le; lra|lra|lra|]. fold q in Q1, Q2, Q3, Q4.
  assert (Q0 : 0 <= V q). { rewrite Q3. apply rnd_nonneg. apply Rmult_le_pos; [exact P|]. apply Rlt_le, Rinv_0_lt_compat. lra. }
  split; [|split; [apply Rabs_le_inv in Q4; lra|]].
  - rewrite (py_int_ok q Q1). rewrite Ztrunc_floor by exact Q0. reflexivity.
  - eapply Rle_trans; [exact Q2|]. lra.
Qed.
Lemma row_odd_ok : forall y m, fin y -> fin m -> Rabs (V y) <= W -> Rabs (V m) <= W -> V m <= V y ->
  let q := fdiv (fsub y m) (fmul f2 sh) in
  py_int q = Ok (Zfloor (V q)) /\ 0 <= V q <= bpow radix2 51 /\ Rabs (V q * (2 * S) - (V y - V m)) <= 18 * eps.
Proof.
  intros y m Fy Fm Hy Hm L q. pose proof grid_facts as G. destruct sh_ok as [F R]. destruct sh2_ok as [F2 V2].
  pose proof (diff_ok y m Fy Fm Hy Hm) as N. pose proof (diff_pos y m Fy Fm Hy Hm L) as P. apply Rabs_le_inv in Hy. apply Rabs_le_inv in Hm.
  assert (Nb : near (fmul f2 sh) (2 * S) (u * (2 * S))).
  { split; [exact F2|]. rewrite V2, Rminus_diag_eq, Rabs_R0 by reflexivity. pose proof u_ge. apply Rmult_le_pos; lra. }
  destruct (quotient_ok _ _ _ _ _ N Nb) as (Q1 & Q2 & Q3 & Q4); [apply Rabs_le; lra|lra|lra|]. fold q in Q1, Q2, Q3, Q4.
  assert (Q0 : 0 <= V q). { rewrite Q3. apply rnd_nonneg. apply Rmult_le_pos; [exact P|]. apply Rlt_le, Rinv_0_lt_compat. lra. }
  split; [|split; [apply Rabs_le_inv in Q4; lra|]].
  - rewrite (py_int_ok q Q1). rewrite Ztrunc_floor by exact Q0. reflexivity.
  - eapply Rle_trans; [exact Q2|]. lra.
Qed.
(** A higher point is not in a lower row. *)
Lemma quotient_mono : forall a a' b, fin a -> fin a' -> 0 < V b -> Rabs (V a / V b) <= bpow radix2 1023 -> Rabs (V a' / V b) <= bpow radix2 1023 ->
  V a <= V a' -> V (fdiv a b) <= V (fdiv a' b).
Proof.
  intros a a' b Fa Fa' B H H' L. destruct (fdiv_ok a b Fa) as [_ ->]; [lra|exact H|]. destruct (fdiv_ok a' b Fa') as [_ ->]; [lra|exact H'|].
  apply rnd_le. apply Rmult_le_compat_r; [apply Rlt_le, Rinv_0_lt_compat; lra|exact L].
Qed.

(** *** The points *)
Variable pts : list fpt.
Hypothesis NE : pts <> [].
Hypothesis Fpts : forall p, In p pts -> fin (fst p) /\ fin (snd p) /\ Rabs (V (fst p)) <= W /\ Rabs (V (snd p)) <= W.
Let xmin : f64 := fminimum (map fst pts).
Let xmax : f64 := fmaximum (map fst pts).
Let ymin : f64 := fminimum (map snd pts).
Let ymax : f64 := fmaximum (map snd pts).
Lemma box_ok : (fin xmin /\ Rabs (V xmin) <= W) /\ (fin xmax /\ Rabs (V xmax) <= W) /\ (fin ymin /\ Rabs (V ymin) <= W) /\ (fin ymax /\ Rabs (V ymax) <= W) /\
  (forall p, In p pts -> V xmin <= V (fst p) <= V xmax /\ V ymin <= V (snd p) <= V ymax) /\ V xmin <= V xmax /\ V ymin <= V ymax.
Proof.
  assert (NX : map fst pts <> []) by (intro H; apply map_eq_nil in H; contradiction).
  assert (NY : map snd pts <> []) by (intro H; apply map_eq_nil in H; contradiction).
  assert (FX : Forall fin (map fst pts)) by (apply Forall_forall; intros x H; apply in_map_iff in H; destruct H as (p & <- & Hp); apply (Fpts p Hp)).
  assert (FY : Forall fin (map snd pts)) by (apply Forall_forall; intros x H; apply in_map_iff in H; destruct H as (p & <- & Hp); apply (Fpts p Hp)).
  assert (GX : forall x, In x (map fst pts) -> fin x /\ Rabs (V x) <= W) by (intros x H; apply in_map_iff in H; destruct H as (p & <- & Hp); destruct (Fpts p Hp) as (A & B & C & D); auto).
  assert (GY : forall x, In x (map snd pts) -> fin x /\ Rabs (V x) <= W) by (intros x H; apply in_map_iff in H; destruct H as (p & <- & Hp); destruct (Fpts p Hp) as (A & B & C & D); auto).
  destruct (fminimum_ok _ NX FX) as [A1 A2]. destruct (fmaximum_ok _ NX FX) as [B1 B2].
  destruct (fminimum_ok _ NY FY) as [C1 C2]. destruct (fmaximum_ok _ NY FY) as [D1 D2].
  split; [apply GX; exact A1|]. split; [apply GX; exact B1|]. split; [apply GY; exact C1|]. split; [apply GY; exact D1|].
  split; [|split; [apply A2; exact B1|apply C2; exact D1]].
  intros p Hp. pose proof (in_map fst pts p Hp) as IX. pose proof (in_map snd pts p Hp) as IY.
  split; split; [apply A2|apply B2|apply C2|apply D2]; assumption.
Qed.

(** Column and row of a point, whatever side of the slanted edge it is found on. *)
Definition q_even (p : fpt) : f64 := fdiv (fsub (fadd (snd p) sh) ymin) (fmul f2 sh).
Definition q_odd (p : fpt) : f64 := fdiv (fsub (snd p) ymin) (fmul f2 sh).
Definition deg_of (p : fpt) : Z := Zfloor (V (fsub (fst p) xmin) / s).
Definition row_of (p : fpt) (c : Z) : Z := if (c mod 2 =? 0)%Z then Zfloor (V (q_even p)) else Zfloor (V (q_odd p)).
Definition cen_x (c : Z) : f64 := fadd (fmul (fmul (fint c) (fdiv lh f2)) f3) xmin.
Definition cen_y (p : fpt) (c : Z) : f64 :=
  if (c mod 2 =? 0)%Z then fadd (fmul (fmul (fint (row_of p c)) f2) sh) ymin
  else fadd (fmul (fadd (fmul (fint (row_of p c)) f2) (fint 1)) sh) ymin.
Lemma cell_ok : forall p cols even odd, In p pts -> let h := mkhex64 pts xmin ymin lh sh cols even odd in
  hex64_cell h p = Ok (
    if (deg_of p mod 3 =? 1)%Z then
      let c := (deg_of p / 3)%Z in
      if fle (indicator64 h p (cen_x c) (cen_y p c)) (fint 0) then (c + 1, row_of p (c + 1))%Z else (c, row_of p c)
    else let c := ((deg_of p + 1) / 3)%Z in (c, row_of p c)).
Proof.
  intros p cols even odd Hp h. destruct box_ok as ([BX1 BX2] & _ & [BY1 BY2] & _ & BB & _). destruct (Fpts p Hp) as (F1 & F2 & A1 & A2). destruct (BB p Hp) as [[L1 _] [L2 _]].
  pose proof (deg_ok (fst p) xmin F1 BX1 A1 BX2 L1) as D. destruct (row_even_ok (snd p) ymin F2 BY1 A2 BY2 L2) as [E _]. destruct (row_odd_ok (snd p) ymin F2 BY1 A2 BY2 L2) as [O _].
  unfold hex64_cell. cbn [h h6_l h6_sh h6_xmin h6_ymin]. rewrite E, O, D. cbn [bind].
  fold (q_even p). fold (q_odd p). fold (deg_of p). fold (row_of p ((deg_of p + 1) / 3)). fold (row_of p (deg_of p / 3)). fold (row_of p (deg_of p / 3 + 1)).
  destruct (deg_of p mod 3 =? 1)%Z; cbn [negb]; [|reflexivity]. unfold cen_x, cen_y. cbv zeta.
  destruct (fle _ (fint 0)); reflexivity.
Qed.

(** *** Where a point is counted *)
Lemma init_total : exists cols even odd, hex64_init cos6 pts lh = Ok (mkhex64 pts xmin ymin lh sh cols even odd).
Proof.
  pose proof grid_facts as G. destruct box_ok as ([A1 A2] & [B1 B2] & [C1 C2] & [D1 D2] & _ & L1 & L2). destruct semi_ok as [SF SV]. destruct sh_ok as [HF HR]. destruct sh2_ok as [H2F H2V].
  pose proof (diff_ok xmax xmin B1 A1 B2 A2) as NX. pose proof (diff_ok ymax ymin D1 C1 D2 C2) as NY. apply Rabs_le_inv in A2, B2, C2, D2.
  assert (NZ : forall T (x y : T), match pts with [] => x | _ => y end = y) by (intros; destruct pts; [contradiction|reflexivity]).
  unfold hex64_init. rewrite NZ. cbv zeta. fold xmin xmax ymin ymax sh.
  assert (X2 : exists k, py_ceil (fdiv (fsub (fsub xmax xmin) (fdiv lh f2)) (fmul f1_5 lh)) = Ok k).
  { assert (N : near (fsub (fsub xmax xmin) (fdiv lh f2)) (V xmax - V xmin - s) (5 * eps)).
    { apply near_eq with (V xmax - V xmin - V (fdiv lh f2)); [|rewrite SV; lra].
      apply near_sub with (e := 2 * eps) (f := 0) (M := 2 * W); [exact NX|apply near_exact; exact SF|rewrite SV; apply Rabs_le; lra|lra|].
      replace (u * (2 * W + 2 * eps + 0)) with (2 * eps + 2 * (u * eps)) by (unfold eps; ring). lra. }
    destruct (quotient_ok _ _ _ _ _ N len15_ok) as (Q1 & Q2 & _ & _); [apply Rabs_le; lra|lra|lra|].
    rewrite (py_ceil_ok _ Q1). eauto. }
  assert (Nb : near (fmul f2 sh) (2 * S) (u * (2 * S))).
  { split; [exact H2F|]. rewrite H2V, Rminus_diag_eq, Rabs_R0 by reflexivity. pose proof u_ge. apply Rmult_le_pos; lra. }
  assert (Y2 : exists k, py_ceil (fdiv (fsub (fsub ymax ymin) sh) (fmul f2 sh)) = Ok k).
  { assert (N : near (fsub (fsub ymax ymin) sh) (V ymax - V ymin - S) (5 * eps)).
    { apply near_sub with (e := 2 * eps) (f := 0) (M := 2 * W); [exact NY|apply near_exact; exact HF|apply Rabs_le; lra|lra|].
      replace (u * (2 * W + 2 * eps + 0)) with (2 * eps + 2 * (u * eps)) by (unfold eps; ring). lra. }
    destruct (quotient_ok _ _ _ _ _ N Nb) as (Q1 & Q2 & _ & _); [apply Rabs_le; lra|lra|lra|].
    rewrite (py_ceil_ok _ Q1). eauto. }
  assert (Y3 : exists k, py_ceil (fdiv (fsub ymax ymin) (fmul f2 sh)) = Ok k).
  { destruct (quotient_ok _ _ _ _ _ NY Nb) as (Q1 & Q2 & _ & _); [apply Rabs_le; lra|lra|lra|]. rewrite (py_ceil_ok _ Q1). eauto. }
  destruct X2 as [k1 ->]. destruct Y2 as [k2 ->]. destruct Y3 as [k3 ->]. cbn [bind].
  destruct (flt (fdiv lh f2) (fsub xmax xmin)); destruct (flt sh (fsub ymax ymin)); cbn [bind]; eauto.
Qed.

(** Offsets of a point from the corner of the bounding box. *)
Lemma band_x : forall p, In p pts -> (0 <= deg_of p)%Z /\ IZR (deg_of p) * s - 2 * eps <= V (fst p) - V xmin <= (IZR (deg_of p) + 1) * s + 2 * eps.
Proof.
  intros p Hp. pose proof grid_facts as G. destruct (Fpts p Hp) as (F1 & F2 & A1 & A2). destruct box_ok as ([BX1 BX2] & _ & _ & _ & BB & _). destruct (BB p Hp) as [[L1 L2] _].
  pose proof (diff_pos (fst p) xmin F1 BX1 A1 BX2 L1) as P. destruct (diff_ok (fst p) xmin F1 BX1 A1 BX2) as [_ N]. apply Rabs_le_inv in N.
  set (d := V (fsub (fst p) xmin)) in *. unfold deg_of. fold d. split; [apply Zfloor_lub; apply Rmult_le_pos; [lra|apply Rlt_le, Rinv_0_lt_compat; lra]|].
  pose proof (Zfloor_lb (d / s)) as Z1. pose proof (Zfloor_ub (d / s)) as Z2.
  assert (M1 : IZR (Zfloor (d / s)) * s <= d). { replace d with (d / s * s) at 2 by (field; lra). apply Rmult_le_compat_r; lra. }
  assert (M2 : d < (IZR (Zfloor (d / s)) + 1) * s). { replace d with (d / s * s) at 1 by (field; lra). apply Rmult_lt_compat_r; lra. }
  lra.
Qed.
Definition par (c : Z) : Z := (c mod 2)%Z.
Lemma band_y : forall p c, In p pts -> (0 <= row_of p c <= 2 ^ 51)%Z /\
  Rabs (V (snd p) - (V ymin + IZR (2 * row_of p c + par c) * S)) <= S + 18 * eps.
Proof.
  intros p c Hp. pose proof grid_facts as G. destruct (Fpts p Hp) as (F1 & F2 & A1 & A2). destruct box_ok as (_ & _ & [BY1 BY2] & _ & BB & _). destruct (BB p Hp) as [_ [L1 L2]]. destruct sh_ok as [HF HR].
  destruct (row_even_ok (snd p) ymin F2 BY1 A2 BY2 L1) as (_ & E1 & E2). destruct (row_odd_ok (snd p) ymin F2 BY1 A2 BY2 L1) as (_ & O1 & O2).
  fold (q_even p) in E1, E2. fold (q_odd p) in O1, O2.
  assert (B51 : forall q, 0 <= q <= bpow radix2 51 -> (0 <= Zfloor q <= 2 ^ 51)%Z).
  { intros q [Q0 Q1]. split; [apply Zfloor_lub; exact Q0|]. apply le_IZR. rewrite IZR_pow2 by lia. pose proof (Zfloor_lb q). lra. }
  assert (P : par c = 0%Z \/ par c = 1%Z) by (unfold par; pose proof (Z.mod_pos_bound c 2); lia).
  unfold row_of. fold (par c). destruct P as [->| ->].
  - rewrite Z.eqb_refl. split; [apply B51; exact E1|]. rewrite Z.add_0_r, mult_IZR. apply Rabs_le_inv in E2.
    pose proof (Zfloor_lb (V (q_even p))) as Z1. pose proof (Zfloor_ub (V (q_even p))) as Z2.
    assert (M1 : IZR (Zfloor (V (q_even p))) * (2 * S) <= V (q_even p) * (2 * S)) by (apply Rmult_le_compat_r; lra).
    assert (M2 : V (q_even p) * (2 * S) <= (IZR (Zfloor (V (q_even p))) + 1) * (2 * S)) by (apply Rmult_le_compat_r; lra).
    apply Rabs_le. lra.
  - change (1 =? 0)%Z with false. cbv iota. split; [apply B51; exact O1|]. rewrite plus_IZR, mult_IZR. apply Rabs_le_inv in O2.
    pose proof (Zfloor_lb (V (q_odd p))) as Z1. pose proof (Zfloor_ub (V (q_odd p))) as Z2.
    assert (M1 : IZR (Zfloor (V (q_odd p))) * (2 * S) <= V (q_odd p) * (2 * S)) by (apply Rmult_le_compat_r; lra).
    assert (M2 : V (q_odd p) * (2 * S) <= (IZR (Zfloor (V (q_odd p))) + 1) * (2 * S)) by (apply Rmult_le_compat_r; lra).
    apply Rabs_le. lra.
Qed.

(** The computed centre of a hexagon near a point. *)
Lemma cen_x_ok : forall p c, In p pts -> (0 <= c)%Z -> (3 * c <= deg_of p)%Z -> near (cen_x c) (V xmin + IZR (3 * c) * s) (14 * eps).
Proof.
  intros p c Hp C0 C1. pose proof grid_facts as G. destruct (band_x p Hp) as [D0 [D1 _]]. destruct box_ok as ([BX1 BX2] & _ & _ & _ & BB & _). destruct (Fpts p Hp) as (F1 & F2 & A1 & A2).
  destruct semi_ok as [SF SV]. apply IZR_le in C1. assert (M : IZR (3 * c) * s <= IZR (deg_of p) * s) by (apply Rmult_le_compat_r; lra).
  apply Rabs_le_inv in A1. apply Rabs_le_inv in BX2. rewrite mult_IZR in *. apply IZR_le in C0. assert (C3 : 0 <= IZR c * s) by (apply Rmult_le_pos; lra).
  assert (CB : (Z.abs c <= 2 ^ 53)%Z).
  { apply le_IZR in C0. rewrite Z.abs_eq by exact C0. apply le_IZR. rewrite IZR_pow2 by lia. apply Rmult_le_reg_r with s; [lra|].
    apply Rle_trans with W; [lra|]. apply Rle_trans with (1 := Ws). apply Rmult_le_compat_r; [lra|]. apply bpow_le. lia. }
  destruct (fint_ok c CB) as [FC VC]. destruct (fint_ok 3) as [F3 V3]; [lia|].
  assert (N1 : near (fmul (fint c) (fdiv lh f2)) (IZR c * s) (2 * eps)).
  { apply near_eq with (V (fint c) * V (fdiv lh f2)); [|rewrite VC, SV; reflexivity].
    eapply near_mul with (A := IZR c) (B := s); [apply near_exact; exact FC|apply near_exact; exact SF|rewrite VC, Rabs_pos_eq; lra|rewrite SV, Rabs_pos_eq; lra| |].
    - replace (IZR c * s + (0 * s + IZR c * 0 + 0 * 0)) with (IZR c * s) by ring. lra.
    - replace (IZR c * s + (0 * s + IZR c * 0 + 0 * 0)) with (IZR c * s) by ring. pose proof u_ge.
      assert (u * (IZR c * s) <= u * W) by (apply Rmult_le_compat_l; lra). fold eps in H0. lra. }
  assert (N2 : near (fmul (fmul (fint c) (fdiv lh f2)) f3) (3 * IZR c * s) (11 * eps)).
  { apply near_eq with (IZR c * s * V f3); [|unfold f3; rewrite V3; ring].
    eapply near_mul with (A := W) (B := 3); [exact N1|apply near_exact; exact F3|apply Rabs_le; lra|unfold f3; rewrite V3, Rabs_pos_eq; lra|lra|].
    replace (u * (W * 3 + (2 * eps * 3 + W * 0 + 2 * eps * 0))) with (3 * eps + 6 * (u * eps)) by (unfold eps; ring). lra. }
  unfold cen_x. apply near_eq with (3 * IZR c * s + V xmin); [|ring].
  eapply near_add with (M := 2 * W); [exact N2|apply near_exact; exact BX1|apply Rabs_le; lra|lra|].
  replace (u * (2 * W + 11 * eps + 0)) with (2 * eps + 11 * (u * eps)) by (unfold eps; ring). lra.
Qed.
Lemma cen_y_ok : forall p c, In p pts -> near (cen_y p c) (V ymin + IZR (2 * row_of p c + par c) * S) (9 * eps).
Proof.
  intros p c Hp. pose proof grid_facts as G. destruct (band_y p c Hp) as [R0 B]. destruct box_ok as (_ & _ & [BY1 BY2] & _ & BB & _). destruct (Fpts p Hp) as (F1 & F2 & A1 & A2). destruct (BB p Hp) as [_ [L1 L2]].
  destruct sh_ok as [HF HR]. apply Rabs_le_inv in A2. apply Rabs_le_inv in BY2. apply Rabs_le_inv in B.
  assert (P : par c = 0%Z \/ par c = 1%Z) by (unfold par; pose proof (Z.mod_pos_bound c 2); lia).
  destruct (fint_ok (row_of p c)) as [FR VR]; [lia|]. destruct (fint_ok 2) as [FT VT]; [lia|]. destruct (fint_ok 1) as [FO VO]; [lia|].
  assert (B53 : forall z, (0 <= z <= 2 ^ 53)%Z -> Rabs (IZR z) <= bpow radix2 1023).
  { intros z Hz. rewrite Rabs_pos_eq by (apply IZR_le; lia). apply Rle_trans with (bpow radix2 53); [|apply bpow_le; lia]. rewrite <- IZR_pow2 by lia. apply IZR_le. lia. }
  assert (K2 : fin (fmul (fint (row_of p c)) f2) /\ V (fmul (fint (row_of p c)) f2) = IZR (2 * row_of p c)).
  { destruct (fmul_ok (fint (row_of p c)) f2 FR FT) as [X1 X2].
    - unfold f2. rewrite VR, VT, <- mult_IZR. apply B53. lia.
    - split; [exact X1|]. rewrite X2. unfold f2. rewrite VR, VT, <- mult_IZR, Z.mul_comm. apply rnd_id, float_int. lia. }
  destruct K2 as [K2 K3].
  assert (K4 : fin (fadd (fmul (fint (row_of p c)) f2) (fint 1)) /\ V (fadd (fmul (fint (row_of p c)) f2) (fint 1)) = IZR (2 * row_of p c + 1)).
  { destruct (fadd_ok (fmul (fint (row_of p c)) f2) (fint 1) K2 FO) as [X1 X2].
    - rewrite K3, VO, <- plus_IZR. apply B53. lia.
    - split; [exact X1|]. rewrite X2, K3, VO, <- plus_IZR. apply rnd_id, float_int. lia. }
  destruct K4 as [K4 K5].
  assert (GEN : forall k f, fin f -> V f = IZR k -> (0 <= k)%Z -> IZR k * S <= 4 * W -> Rabs (V ymin + IZR k * S) <= 3 * W -> near (fadd (fmul f sh) ymin) (V ymin + IZR k * S) (9 * eps)).
  { intros k f Ff Vf K0 KB KC. apply IZR_le in K0. assert (KP : 0 <= IZR k * S) by (apply Rmult_le_pos; lra).
    assert (N : near (fmul f sh) (IZR k * S) (5 * eps)).
    { apply near_eq with (V f * S); [|rewrite Vf; reflexivity].
      eapply near_mul with (A := IZR k) (B := S); [apply near_exact; exact Ff|apply near_exact; exact HF|rewrite Vf, Rabs_pos_eq; lra|rewrite Rabs_pos_eq; lra| |].
      - replace (IZR k * S + (0 * S + IZR k * 0 + 0 * 0)) with (IZR k * S) by ring. lra.
      - replace (IZR k * S + (0 * S + IZR k * 0 + 0 * 0)) with (IZR k * S) by ring. pose proof u_ge.
        assert (u * (IZR k * S) <= u * (4 * W)) by (apply Rmult_le_compat_l; lra). replace (u * (4 * W)) with (4 * eps) in H0 by (unfold eps; ring). lra. }
    apply near_eq with (IZR k * S + V ymin); [|ring].
    eapply near_add with (M := 3 * W); [exact N|apply near_exact; exact BY1|rewrite Rplus_comm; exact KC|lra|].
    replace (u * (3 * W + 5 * eps + 0)) with (3 * eps + 5 * (u * eps)) by (unfold eps; ring). lra. }
  unfold cen_y. fold (par c). destruct P as [E|E]; rewrite E in *.
  - rewrite Z.eqb_refl, Z.add_0_r in *. apply GEN; auto; [lia|lra|apply Rabs_le; lra].
  - change (1 =? 0)%Z with false. cbv iota. apply GEN; auto; [lia|lra|apply Rabs_le; lra].
Qed.
Hypothesis Lpos : bpow radix2 (-400) <= V lh.
Hypothesis Wpos : W <= bpow radix2 400.
Hypothesis Wsmall : W <= bpow radix2 36 * s.
Let om : R := eps * W / s.
Lemma indicator_ok : forall p c cols even odd, In p pts -> (0 <= c)%Z -> deg_of p = (3 * c + 1)%Z ->
  near (indicator64 (mkhex64 pts xmin ymin lh sh cols even odd) p (cen_x c) (cen_y p c))
       (S / s * (2 * s - (V (fst p) - (V xmin + IZR (3 * c) * s))) - Rabs (V (snd p) - (V ymin + IZR (2 * row_of p c + par c) * S))) (2000 * om).
Proof.
  intros p c cols even odd Hp C0 CD. pose proof grid_facts as G. destruct sh_ok as [HF HR]. destruct semi_ok as [SF SV].
  assert (H1 : bpow radix2 (-400) <= W <= bpow radix2 400) by lra. assert (H2 : 0 < s /\ 2 * s <= W /\ W <= bpow radix2 36 * s) by lra.
  destruct (line_facts W s H1 H2) as (G1 & G2 & G3 & G4 & G5 & G6 & G7 & G8 & G9 & G10 & G11 & G12 & G13 & G14 & G15 & G16 & G17 & G18 & G19).
  fold eps in G1, G2, G3, G4, G5, G6, G7, G8, G9, G10, G14, G15, G16, G18, G19. fold om in G2, G3, G9, G10, G15.
  destruct (Fpts p Hp) as (F1 & F2 & A1 & A2). destruct (band_x p Hp) as [D0 DB]. destruct (band_y p c Hp) as [R0 B]. destruct box_ok as ([BX1 BX2] & _ & [BY1 BY2] & _ & BB & _). destruct (BB p Hp) as [[LX _] [LY _]].
  assert (NX := cen_x_ok p c Hp C0 ltac:(lia)). assert (NY := cen_y_ok p c Hp).
  set (X := V xmin + IZR (3 * c) * s) in *. set (Y := V ymin + IZR (2 * row_of p c + par c) * S) in *.
  rewrite CD, plus_IZR in DB. assert (XB : Rabs X <= W).
  { assert (0 <= IZR (3 * c) * s) by (apply Rmult_le_pos; [apply IZR_le; lia|lra]). apply Rabs_le_inv in A1. apply Rabs_le_inv in BX2. apply Rabs_le. unfold X. lra. }
  assert (YB : Rabs Y <= 5 / 2 * W). { apply Rabs_le_inv in A2. apply Rabs_le_inv in B. apply Rabs_le. lra. }
  apply Rabs_le_inv in XB. apply Rabs_le_inv in YB.
  assert (NL : near (fadd (cen_x c) lh) (X + 2 * s) (17 * eps)).
  { apply near_eq with (X + V lh); [|unfold s; lra]. eapply near_add with (M := 2 * W); [exact NX|apply near_exact; exact Flh|apply Rabs_le; unfold s in *; lra|lra|].
    replace (u * (2 * W + 14 * eps + 0)) with (2 * eps + 14 * (u * eps)) by (unfold eps; ring). lra. }
  assert (NS : near (fadd (cen_x c) (fdiv lh f2)) (X + s) (17 * eps)).
  { apply near_eq with (X + V (fdiv lh f2)); [|rewrite SV; reflexivity]. eapply near_add with (M := 2 * W); [exact NX|apply near_exact; exact SF|rewrite SV; apply Rabs_le; lra|lra|].
    replace (u * (2 * W + 14 * eps + 0)) with (2 * eps + 14 * (u * eps)) by (unfold eps; ring). lra. }
  assert (NU : near (fadd (cen_y p c) sh) (Y + S) (17 * eps)).
  { eapply near_add with (M := 4 * W); [exact NY|apply near_exact; exact HF|fold S; apply Rabs_le; lra|lra|].
    replace (u * (4 * W + 9 * eps + 0)) with (4 * eps + 9 * (u * eps)) by (unfold eps; ring). lra. }
  assert (ND : near (fsub (cen_y p c) sh) (Y - S) (17 * eps)).
  { eapply near_sub with (M := 4 * W); [exact NY|apply near_exact; exact HF|fold S; apply Rabs_le; lra|lra|].
    replace (u * (4 * W + 9 * eps + 0)) with (4 * eps + 9 * (u * eps)) by (unfold eps; ring). lra. }
  assert (NC : near (cen_y p c) Y (17 * eps)) by (eapply near_weak; [exact NY|lra]).
  unfold indicator64. cbv zeta. cbn [h6_l h6_sh].
  assert (A2' := A2). apply Rabs_le_inv in A2'. assert (NY' := NY). destruct NY' as [FY NY']. apply Rabs_le_inv in NY'.
  destruct (flt (cen_y p c) (snd p)) eqn:C.
  - apply flt_ok in C; auto.
    assert (L := line_ok W s S H1 H2 HR (fst p) (snd p) _ _ _ _ _ _ _ _ F1 F2 A1 A2 NL NS NC NU).
    specialize (L ltac:(apply Rabs_le; lra) ltac:(apply Rabs_le; lra) ltac:(apply Rabs_le; lra) ltac:(apply Rabs_le; lra)).
    specialize (L ltac:(replace (X + 2 * s - (X + s)) with s by ring; apply Rabs_pos_eq; lra) ltac:(replace (Y - (Y + S)) with (- S) by ring; rewrite Rabs_Ropp; apply Rabs_pos_eq; lra)).
    fold eps in L. fold om in L. apply near_opp in L. destruct L as [L1 L2]. split; [exact L1|].
    replace (- (V (snd p) - (Y + (Y - (Y + S)) / (X + 2 * s - (X + s)) * (V (fst p) - (X + 2 * s))))) with (S / s * (2 * s - (V (fst p) - X)) - (V (snd p) - Y)) in L2 by (field; lra).
    apply Rabs_le_inv in L2. apply Rabs_le.
    destruct (Rle_lt_dec 0 (V (snd p) - Y)); [rewrite (Rabs_pos_eq (V (snd p) - Y)) by lra|rewrite (Rabs_left1 (V (snd p) - Y)) by lra]; lra.
  - apply flt_false in C; auto.
    assert (L := line_ok W s S H1 H2 HR (fst p) (snd p) _ _ _ _ _ _ _ _ F1 F2 A1 A2 NS NL ND NC).
    specialize (L ltac:(apply Rabs_le; lra) ltac:(apply Rabs_le; lra) ltac:(apply Rabs_le; lra) ltac:(apply Rabs_le; lra)).
    specialize (L ltac:(replace (X + s - (X + 2 * s)) with (- s) by ring; rewrite Rabs_Ropp; apply Rabs_pos_eq; lra) ltac:(replace (Y - S - Y) with (- S) by ring; rewrite Rabs_Ropp; apply Rabs_pos_eq; lra)).
    fold eps in L. fold om in L. destruct L as [L1 L2]. split; [exact L1|].
    replace (V (snd p) - (Y - S + (Y - S - Y) / (X + s - (X + 2 * s)) * (V (fst p) - (X + s)))) with (S / s * (2 * s - (V (fst p) - X)) + (V (snd p) - Y)) in L2 by (field; lra).
    apply Rabs_le_inv in L2. apply Rabs_le.
    destruct (Rle_lt_dec 0 (V (snd p) - Y)); [rewrite (Rabs_pos_eq (V (snd p) - Y)) by lra|rewrite (Rabs_left1 (V (snd p) - Y)) by lra]; lra.
Qed.

(** A point is counted in a hexagon that contains it up to [4096 om]. *)
Lemma placed : forall p cols even odd, In p pts -> exists c r,
  hex64_cell (mkhex64 pts xmin ymin lh sh cols even odd) p = Ok (c, r) /\ (0 <= c)%Z /\ (0 <= r)%Z /\
  Rabs (V (snd p) - (V ymin + IZR (2 * r + c mod 2) * S)) <= S + 4096 * om /\
  S / s * Rabs (V (fst p) - (V xmin + IZR (3 * c) * s)) + Rabs (V (snd p) - (V ymin + IZR (2 * r + c mod 2) * S)) <= 2 * S + 4096 * om.
Proof.
  intros p cols even odd Hp. pose proof grid_facts as G. destruct sh_ok as [HF HR].
  assert (H1 : bpow radix2 (-400) <= W <= bpow radix2 400) by lra. assert (H2 : 0 < s /\ 2 * s <= W /\ W <= bpow radix2 36 * s) by lra.
  destruct (line_facts W s H1 H2) as (G1 & G2 & G3 & G4 & G5 & G6 & G7 & G8 & G9 & G10 & G11 & G12 & G13 & G14 & G15 & G16 & G17 & G18 & G19).
  fold eps in G1, G2, G3, G4, G5, G6, G7, G8, G9, G10, G14, G15, G16, G18, G19. fold om in G2, G3, G9, G10, G15.
  assert (SS : 1 <= S / s <= 2).
  { split; apply Rmult_le_reg_r with s; try lra; unfold Rdiv; rewrite Rmult_assoc, Rinv_l by lra; lra. }
  assert (SSs : S / s * s = S) by (field; lra).
  destruct (band_x p Hp) as [D0 DB]. rewrite (cell_ok p cols even odd Hp). set (d := deg_of p) in *. pose proof (Z.mod_pos_bound d 3 eq_refl) as MB. pose proof (Z.div_mod d 3 ltac:(lia)) as DM.
  destruct (d mod 3 =? 1)%Z eqn:C3.
  - apply Z.eqb_eq in C3. set (c := (d / 3)%Z) in *. assert (C0 : (0 <= c)%Z) by (apply Z.div_pos; lia). assert (CD : d = (3 * c + 1)%Z) by lia.
    assert (I := indicator_ok p c cols even odd Hp C0 CD). destruct (band_y p c Hp) as [R0 B]. destruct (band_y p (c + 1) Hp) as [R1 B1].
    rewrite CD, plus_IZR in DB. set (X := V xmin + IZR (3 * c) * s) in *. set (Y := V ymin + IZR (2 * row_of p c + par c) * S) in *. set (Y' := V ymin + IZR (2 * row_of p (c + 1) + par (c + 1)) * S) in *.
    assert (DX : s - 2 * eps <= V (fst p) - X <= 2 * s + 2 * eps) by (unfold X; lra).
    assert (M1 : S / s * (2 * s - (V (fst p) - X)) = 2 * S - S / s * (V (fst p) - X)) by (field; lra).
    destruct I as [IF IV]. rewrite M1 in IV. apply Rabs_le_inv in IV. destruct (fint_ok 0) as [F0 V0]; [lia|].
    cbv zeta. match goal with |- context [fle ?a (fint 0)] => destruct (fle a (fint 0)) eqn:FL end.
    + apply fle_ok in FL; auto. rewrite V0 in FL. exists (c + 1)%Z, (row_of p (c + 1)). split; [reflexivity|]. split; [lia|]. split; [lia|].
      fold (par (c + 1)). fold Y'. split; [lra|].
      replace (V xmin + IZR (3 * (c + 1)) * s) with (X + 3 * s) by (unfold X; rewrite !mult_IZR, plus_IZR; ring).
      rewrite Rabs_left1 by lra.
      assert (M2 : S / s * - (V (fst p) - (X + 3 * s)) = 3 * S - S / s * (V (fst p) - X)) by (field; lra). rewrite M2.
      assert (PP : (par c = 0 /\ par (c + 1) = 1 \/ par c = 1 /\ par (c + 1) = 0)%Z).
      { unfold par. rewrite <- Z.add_mod_idemp_l by lia. pose proof (Z.mod_pos_bound c 2 eq_refl). assert (c mod 2 = 0 \/ c mod 2 = 1)%Z as [-> | ->] by lia; [left|right]; split; reflexivity. }
      set (k := ((2 * row_of p (c + 1) + par (c + 1)) - (2 * row_of p c + par c))%Z).
      assert (YY : Y' = Y + IZR k * S) by (unfold Y, Y', k; rewrite minus_IZR; ring).
      assert (KO : (k = 1 \/ k = -1)%Z).
      { assert (OD : (k mod 2 = 1)%Z).
        { unfold k. destruct PP as [[-> ->]|[-> ->]].
          - replace (2 * row_of p (c + 1) + 1 - (2 * row_of p c + 0))%Z with (1 + (row_of p (c + 1) - row_of p c) * 2)%Z by ring. rewrite Z.mod_add by lia. reflexivity.
          - replace (2 * row_of p (c + 1) + 0 - (2 * row_of p c + 1))%Z with (1 + (row_of p (c + 1) - row_of p c - 1) * 2)%Z by ring. rewrite Z.mod_add by lia. reflexivity. }
        assert (KB : (-3 < k < 3)%Z).
        { apply Rabs_le_inv in B. apply Rabs_le_inv in B1. rewrite YY in B1. split; apply lt_IZR; apply Rmult_lt_reg_r with S; lra. }
        pose proof (Z.div_mod k 2 ltac:(lia)). lia. }
      assert (FIN : Rabs (V (snd p) - Y') <= S - Rabs (V (snd p) - Y) + 36 * eps).
      { rewrite YY in *. destruct (Rle_lt_dec 0 (V (snd p) - Y)); [rewrite (Rabs_pos_eq (V (snd p) - Y)) in * by lra|rewrite (Rabs_left1 (V (snd p) - Y)) in * by lra];
          destruct KO as [-> | ->]; apply Rabs_le_inv in B1; apply Rabs_le; lra. }
      lra.
    + exists c, (row_of p c). split; [reflexivity|]. split; [lia|]. split; [lia|]. fold (par c). fold Y. fold X.
      assert (NL : 0 < V (indicator64 (mkhex64 pts xmin ymin lh sh cols even odd) p (cen_x c) (cen_y p c))).
      { rewrite <- V0. apply Rnot_le_lt. intro H. apply (fle_ok _ _ IF F0) in H. congruence. }
      split; [lra|]. rewrite (Rabs_pos_eq (V (fst p) - X)) by lra. lra.
  - apply Z.eqb_neq in C3. set (c := ((d + 1) / 3)%Z) in *. assert (C0 : (0 <= c)%Z) by (apply Z.div_pos; lia).
    assert (CD : (d = 3 * c \/ d = 3 * c - 1)%Z). { unfold c. pose proof (Z.div_mod (d + 1) 3 ltac:(lia)). pose proof (Z.mod_pos_bound (d + 1) 3 eq_refl). lia. }
    cbv zeta. exists c, (row_of p c). destruct (band_y p c Hp) as [R0 B]. split; [reflexivity|]. split; [exact C0|]. split; [lia|]. fold (par c).
    set (X := V xmin + IZR (3 * c) * s) in *. set (Y := V ymin + IZR (2 * row_of p c + par c) * S) in *. split; [lra|].
    assert (DX : Rabs (V (fst p) - X) <= s + 2 * eps).
    { destruct CD as [CD|CD]; rewrite CD in DB; rewrite ?minus_IZR in DB; apply Rabs_le; unfold X; lra. }
    assert (S / s * Rabs (V (fst p) - X) <= S / s * (s + 2 * eps)) by (apply Rmult_le_compat_l; lra).
    assert (S / s * (s + 2 * eps) <= S + 4 * eps). { rewrite Rmult_plus_distr_l, SSs. assert (S / s * (2 * eps) <= 2 * (2 * eps)) by (apply Rmult_le_compat_r; lra). lra. }
    lra.
Qed.

(** *** Extents away from the multiples of the half lengths *)
Let RX : R := V xmax - V xmin.
Let RY : R := V ymax - V ymin.
Hypothesis MX : clear RX s (32 * eps).
Hypothesis MY : clear RY S (32 * eps).
Let D : Z := Zfloor (RX / s).
Let E : Z := Zfloor (RY / S).
Lemma floor_scale : forall A t c n, 0 < t -> (0 < n)%Z -> Zfloor ((A - IZR c * t) / (IZR n * t)) = ((Zfloor (A / t) - c) / n)%Z.
Proof.
  intros A t c n T N. set (f := Zfloor (A / t)). pose proof (Zfloor_lb (A / t)) as L1. pose proof (Zfloor_ub (A / t)) as L2. fold f in L1, L2.
  assert (M1 : IZR f * t <= A). { replace A with (A / t * t) by (field; lra). apply Rmult_le_compat_r; lra. }
  assert (M2 : A < (IZR f + 1) * t). { replace A with (A / t * t) at 1 by (field; lra). apply Rmult_lt_compat_r; lra. }
  set (k := ((f - c) / n)%Z). assert (K1 : (n * k <= f - c)%Z) by (apply Z.mul_div_le; lia). assert (K2 : (f - c + 1 <= n * (k + 1))%Z) by (pose proof (Z.mul_succ_div_gt (f - c) n N); fold k in H; lia).
  apply IZR_le in K1, K2. rewrite mult_IZR, minus_IZR in K1. rewrite plus_IZR, minus_IZR, mult_IZR, plus_IZR in K2.
  assert (N0 : 0 < IZR n) by (apply IZR_lt; exact N). assert (NT : 0 < IZR n * t) by (apply Rmult_lt_0_compat; lra).
  assert (P1 : (IZR n * IZR k) * t <= (IZR f - IZR c) * t) by (apply Rmult_le_compat_r; lra).
  assert (P2 : (IZR f - IZR c + 1) * t <= (IZR n * (IZR k + 1)) * t) by (apply Rmult_le_compat_r; lra).
  apply Zfloor_imp. rewrite plus_IZR. split.
  - apply Rmult_le_reg_r with (IZR n * t); [exact NT|]. unfold Rdiv. rewrite Rmult_assoc, Rinv_l, Rmult_1_r by lra. lra.
  - apply Rmult_lt_reg_r with (IZR n * t); [exact NT|]. unfold Rdiv. rewrite Rmult_assoc, Rinv_l, Rmult_1_r by lra. lra.
Qed.
Lemma clear_scale : forall r t c n eta, clear r t eta -> clear (r - IZR c * t) (IZR n * t) eta.
Proof. intros r t c n eta C k. specialize (C (c + k * n)%Z). rewrite plus_IZR, mult_IZR in C. replace (r - IZR c * t - IZR k * (IZR n * t)) with (r - (IZR c + IZR k * IZR n) * t) by ring. exact C. Qed.

Lemma extents_ok : 0 <= RX <= 2 * W /\ 0 <= RY <= 2 * W /\ near (fsub xmax xmin) RX (2 * eps) /\ near (fsub ymax ymin) RY (2 * eps) /\ (0 <= D)%Z /\ (0 <= E)%Z.
Proof.
  destruct box_ok as ([A1 A2] & [B1 B2] & [C1 C2] & [D1 D2] & _ & L1 & L2). pose proof grid_facts as G. destruct sh_ok as [_ SR].
  pose proof (diff_ok xmax xmin B1 A1 B2 A2) as N1. pose proof (diff_ok ymax ymin D1 C1 D2 C2) as N2.
  apply Rabs_le_inv in A2, B2, C2, D2. unfold RX, RY, D, E, RX, RY. repeat split; try lra; try apply N1; try apply N2.
  - apply Zfloor_lub. apply Rmult_le_pos; [lra|apply Rlt_le, Rinv_0_lt_compat; lra].
  - apply Zfloor_lub. apply Rmult_le_pos; [lra|apply Rlt_le, Rinv_0_lt_compat; lra].
Qed.

Lemma init_ok : hex64_init cos6 pts lh = Ok (mkhex64 pts xmin ymin lh sh (1 + (D + 2) / 3) (1 + (E + 1) / 2) (1 + E / 2)).
Proof.
  pose proof grid_facts as G. destruct extents_ok as (RX1 & RY1 & NX & NY & D0 & E0). destruct semi_ok as [SF SV]. destruct sh_ok as [HF HR]. destruct sh2_ok as [H2F H2V].
  assert (NZ : forall T (x y : T), match pts with [] => x | _ => y end = y) by (intros; destruct pts; [contradiction|reflexivity]).
  unfold hex64_init. rewrite NZ. cbv zeta. fold xmin xmax ymin ymax sh.
  assert (X1 : flt (fdiv lh f2) (fsub xmax xmin) = true <-> s < RX).
  { rewrite flt_ok by (auto; apply NX). rewrite SV. destruct NX as [_ NX]. apply Rabs_le_inv in NX. specialize (MX 1%Z).
    destruct (Rle_lt_dec s RX); [rewrite Rabs_pos_eq in MX by lra|rewrite Rabs_left1 in MX by lra]; split; intro; lra. }
  assert (Y1 : flt sh (fsub ymax ymin) = true <-> S < RY).
  { rewrite flt_ok by (auto; apply NY). fold S. destruct NY as [_ NY]. apply Rabs_le_inv in NY. specialize (MY 1%Z).
    destruct (Rle_lt_dec S RY); [rewrite Rabs_pos_eq in MY by lra|rewrite Rabs_left1 in MY by lra]; split; intro; lra. }
  assert (X2 : py_ceil (fdiv (fsub (fsub xmax xmin) (fdiv lh f2)) (fmul f1_5 lh)) = Ok ((D - 1) / 3 + 1)%Z).
  { assert (N : near (fsub (fsub xmax xmin) (fdiv lh f2)) (RX - IZR 1 * s) (5 * eps)).
    { apply near_eq with (RX - V (fdiv lh f2)); [|rewrite SV; lra].
      apply near_sub with (e := 2 * eps) (f := 0) (M := 2 * W); [exact NX|apply near_exact; exact SF|rewrite SV; apply Rabs_le; lra|lra|].
      replace (u * (2 * W + 2 * eps + 0)) with (2 * eps + 2 * (u * eps)) by (unfold eps; ring). lra. }
    destruct (quotient_ok _ _ _ _ _ N len15_ok) as (Q1 & Q2 & _ & _); [apply Rabs_le; lra|lra|lra|].
    rewrite (py_ceil_ok _ Q1).
    destruct (floor_stable (V (fdiv (fsub (fsub xmax xmin) (fdiv lh f2)) (fmul f1_5 lh))) (RX - IZR 1 * s) (IZR 3 * s) (32 * eps)) as [_ C]; [lra|lra|apply clear_scale; exact MX|lra|].
    rewrite C. rewrite floor_scale by (lra || lia). reflexivity. }
  assert (Nb : near (fmul f2 sh) (IZR 2 * S) (u * (IZR 2 * S))).
  { split; [exact H2F|]. rewrite H2V, Rminus_diag_eq, Rabs_R0 by reflexivity. pose proof u_ge. apply Rmult_le_pos; lra. }
  assert (Y2 : py_ceil (fdiv (fsub (fsub ymax ymin) sh) (fmul f2 sh)) = Ok ((E - 1) / 2 + 1)%Z).
  { assert (N : near (fsub (fsub ymax ymin) sh) (RY - IZR 1 * S) (5 * eps)).
    { apply near_eq with (RY - V sh); [|fold S; lra].
      apply near_sub with (e := 2 * eps) (f := 0) (M := 2 * W); [exact NY|apply near_exact; exact HF|fold S; apply Rabs_le; lra|lra|].
      replace (u * (2 * W + 2 * eps + 0)) with (2 * eps + 2 * (u * eps)) by (unfold eps; ring). lra. }
    destruct (quotient_ok _ _ _ _ _ N Nb) as (Q1 & Q2 & _ & _); [apply Rabs_le; lra|lra|lra|].
    rewrite (py_ceil_ok _ Q1).
    destruct (floor_stable (V (fdiv (fsub (fsub ymax ymin) sh) (fmul f2 sh))) (RY - IZR 1 * S) (IZR 2 * S) (32 * eps)) as [_ C]; [lra|lra|apply clear_scale; exact MY|lra|].
    rewrite C. rewrite floor_scale by (lra || lia). reflexivity. }
  assert (Y3 : py_ceil (fdiv (fsub ymax ymin) (fmul f2 sh)) = Ok (E / 2 + 1)%Z).
  { destruct (quotient_ok _ _ _ _ _ NY Nb) as (Q1 & Q2 & _ & _); [apply Rabs_le; lra|lra|lra|].
    rewrite (py_ceil_ok _ Q1).
    destruct (floor_stable (V (fdiv (fsub ymax ymin) (fmul f2 sh))) (RY - IZR 0 * S) (IZR 2 * S) (32 * eps)) as [_ C]; [lra|lra|apply clear_scale; exact MY|replace (RY - IZR 0 * S) with RY by ring; lra|].
    rewrite C. rewrite floor_scale by (lra || lia). fold E. rewrite Z.sub_0_r. reflexivity. }
  assert (X3 : s < RX <-> (1 <= D)%Z).
  { unfold D. split; intro H.
    - apply Zfloor_lub. apply Rmult_le_reg_r with s; [lra|]. unfold Rdiv. rewrite Rmult_assoc, Rinv_l, Rmult_1_r by lra. lra.
    - pose proof (Zfloor_lb (RX / s)) as L. apply IZR_le in H. assert (M : 1 * s <= RX). { replace RX with (RX / s * s) by (field; lra). apply Rmult_le_compat_r; lra. }
      specialize (MX 1%Z). rewrite Rabs_pos_eq in MX by lra. lra. }
  assert (Y4 : S < RY <-> (1 <= E)%Z).
  { unfold E. split; intro H.
    - apply Zfloor_lub. apply Rmult_le_reg_r with S; [lra|]. unfold Rdiv. rewrite Rmult_assoc, Rinv_l, Rmult_1_r by lra. lra.
    - pose proof (Zfloor_lb (RY / S)) as L. apply IZR_le in H. assert (M : 1 * S <= RY). { replace RY with (RY / S * S) by (field; lra). apply Rmult_le_compat_r; lra. }
      specialize (MY 1%Z). rewrite Rabs_pos_eq in MY by lra. lra. }
  rewrite X2, Y2, Y3. cbn [bind].
  assert (XC : (if flt (fdiv lh f2) (fsub xmax xmin) then Ok (1 + ((D - 1) / 3 + 1))%Z else Ok 1%Z) = Ok (1 + (D + 2) / 3)%Z).
  { destruct (flt (fdiv lh f2) (fsub xmax xmin)).
    - f_equal. replace (D + 2)%Z with ((D - 1) + 1 * 3)%Z by lia. rewrite Z.div_add by lia. reflexivity.
    - assert (D = 0)%Z as ->; [|reflexivity]. destruct (Z_lt_le_dec D 1) as [|H]; [lia|]. apply X3, X1 in H. discriminate. }
  assert (YC : (if flt sh (fsub ymax ymin) then Ok (1 + ((E - 1) / 2 + 1))%Z else Ok 1%Z) = Ok (1 + (E + 1) / 2)%Z).
  { destruct (flt sh (fsub ymax ymin)).
    - f_equal. replace (E + 1)%Z with ((E - 1) + 1 * 2)%Z by lia. rewrite Z.div_add by lia. reflexivity.
    - assert (E = 0)%Z as ->; [|reflexivity]. destruct (Z_lt_le_dec E 1) as [|H]; [lia|]. apply Y4, Y1 in H. discriminate. }
  rewrite XC. cbn [bind]. rewrite YC. cbn [bind]. rewrite (Z.add_comm (E / 2) 1). reflexivity.
Qed.

(** Every point is in one of the grid's columns and rows. *)
Lemma deg_range : forall p, In p pts -> (0 <= deg_of p <= D)%Z.
Proof.
  intros p Hp. pose proof grid_facts as G. destruct extents_ok as (RX1 & RY1 & NX & NY & D0 & E0). destruct (Fpts p Hp) as (F1 & F2 & A1 & A2).
  destruct box_ok as ([BX1 BX2] & [BX3 BX4] & _ & _ & BB & _). destruct (BB p Hp) as [[L1 L2] _].
  pose proof (diff_pos (fst p) xmin F1 BX1 A1 BX2 L1) as P. pose proof (diff_mono (fst p) xmax xmin F1 BX3 BX1 A1 BX4 BX2 L2) as M.
  assert (IS : 0 < / s) by (apply Rinv_0_lt_compat; lra). unfold deg_of. split.
  - apply Zfloor_lub. apply Rmult_le_pos; lra.
  - destruct (floor_stable (V (fsub xmax xmin) / s) RX s (32 * eps)) as [C _]; [lra|lra|exact MX| |].
    + destruct NX as [_ NX]. replace (V (fsub xmax xmin) / s * s) with (V (fsub xmax xmin)) by (field; lra). lra.
    + unfold D. rewrite <- C. apply Zfloor_le. apply Rmult_le_compat_r; lra.
Qed.
Lemma row_range : forall p, In p pts -> (0 <= Zfloor (V (q_even p)) <= (E + 1) / 2)%Z /\ (0 <= Zfloor (V (q_odd p)) <= E / 2)%Z.
Proof.
  intros p Hp. pose proof grid_facts as G. destruct extents_ok as (RX1 & RY1 & NX & NY & D0 & E0). destruct (Fpts p Hp) as (F1 & F2 & A1 & A2).
  destruct box_ok as (_ & _ & [BY1 BY2] & [BY3 BY4] & BB & _ & LY). destruct (BB p Hp) as [_ [L1 L2]]. destruct sh_ok as [HF HR]. destruct sh2_ok as [H2F H2V].
  assert (Nb : near (fmul f2 sh) (2 * S) (u * (2 * S))).
  { split; [exact H2F|]. rewrite H2V, Rminus_diag_eq, Rabs_R0 by reflexivity. pose proof u_ge. apply Rmult_le_pos; lra. }
  assert (QB : forall a A, near a A (8 * eps) -> Rabs A <= 4 * W -> Rabs (V a / V (fmul f2 sh)) <= bpow radix2 1023).
  { intros a A [_ N] HA. rewrite H2V. apply Rle_trans with (bpow radix2 51); [|apply bpow_le; lia].
    assert (X : Rabs (V a) <= 5 * W). { apply Rabs_le_inv in N. apply Rabs_le_inv in HA. apply Rabs_le. lra. }
    assert (IS : 0 < / (2 * S)) by (apply Rinv_0_lt_compat; lra).
    unfold Rdiv. rewrite Rabs_mult, (Rabs_pos_eq (/ (2 * S))) by lra. apply Rmult_le_reg_r with (2 * S); [lra|]. rewrite Rmult_assoc, Rinv_l, Rmult_1_r by lra.
    apply Rle_trans with (bpow radix2 51 * s); [|apply Rmult_le_compat_l; [apply bpow_ge_0|lra]].
    replace (bpow radix2 51) with (8 * bpow radix2 48) by (change 8 with (bpow radix2 3); rewrite <- bpow_plus; reflexivity). lra. }
  split.
  - destruct (row_even_ok (snd p) ymin F2 BY1 A2 BY2 L1) as (_ & [Q0 _] & _). fold (q_even p) in Q0.
    split; [apply Zfloor_lub; exact Q0|].
    destruct (row_even_ok ymax ymin BY3 BY1 BY4 BY2 LY) as (_ & _ & Q3). set (qm := fdiv (fsub (fadd ymax sh) ymin) (fmul f2 sh)) in Q3.
    destruct (floor_stable (V qm) (RY - IZR (-1) * S) (IZR 2 * S) (32 * eps)) as [C _]; [lra|lra|apply clear_scale; exact MY| |].
    { replace (RY - IZR (-1) * S) with (V ymax + S - V ymin) by (unfold RY; ring). lra. }
    rewrite floor_scale in C by (lra || lia). fold E in C. replace (E - -1)%Z with (E + 1)%Z in C by lia. rewrite <- C. apply Zfloor_le.
    pose proof (up_ok (snd p) ymin F2 BY1 A2 BY2) as N1. pose proof (up_ok ymax ymin BY3 BY1 BY4 BY2) as N2.
    pose proof (up_mono (snd p) ymax ymin F2 BY3 BY1 A2 BY4 BY2 L2) as UM.
    apply Rabs_le_inv in A2. apply Rabs_le_inv in BY2. apply Rabs_le_inv in BY4.
    unfold q_even, qm. apply quotient_mono; [apply N1|apply N2|lra| | |exact UM].
    + eapply QB; [eapply near_weak; [exact N1|lra]|apply Rabs_le; lra].
    + eapply QB; [eapply near_weak; [exact N2|lra]|apply Rabs_le; lra].
  - destruct (row_odd_ok (snd p) ymin F2 BY1 A2 BY2 L1) as (_ & [Q0 _] & _). fold (q_odd p) in Q0.
    split; [apply Zfloor_lub; exact Q0|].
    destruct (row_odd_ok ymax ymin BY3 BY1 BY4 BY2 LY) as (_ & _ & Q3). set (qm := fdiv (fsub ymax ymin) (fmul f2 sh)) in Q3.
    destruct (floor_stable (V qm) (RY - IZR 0 * S) (IZR 2 * S) (32 * eps)) as [C _]; [lra|lra|apply clear_scale; exact MY| |].
    { replace (RY - IZR 0 * S) with (V ymax - V ymin) by (unfold RY; ring). lra. }
    rewrite floor_scale in C by (lra || lia). fold E in C. rewrite Z.sub_0_r in C. rewrite <- C. apply Zfloor_le.
    pose proof (diff_ok (snd p) ymin F2 BY1 A2 BY2) as N1. pose proof (diff_ok ymax ymin BY3 BY1 BY4 BY2) as N2.
    pose proof (diff_mono (snd p) ymax ymin F2 BY3 BY1 A2 BY4 BY2 L2) as UM.
    apply Rabs_le_inv in A2. apply Rabs_le_inv in BY2. apply Rabs_le_inv in BY4.
    unfold q_odd, qm. apply quotient_mono; [apply N1|apply N2|lra| | |exact UM].
    + eapply QB; [eapply near_weak; [exact N1|lra]|apply Rabs_le; lra].
    + eapply QB; [eapply near_weak; [exact N2|lra]|apply Rabs_le; lra].
Qed.
Lemma counted : let h := mkhex64 pts xmin ymin lh sh (1 + (D + 2) / 3) (1 + (E + 1) / 2) (1 + E / 2) in
  exists d, hex64_location_sta h = Ok d /\ dkeys d = hex64_keys h /\ Zsum (dvals d) = Z.of_nat (List.length pts) /\
    (forall k v, dget d k = Some v -> v = Z.of_nat (count (fun p => match hex64_cell_id h p with Ok j => (k =? j)%Z | Raise _ => false end) pts)).
Proof.
  intro h. destruct extents_ok as (_ & _ & _ & _ & D0 & E0).
  set (key := fun p => match hex64_cell_id h p with Ok j => j | Raise _ => 0%Z end).
  assert (K : forall p, In p pts -> hex64_cell_id h p = Ok (key p) /\ In (key p) (hex64_keys h)).
  { intros p Hp. assert (C := cell_ok p (1 + (D + 2) / 3)%Z (1 + (E + 1) / 2)%Z (1 + E / 2)%Z Hp). fold h in C.
    assert (X : exists c, hex64_cell h p = Ok (c, row_of p c) /\ (0 <= c <= (D + 2) / 3)%Z).
    { pose proof (deg_range p Hp) as DR. pose proof (Z.div_mod (deg_of p) 3 ltac:(lia)) as DM. pose proof (Z.mod_pos_bound (deg_of p) 3 eq_refl) as MB.
      cbv zeta in C. revert C. match goal with |- context [fle ?a (fint 0)] => generalize (fle a (fint 0)) end. intros b C. destruct (deg_of p mod 3 =? 1)%Z eqn:C3.
      - apply Z.eqb_eq in C3. destruct b; eexists; (split; [exact C|]).
        + split; [pose proof (Z.div_pos (deg_of p) 3); lia|]. replace (deg_of p / 3 + 1)%Z with ((deg_of p + 2) / 3)%Z; [apply Z.div_le_mono; lia|].
          replace (deg_of p + 2)%Z with ((deg_of p / 3 + 1) * 3)%Z by lia. apply Z.div_mul. lia.
        + split; [apply Z.div_pos; lia|apply Z.div_le_mono; lia].
      - eexists. split; [exact C|]. split; [apply Z.div_pos; lia|apply Z.div_le_mono; lia]. }
    destruct X as (c & CE & CR). unfold key, hex64_cell_id. rewrite CE. cbn [bind fst snd]. split; [reflexivity|].
    destruct (row_range p Hp) as [RE RO]. unfold hex64_keys. cbn [h h6_cols h6_even h6_odd]. apply in_flat_map. exists (row_of p c).
    assert (EO : ((E + 1) / 2 = E / 2 \/ (E + 1) / 2 = E / 2 + 1)%Z).
    { pose proof (Z.div_mod E 2 ltac:(lia)) as M1. pose proof (Z.mod_pos_bound E 2 eq_refl) as M2. pose proof (Z.div_mod (E + 1) 2 ltac:(lia)) as M3. pose proof (Z.mod_pos_bound (E + 1) 2 eq_refl) as M4. lia. }
    unfold row_of. destruct (c mod 2 =? 0)%Z eqn:P2.
    - split; [apply in_zrange; lia|]. apply in_map_iff. exists c. split; [reflexivity|]. apply filter_In. split; [apply in_zrange; lia|].
      apply Z.eqb_eq in P2. rewrite P2. rewrite andb_false_r. reflexivity.
    - split; [apply in_zrange; lia|]. apply in_map_iff. exists c. split; [reflexivity|]. apply filter_In. split; [apply in_zrange; lia|].
      destruct (1 + (E + 1) / 2 =? 1 + E / 2)%Z eqn:EQ; [reflexivity|]. apply Z.eqb_neq in EQ.
      replace (Zfloor (V (q_odd p)) =? 1 + (E + 1) / 2 - 1)%Z with false; [reflexivity|]. symmetry. apply Z.eqb_neq. lia. }
  destruct (fold_dincr_ok fpt (fun p => hex64_cell_id h p) key pts (map (fun k => (k, 0%Z)) (hex64_keys h))) as (d & D1 & D2 & D3 & D4).
  - intros p Hp. apply K. exact Hp.
  - intros p Hp. rewrite dkeys_init. apply K. exact Hp.
  - exists d. rewrite dkeys_init in D2. split; [exact D1|]. split; [exact D2|]. split; [rewrite D3, dvals_init; lia|].
    intros k v Hv. assert (I : In k (hex64_keys h)).
    { rewrite <- D2. destruct (in_dec Z.eq_dec k (dkeys d)) as [I|I]; [exact I|]. apply dget_none in I. congruence. }
    rewrite D4, dget_init in Hv by exact I. inversion Hv as [Hv']. f_equal. apply count_ext. intros p Hp. destruct (K p Hp) as [-> _]. reflexivity.
Qed.
End Grid.
