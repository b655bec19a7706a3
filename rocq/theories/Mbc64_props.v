(** Theorems about the minimum bounding circle on binary64: property C147. *)
From Coq Require Import Reals Ratan ZArith List Bool Lia Lra Psatz.
From Flocq Require Import Core BinarySingleNaN.
From Verif Require Import Base Float_model Float_proofs F64_model F64_proofs F64_props K64_model K64_spec K64_proofs K64_props L64_model L64_proofs Area64_model Area64_proofs Sample64_model Sample64_proofs Hex64_proofs Mbc64_model Mbc64_spec Mbc64_proofs.
Import ListNotations.
Local Open Scope R_scope.

(** ** Auxiliary *)
Lemma feq_no : forall a b, fin a -> fin b -> V a <> V b -> feq a b = false.
Proof. intros a b A B N. destruct (feq a b) eqn:E; [|reflexivity]. apply (proj1 (feq_ok a b A B)) in E. contradiction. Qed.
Lemma same_refl : forall p, fin_pt p -> same64 p p = true.
Proof. intros p [A B]. unfold same64. rewrite (proj2 (feq_ok _ _ A A) eq_refl), (proj2 (feq_ok _ _ B B) eq_refl). reflexivity. Qed.
Definition other (p q : fpt) : Prop := V (fst p) <> V (fst q) \/ V (snd p) <> V (snd q).
Lemma same_no : forall p q, fin_pt p -> fin_pt q -> other p q -> same64 p q = false.
Proof.
  intros p q [A B] [C Dd] [H|H]; unfold same64.
  - rewrite (feq_no _ _ A C H). reflexivity.
  - rewrite (feq_no _ _ B Dd H). apply andb_false_r.
Qed.
Lemma other_sym : forall p q, other p q -> other q p.
Proof. intros p q [H|H]; [left|right]; intro E; apply H; symmetry; exact E. Qed.
Lemma pair_places : forall p q, fin_pt p -> fin_pt q -> other p q ->
  prec64 p [p; q] = q /\ succ64 p [p; q] = q /\ prec64 q [p; q] = p /\ succ64 q [p; q] = p.
Proof.
  intros p q P Q O. unfold prec64, succ64. cbn [index64 length]. rewrite (same_refl p P), (same_no p q P Q O), (same_refl q Q). repeat split.
Qed.
Lemma triple_places : forall a b c, fin_pt a -> fin_pt b -> fin_pt c -> other a b -> other a c -> other b c ->
  prec64 a [a; b; c] = c /\ succ64 a [a; b; c] = b /\ prec64 b [a; b; c] = a /\ succ64 b [a; b; c] = c /\ prec64 c [a; b; c] = b /\ succ64 c [a; b; c] = a.
Proof.
  intros a b c A B C AB AC BC. unfold prec64, succ64. cbn [index64 length].
  rewrite (same_refl a A), (same_refl b B), (same_refl c C), (same_no a b A B AB), (same_no a c A C AC), (same_no b c B C BC). repeat split.
Qed.
Lemma fin_eq : forall a b : f64, fin a -> fin b -> V a = V b -> V a <> 0 -> a = b.
Proof.
  intros a b A B E N. apply B2R_inj; [| |exact E].
  - destruct a as [s|s| |s m e H]; try discriminate; [exfalso; apply N; reflexivity|reflexivity].
  - destruct b as [s|s| |s m e H]; try discriminate; [exfalso; apply N; rewrite E; reflexivity|reflexivity].
Qed.
Definition vec (p q : fpt) : fpt := (fsub (fst p) (fst q), fsub (snd p) (snd q)).
Lemma angle_pair : forall arccos dot p q, angle64 arccos dot q p q = fabs (arccos (ratio64 (dot (vec q p) (vec q p)))).
Proof. reflexivity. Qed.
Lemma small_diff : forall x y, fin x -> fin y -> Rabs (V x) <= bpow radix2 399 -> Rabs (V y) <= bpow radix2 399 ->
  fin (fsub x y) /\ V (fsub x y) = rnd (V x - V y) /\ Rabs (V (fsub x y)) <= bpow radix2 400.
Proof.
  intros x y Fx Fy Bx By. assert (B : Rabs (V x - V y) <= bpow radix2 400).
  { change 400%Z with (1 + 399)%Z. rewrite bp. change (bpow radix2 1) with 2. pose proof (Rabs_triang (V x) (- V y)) as T. rewrite Rabs_Ropp in T. unfold Rminus. lra. }
  destruct (fsub_ok x y Fx Fy) as [A1 A2]; [eapply Rle_trans; [exact B|apply bpow_le; lia]|]. split; [exact A1|]. split; [exact A2|].
  rewrite A2. apply rnd_abs_le; [|exact B]. apply generic_format_bpow. unfold fexp64, FLT_exp. lia.
Qed.
Lemma Rabs_mult_sq : forall x, Rabs x * Rabs x = x * x.
Proof. intro x. rewrite <- Rabs_mult. apply Rabs_pos_eq. nra. Qed.
Lemma float_pow2 : forall e, (-1074 <= e)%Z -> isfloat (bpow radix2 e).
Proof. intros e E. apply generic_format_bpow. unfold fexp64, FLT_exp. lia. Qed.

(** Points at least 2^-440 apart in some coordinate. *)
Definition apart (p q : fpt) : Prop := bpow radix2 (-440) <= Rabs (V (fst p) - V (fst q)) \/ bpow radix2 (-440) <= Rabs (V (snd p) - V (snd q)).
Lemma apart_sym : forall p q, apart p q -> apart q p.
Proof. intros p q [H|H]; [left|right]; rewrite Rabs_minus_sym; exact H. Qed.
Lemma apart_other : forall p q, apart p q -> other p q.
Proof.
  intros p q [H|H]; [left|right]; intro E; rewrite E, Rminus_diag_eq, Rabs_R0 in H by reflexivity; pose proof (bpow_gt_0 radix2 (-440)); lra.
Qed.

Section Libs.
Variables (arccos : f64 -> f64) (dot : fpt -> fpt -> f64).
Hypothesis HA : ArccosOk arccos.
Hypothesis HD : DotOk dot.
Definition own (p q : fpt) : f64 := dot (vec p q) (vec p q).

Lemma own_ok : forall p q, small_pt p -> small_pt q -> apart p q -> fin (own p q) /\ bpow radix2 (-900) <= V (own p q) <= bpow radix2 900 /\ own q p = own p q.
Proof using HD.
  intros p q ((P1 & P2) & P3 & P4) ((Q1 & Q2) & Q3 & Q4) AP. destruct HD as (_ & H2 & H3).
  destruct (small_diff _ _ P1 Q1 P3 Q3) as (A1 & A2 & A3). destruct (small_diff _ _ P2 Q2 P4 Q4) as (B1 & B2 & B3).
  destruct (small_diff _ _ Q1 P1 Q3 P3) as (C1 & C2 & C3). destruct (small_diff _ _ Q2 P2 Q4 P4) as (E1 & E2 & E3).
  set (x := fsub (fst p) (fst q)) in *. set (y := fsub (snd p) (snd q)) in *.
  assert (LO : bpow radix2 (-440) <= Rabs (V x) \/ bpow radix2 (-440) <= Rabs (V y)).
  { assert (X : forall z, bpow radix2 (-440) <= Rabs z -> bpow radix2 (-440) <= Rabs (rnd z)).
    { intros z Z0. assert (F : isfloat (bpow radix2 (-440))) by (apply float_pow2; lia). destruct (Rle_lt_dec 0 z) as [N|N].
      - rewrite Rabs_pos_eq in Z0 by lra. rewrite Rabs_pos_eq by (apply rnd_nonneg; exact N). rewrite <- (rnd_id _ F). apply rnd_le. exact Z0.
      - rewrite Rabs_left in Z0 by lra. rewrite <- Rabs_Ropp, <- rnd_opp. rewrite Rabs_pos_eq by (apply rnd_nonneg; lra). rewrite <- (rnd_id _ F). apply rnd_le. exact Z0. }
    rewrite A2, B2. destruct AP as [H|H]; [left|right]; apply X; exact H. }
  assert (S0 : bpow radix2 (-880) <= V x * V x + V y * V y).
  { replace (bpow radix2 (-880)) with (bpow radix2 (-440) * bpow radix2 (-440)) by (rewrite <- bpow_plus; reflexivity). pose proof (bpow_gt_0 radix2 (-440)) as G.
    rewrite <- (Rabs_mult_sq (V x)), <- (Rabs_mult_sq (V y)). pose proof (Rabs_pos (V x)). pose proof (Rabs_pos (V y)). destruct LO; nra. }
  assert (S1 : V x * V x + V y * V y <= bpow radix2 801).
  { replace (bpow radix2 801) with (2 * (bpow radix2 400 * bpow radix2 400)) by (rewrite <- bpow_plus; change 2 with (bpow radix2 1); rewrite <- bpow_plus; reflexivity).
    rewrite <- (Rabs_mult_sq (V x)), <- (Rabs_mult_sq (V y)). pose proof (Rabs_pos (V x)). pose proof (Rabs_pos (V y)). nra. }
  destruct (H2 x y A1 B1 A3 B3) as [F E]; [eapply Rle_trans; [|exact S0]; apply bpow_le; lia|].
  change (dot (x, y) (x, y)) with (own p q) in F, E. apply Rabs_le_inv in E.
  assert (T50 : bpow radix2 (-50) <= / 2) by (change (/ 2) with (bpow radix2 (-1)); apply bpow_le; lia). pose proof (bpow_gt_0 radix2 (-50)) as T0. pose proof (bpow_gt_0 radix2 (-880)) as T880.
  set (s := V x * V x + V y * V y) in *. assert (R1 : s / 2 <= V (own p q) <= 2 * s) by nra.
  assert (LOW : bpow radix2 (-900) <= V (own p q)).
  { apply Rle_trans with (bpow radix2 (-881)); [apply bpow_le; lia|]. change (-881)%Z with (-880 + -1)%Z. rewrite bpow_plus. change (bpow radix2 (-1)) with (/ 2). lra. }
  split; [exact F|]. split.
  - split; [exact LOW|]. apply Rle_trans with (2 * bpow radix2 801); [lra|]. change 2 with (bpow radix2 1) at 1. rewrite <- bpow_plus. apply bpow_le. lia.
  - assert (EV : V (own q p) = V (own p q)).
    { apply (H3 x y (fsub (fst q) (fst p)) (fsub (snd q) (snd p))); try assumption; [rewrite C2, A2, <- rnd_opp; f_equal; ring|rewrite E2, B2, <- rnd_opp; f_equal; ring]. }
    pose proof (bpow_gt_0 radix2 (-900)) as G9. apply fin_eq; [|exact F|exact EV|rewrite EV; lra].
    destruct (H2 (fsub (fst q) (fst p)) (fsub (snd q) (snd p)) C1 E1 C3 E3) as [FF _]; [|exact FF].
    rewrite C2, E2. replace (V (fst q) - V (fst p)) with (- (V (fst p) - V (fst q))) by ring. replace (V (snd q) - V (snd p)) with (- (V (snd p) - V (snd q))) by ring.
    rewrite !rnd_opp, <- A2, <- B2. fold x y. replace (- V x * - V x + - V y * - V y) with s by (unfold s; ring). eapply Rle_trans; [|exact S0]. apply bpow_le. lia.
Qed.
(** The circle through p, q and p again. *)
Lemma circum_pair : forall p q, small_pt p -> small_pt q -> circum64 p q p = Raise ZeroDivisionError.
Proof using.
  intros [px py] [qx qy] ((P1 & P2) & P3 & P4) ((Q1 & Q2) & Q3 & Q4). cbn [fst snd] in *. unfold circum64.
  destruct (small_diff _ _ Q2 P2 Q4 P4) as (A1 & A2 & A3). destruct (small_diff _ _ P2 Q2 P4 Q4) as (B1 & B2 & B3). destruct (small_diff _ _ P2 P2 P4 P4) as (C1 & C2 & C3).
  rewrite Rminus_diag_eq, rnd_0 in C2 by reflexivity.
  assert (MB : forall a b, Rabs a <= bpow radix2 399 -> Rabs b <= bpow radix2 400 -> Rabs (a * b) <= bpow radix2 799).
  { intros a b Ha Hb. rewrite Rabs_mult. change 799%Z with (399 + 400)%Z. rewrite bpow_plus. apply Rmult_le_compat; auto using Rabs_pos. }
  assert (B1023 : bpow radix2 799 <= bpow radix2 1023) by (apply bpow_le; lia).
  assert (X : V (fsub py qy) = - V (fsub qy py)) by (rewrite A2, B2, <- rnd_opp; f_equal; ring).
  destruct (fmul_ok px (fsub qy py) P1 A1) as [M1 N1]; [eapply Rle_trans; [apply MB; assumption|exact B1023]|].
  destruct (fmul_ok qx (fsub py py) Q1 C1) as [M2 N2]; [eapply Rle_trans; [apply MB; assumption|exact B1023]|].
  destruct (fmul_ok px (fsub py qy) P1 B1) as [M3 N3]; [eapply Rle_trans; [apply MB; assumption|exact B1023]|].
  rewrite C2, Rmult_0_r, rnd_0 in N2. assert (N3' : V (fmul px (fsub py qy)) = - V (fmul px (fsub qy py))) by (rewrite N3, N1, X, <- rnd_opp; f_equal; ring).
  assert (BM : Rabs (V (fmul px (fsub qy py))) <= bpow radix2 799) by (rewrite N1; apply rnd_abs_le; [apply float_pow2; lia|apply MB; assumption]).
  destruct (fadd_ok _ _ M1 M2) as [S1 T1]; [rewrite N2, Rplus_0_r; eapply Rle_trans; [exact BM|exact B1023]|]. rewrite N2, Rplus_0_r, rnd_id in T1 by apply isfloat_V.
  destruct (fadd_ok _ _ S1 M3) as [S2 T2]; [rewrite T1, N3', Rplus_opp_r, Rabs_R0; apply bpow_ge_0|]. rewrite T1, N3', Rplus_opp_r, rnd_0 in T2.
  destruct (fint_ok 2) as [F2 V2]; [lia|]. destruct (fmul_ok (fint 2) _ F2 S2) as [S4 T4]; [rewrite T2, Rmult_0_r, Rabs_R0; apply bpow_ge_0|]. rewrite T2, Rmult_0_r, rnd_0 in T4.
  destruct (fint_ok 0) as [F0 V0]; [lia|]. rewrite (proj2 (feq_ok _ _ S4 F0)) by (rewrite T4, V0; reflexivity). reflexivity.
Qed.

Lemma pair_raises : forall fuel p q gone, small_pt p -> small_pt q -> apart p q -> V (fmul (fsqrt (own p q)) (fsqrt (own p q))) < V (own p q) ->
  skyum64 arccos dot (S fuel) [p; q] gone = Some (Raise ZeroDivisionError).
Proof using HA HD.
  intros fuel p q gone P Q AP LT. pose proof (apart_other p q AP) as O. destruct (pair_places p q (proj1 P) (proj1 Q) O) as (A1 & A2 & A3 & A4).
  destruct (own_ok p q P Q AP) as (F & B & E). destruct (ratio_ok _ F B) as (_ & FR & RB & _ & R1). specialize (R1 LT).
  assert (C : circle64 arccos dot q p q = Raise ZeroDivisionError).
  { rewrite <- (circum_pair q p Q P). unfold circle64. rewrite angle_pair. change (dot (vec q p) (vec q p)) with (own q p). rewrite E.
    destruct HA as (_ & HN & _). rewrite (HN _ FR (or_intror R1)). destruct p as [px py], q as [qx qy]. reflexivity. }
  cbn [skyum64 map all_ok]. rewrite A1, A2, A3, A4. cbn [all_ok]. rewrite C. reflexivity.
Qed.
Lemma pair_returns : forall fuel p q gone, small_pt p -> small_pt q -> apart p q -> V (own p q) <= V (fmul (fsqrt (own p q)) (fsqrt (own p q))) ->
  exists rho cx cy cand, skyum64 arccos dot (S fuel) [p; q] gone = Some (Ok (rho, cx, cy, [p; q], gone, cand)) /\
    fin rho /\ Rabs (V rho - D p q / 2) <= bpow radix2 (-50) * D p q /\
    fin cx /\ V cx = rnd (rnd (V (fst p) + V (fst q)) / 2) /\ fin cy /\ V cy = rnd (rnd (V (snd p) + V (snd q)) / 2).
Proof using HA HD.
  intros fuel p q gone P Q AP LE. pose proof (apart_other p q AP) as O. destruct (pair_places p q (proj1 P) (proj1 Q) O) as (A1 & A2 & A3 & A4).
  destruct (own_ok p q P Q AP) as (F & B & E). destruct (ratio_ok _ F B) as (_ & FR & RB & R1 & _). specialize (R1 LE).
  destruct (one_folded arccos HA _ FR ltac:(lra)) as [N1 N2]. pose proof (acute_yes arccos HA _ FR ltac:(lra)) as AY.
  assert (CI : forall a b, own b a = own p q -> circle64 arccos dot b a b = Ok (fdiv (dist64 b a) (fint 2), fdiv (fadd (fst b) (fst a)) (fint 2), fdiv (fadd (snd b) (snd a)) (fint 2))).
  { intros [ax ay] [bx by_] EO. unfold circle64. rewrite angle_pair. change (dot (vec (bx, by_) (ax, ay)) (vec (bx, by_) (ax, ay))) with (own (bx, by_) (ax, ay)). rewrite EO, N1, N2. reflexivity. }
  pose proof (CI p q E) as C1. pose proof (CI q p eq_refl) as C2.
  assert (G1 : angle64 arccos dot q p q = fabs (arccos (ratio64 (own p q)))) by (rewrite angle_pair; change (dot (vec q p) (vec q p)) with (own q p); rewrite E; reflexivity).
  assert (G2 : angle64 arccos dot p q p = fabs (arccos (ratio64 (own p q)))) by reflexivity.
  assert (VALS : forall a b, (a = p /\ b = q) \/ (a = q /\ b = p) -> let rho := fdiv (dist64 b a) (fint 2) in let cx := fdiv (fadd (fst b) (fst a)) (fint 2) in let cy := fdiv (fadd (snd b) (snd a)) (fint 2) in
    fin rho /\ Rabs (V rho - D p q / 2) <= bpow radix2 (-50) * D p q /\
    fin cx /\ V cx = rnd (rnd (V (fst p) + V (fst q)) / 2) /\ fin cy /\ V cy = rnd (rnd (V (snd p) + V (snd q)) / 2)).
  { assert (US : forall z, small_pt z -> usable z).
    { intros z ((Z1 & Z2) & Z3 & Z4). assert (bpow radix2 399 <= bpow radix2 500) by (apply bpow_le; lia). repeat split; try assumption; lra. }
    destruct (fint_ok 2) as [F2 V2]; [lia|].
    assert (MID : forall x y, fin x -> fin y -> Rabs (V x) <= bpow radix2 399 -> Rabs (V y) <= bpow radix2 399 ->
      fin (fdiv (fadd x y) (fint 2)) /\ V (fdiv (fadd x y) (fint 2)) = rnd (rnd (V x + V y) / 2)).
    { intros x y X1 Y1 X2 Y2. assert (SB : Rabs (V x + V y) <= bpow radix2 400).
      { change 400%Z with (1 + 399)%Z. rewrite bp. change (bpow radix2 1) with 2. pose proof (Rabs_triang (V x) (V y)). lra. }
      destruct (fadd_ok x y X1 Y1) as [S1 T1]; [eapply Rle_trans; [exact SB|apply bpow_le; lia]|].
      assert (RB2 : Rabs (rnd (V x + V y)) <= bpow radix2 400) by (apply rnd_abs_le; [apply float_pow2; lia|exact SB]).
      destruct (fdiv_ok (fadd x y) (fint 2) S1) as [S2 T2]; [rewrite V2; lra| |].
      - rewrite V2, T1. unfold Rdiv. rewrite Rabs_mult, (Rabs_pos_eq (/ 2)) by lra. pose proof (Rabs_pos (rnd (V x + V y))). apply Rle_trans with (bpow radix2 400); [lra|apply bpow_le; lia].
      - split; [exact S2|]. rewrite T2, V2, T1. reflexivity. }
    assert (DP : bpow radix2 (-440) <= D p q).
    { unfold D. assert (X : forall a b, bpow radix2 (-440) <= Rabs a -> bpow radix2 (-440) <= sqrt (a ^ 2 + b ^ 2)).
      { intros a b H. apply Rle_trans with (Rabs a); [exact H|]. rewrite <- sqrt_Rsqr_abs. apply sqrt_le_1_alt. unfold Rsqr. pose proof (pow2_ge_0 b). lra. }
      destruct AP as [H|H]; [apply X; exact H|]. rewrite Rplus_comm. apply X. exact H. }
    assert (RAD : forall a b, usable a -> usable b -> D a b = D p q -> fin (fdiv (dist64 a b) (fint 2)) /\ Rabs (V (fdiv (dist64 a b) (fint 2)) - D p q / 2) <= bpow radix2 (-50) * D p q).
    { intros a b A B' DE. destruct (C127_distance a b A B') as (FD & D0 & _ & DERR). rewrite DE in DERR.
      assert (H50 : bpow radix2 (-50) = 2 * bpow radix2 (-51)) by (change 2 with (bpow radix2 1); rewrite <- bpow_plus; reflexivity).
      assert (H51 : bpow radix2 (-51) = 4 * bpow radix2 (-53)) by (change 4 with (bpow radix2 2); rewrite <- bpow_plus; reflexivity).
      pose proof (bpow_gt_0 radix2 (-53)) as H53. assert (S53 : bpow radix2 (-53) <= / 1000) by (change (bpow radix2 (-53)) with u; rewrite u_val; lra).
      assert (S535 : bpow radix2 (-535) <= bpow radix2 (-53) * D p q).
      { apply Rle_trans with (bpow radix2 (-53) * bpow radix2 (-440)); [rewrite <- bpow_plus; apply bpow_le; lia|apply Rmult_le_compat_l; lra]. }
      apply Rabs_le_inv in DERR. pose proof (bpow_gt_0 radix2 (-440)) as H440. set (w := D p q) in *. set (v := V (dist64 a b)) in *. rewrite H51 in DERR.
      assert (vl : w / 2 <= v <= 2 * w) by nra.
      assert (UB : D p q <= bpow radix2 402).
      { unfold D. destruct P as (_ & P3 & P4). destruct Q as (_ & Q3 & Q4).
        replace (bpow radix2 402) with (sqrt (bpow radix2 402 * bpow radix2 402)) by (apply sqrt_square; apply bpow_ge_0). apply sqrt_le_1_alt.
        assert (QB : bpow radix2 402 = 8 * bpow radix2 399) by (change 8 with (bpow radix2 3); rewrite <- bpow_plus; reflexivity). rewrite QB. pose proof (bpow_gt_0 radix2 399) as G.
        apply Rabs_le_inv in P3. apply Rabs_le_inv in P4. apply Rabs_le_inv in Q3. apply Rabs_le_inv in Q4. set (G' := bpow radix2 399) in *.
        assert (SQB : forall c d, - G' <= c <= G' -> - G' <= d <= G' -> (c - d) ^ 2 <= 4 * (G' * G')) by (intros c d Hc Hd; assert (0 <= (2 * G' - (c - d)) * (2 * G' + (c - d))) by (apply Rmult_le_pos; lra); nra).
        pose proof (SQB _ _ P3 Q3). pose proof (SQB _ _ P4 Q4). pose proof (Rmult_lt_0_compat _ _ G G). lra. }
      fold w in UB. destruct (fdiv_ok (dist64 a b) (fint 2) FD) as [S2 T2]; [rewrite V2; lra| |].
      - rewrite V2. fold v. rewrite Rabs_pos_eq by lra. apply Rle_trans with (2 * bpow radix2 402); [lra|]. change 2 with (bpow radix2 1) at 1. rewrite <- bpow_plus. apply bpow_le. lia.
      - split; [exact S2|]. rewrite T2, V2. fold v. destruct (rnd_rel (v / 2)) as (e & E1 & E2).
        + rewrite Rabs_pos_eq by lra. apply Rle_trans with (bpow radix2 (-442)); [apply bpow_le; lia|].
          replace (bpow radix2 (-442)) with (bpow radix2 (-440) / 4) by (change (-442)%Z with (-440 + -2)%Z; rewrite bpow_plus; reflexivity). lra.
        + rewrite E2. change u with (bpow radix2 (-53)) in E1. apply Rabs_le_inv in E1. rewrite H50, H51. apply Rabs_le. set (h := bpow radix2 (-53)) in *.
          assert (- (h * v) <= e * v <= h * v) by (split; nra). assert (h * v <= 2 * (h * w)) by nra. lra. }
    assert (DS : D q p = D p q) by (unfold D; f_equal; ring).
    assert (SP := P). assert (SQ := Q). destruct SP as ((P1 & P2) & P3 & P4). destruct SQ as ((Q1 & Q2) & Q3 & Q4). intros a b [[-> ->]|[-> ->]]; cbv zeta.
    - destruct (RAD q p (US q Q) (US p P) DS) as [Z1 Z2]. destruct (MID _ _ Q1 P1 Q3 P3) as [Z3 Z4]. destruct (MID _ _ Q2 P2 Q4 P4) as [Z5 Z6].
      rewrite (Rplus_comm (V (fst q))) in Z4. rewrite (Rplus_comm (V (snd q))) in Z6. repeat split; assumption.
    - destruct (RAD p q (US p P) (US q Q) eq_refl) as [Z1 Z2]. destruct (MID _ _ P1 Q1 P3 Q3) as [Z3 Z4]. destruct (MID _ _ P2 Q2 P4 Q4) as [Z5 Z6]. repeat split; assumption. }
  cbn [skyum64 map all_ok]. rewrite A1, A2, A3, A4. cbn [all_ok map]. rewrite C1, C2. cbn [bind map fst]. rewrite G1, G2.
  set (A := fabs (arccos (ratio64 (own p q)))) in *. set (keys := combine _ _). assert (LK : length keys = 2%nat) by reflexivity.
  pose proof (lexmax_range keys ltac:(discriminate)) as M. rewrite LK in M. destruct (lexmax64 keys) as [|[|k]]; [| |lia]; cbn [nth]; rewrite AY.
  - rewrite A1, A2, C1. pose proof (VALS p q (or_introl (conj eq_refl eq_refl))) as V1. do 4 eexists. split; [reflexivity|exact V1].
  - rewrite A3, A4, C2. pose proof (VALS q p (or_intror (conj eq_refl eq_refl))) as V1. do 4 eexists. split; [reflexivity|exact V1].
Qed.
(** One point. *)
Lemma circle_point : forall p, small_pt p -> circle64 arccos dot p p p = Raise ZeroDivisionError.
Proof using HA HD.
  intros p P. rewrite <- (circum_pair p p P P). assert (P' := P). destruct P' as ((P1 & P2) & P3 & P4).
  destruct (small_diff _ _ P1 P1 P3 P3) as (A1 & A2 & _). destruct (small_diff _ _ P2 P2 P4 P4) as (B1 & B2 & _). rewrite Rminus_diag_eq, rnd_0 in A2, B2 by reflexivity.
  destruct HD as (H1 & _ & _). destruct (H1 (fsub (fst p) (fst p)) (fsub (snd p) (snd p)) (fsub (fst p) (fst p)) (fsub (snd p) (snd p)) 0%Z 0%Z 0%Z 0%Z A1 B1 A1 B1 A2 B2 A2 B2) as [F E]; try (cbn; lia).
  assert (AN : angle64 arccos dot p p p = B754_nan).
  { unfold angle64. cbv zeta. unfold norm64. set (d := dot _ _) in *. destruct HA as (_ & _ & HN).
    assert (X : fdiv d (fmul (fsqrt d) (fsqrt d)) = B754_nan).
    { destruct d as [b|b| |b m e He]; try discriminate F; [destruct b; reflexivity|]. exfalso. change (IZR (0 * 0 + 0 * 0)) with 0 in E. revert E. unfold V, B2R. apply F2R_neq_0. destruct b; discriminate. }
    rewrite X, HN. reflexivity. }
  unfold circle64. rewrite AN. destruct p as [px py]. reflexivity.
Qed.
Lemma circle_exn : forall p q r e, circle64 arccos dot p q r = Raise e -> e = ZeroDivisionError.
Proof using.
  intros [px py] [qx qy] [rx ry] e. unfold circle64. destruct (flt _ tiny64); [discriminate|]. destruct (flt _ tiny64); [discriminate|].
  unfold circum64. destruct (feq _ _); [|discriminate]. intro H. injection H as <-. reflexivity.
Qed.
Lemma all_ok_exn : forall l e, all_ok (fun t : fpt * fpt * fpt => let '(p, q, r) := t in circle64 arccos dot p q r) l = Raise e -> e = ZeroDivisionError.
Proof using.
  induction l as [|[[p q] r] t IH]; intros e H; cbn [all_ok] in H; [discriminate|].
  destruct (circle64 arccos dot p q r) as [c|e'] eqn:E; cbn [bind] in H; [|injection H as <-; exact (circle_exn _ _ _ _ E)].
  destruct (all_ok _ t) as [cs|e']; cbn [bind] in H; [discriminate|]. injection H as <-. apply IH. reflexivity.
Qed.
Lemma loop_exn : forall fuel points removed e, points <> [] -> Forall small_pt points -> skyum64 arccos dot fuel points removed = Some (Raise e) -> e = ZeroDivisionError.
Proof using HA HD.
  induction fuel as [|fuel IH]; intros points removed e NE FA H; [discriminate|]. cbn [skyum64] in H.
  destruct (all_ok _ _) as [circles|e'] eqn:EC; [|injection H as <-; exact (all_ok_exn _ _ EC)].
  destruct points as [|p0 t]; [contradiction|]. set (points := p0 :: t) in *. set (triples := map (fun p => (prec64 p points, p, succ64 p points)) points) in *. set (angles := map _ triples) in *. set (radii := map _ circles) in *. set (m := lexmax64 _) in *.
  assert (M : (m < length points)%nat).
  { assert (LC : length circles = length points) by (rewrite (all_ok_length _ _ _ _ _ EC); apply map_length).
    assert (LK : length (combine radii angles) = length points) by (rewrite combine_length; unfold radii, angles, triples; rewrite !map_length, LC; apply Nat.min_id).
    rewrite <- LK. apply lexmax_range. intro X. rewrite X in LK. discriminate LK. }
  set (q := nth m points p0) in *. destruct (fle (nth m angles (fint 0)) half_pi).
  - destruct (circle64 arccos dot (prec64 q points) q (succ64 q points)) as [c|e'] eqn:E; [discriminate|]. injection H as <-. exact (circle_exn _ _ _ _ E).
  - apply (IH (remove_at m points) (removed ++ [q]) e); [| |exact H].
    + intro X. assert (L1 : length points = 1%nat) by (pose proof (remove_length m points M) as RL; rewrite X in RL; cbn [length points] in *; lia).
      assert (T0 : t = []) by (destruct t; [reflexivity|cbn in L1; lia]). subst t. unfold triples, points in EC. cbn [map all_ok] in EC. inversion FA as [|? ? FP _]; subst.
      assert (PP : prec64 p0 [p0] = p0 /\ succ64 p0 [p0] = p0) by (unfold prec64, succ64; cbn [index64]; rewrite (same_refl p0 (proj1 FP)); split; reflexivity).
      destruct PP as [PA PB]. rewrite PA, PB, (circle_point p0 FP) in EC. discriminate EC.
    + apply Forall_forall. intros x X. rewrite Forall_forall in FA. apply FA. eapply Permutation.Permutation_in; [apply Permutation.Permutation_sym, (remove_perm m points p0 M)|]. right. exact X.
Qed.

(** Three points. *)
Lemma lex3 : forall r0 r1 r2 a0 a1 a2, fin r0 -> fin r1 -> fin r2 -> let keys := [(r0, a0); (r1, a1); (r2, a2)] in
  (V r1 < V r0 -> V r2 < V r0 -> lexmax64 keys = 0%nat) /\ (V r0 < V r1 -> V r2 < V r1 -> lexmax64 keys = 1%nat) /\ (V r0 < V r2 -> V r1 < V r2 -> lexmax64 keys = 2%nat).
Proof using.
  intros r0 r1 r2 a0 a1 a2 F0 F1 F2 keys.
  assert (YES : forall x y ax ay, fin x -> fin y -> V x < V y -> lex_before (x, ax) (y, ay) = true).
  { intros x y ax ay X Y H. unfold lex_before, before64. cbn [fst]. rewrite (proj2 (flt_ok x y X Y) H). reflexivity. }
  assert (NO : forall x y ax ay, fin x -> fin y -> V y < V x -> lex_before (x, ax) (y, ay) = false).
  { intros x y ax ay X Y H. unfold lex_before, before64. cbn [fst]. rewrite (proj2 (flt_ok y x Y X) H), (flt_no x y X Y) by lra.
    destruct y; try discriminate Y; reflexivity. }
  unfold keys. cbn [lexmax64 lex_last64]. repeat split; intros H1 H2.
  - rewrite (YES r1 r0), (YES r2 r0) by assumption. reflexivity.
  - rewrite (NO r1 r0), (YES r2 r1) by assumption. reflexivity.
  - destruct (lex_before (r1, a1) (r0, a0)); [rewrite (NO r2 r0) by assumption|rewrite (NO r2 r1) by assumption]; reflexivity.
Qed.
Definition rad (k : f64 * f64 * f64) : f64 := fst (fst k).
Lemma tri_step : forall fuel a b c gone ka kb kc, fin_pt a -> fin_pt b -> fin_pt c -> other a b -> other a c -> other b c ->
  circle64 arccos dot c a b = Ok ka -> circle64 arccos dot a b c = Ok kb -> circle64 arccos dot b c a = Ok kc -> fin (rad ka) -> fin (rad kb) -> fin (rad kc) ->
  (V (rad kb) < V (rad ka) -> V (rad kc) < V (rad ka) -> skyum64 arccos dot (S fuel) [a; b; c] gone =
     if fle (angle64 arccos dot c a b) half_pi then Some (Ok (ka, [a; b; c], gone, (c, a, b))) else skyum64 arccos dot fuel [b; c] (gone ++ [a])) /\
  (V (rad ka) < V (rad kb) -> V (rad kc) < V (rad kb) -> skyum64 arccos dot (S fuel) [a; b; c] gone =
     if fle (angle64 arccos dot a b c) half_pi then Some (Ok (kb, [a; b; c], gone, (a, b, c))) else skyum64 arccos dot fuel [a; c] (gone ++ [b])) /\
  (V (rad ka) < V (rad kc) -> V (rad kb) < V (rad kc) -> skyum64 arccos dot (S fuel) [a; b; c] gone =
     if fle (angle64 arccos dot b c a) half_pi then Some (Ok (kc, [a; b; c], gone, (b, c, a))) else skyum64 arccos dot fuel [a; b] (gone ++ [c])).
Proof using.
  intros fuel a b c gone ka kb kc A B C AB AC BC Ea Eb Ec Fa Fb Fc. destruct (triple_places a b c A B C AB AC BC) as (P1 & P2 & P3 & P4 & P5 & P6).
  cbn [skyum64 map all_ok]. rewrite P1, P2, P3, P4, P5, P6. cbn [all_ok map]. rewrite Ea, Eb, Ec. cbn [bind map combine].
  destruct (lex3 (rad ka) (rad kb) (rad kc) (angle64 arccos dot c a b) (angle64 arccos dot a b c) (angle64 arccos dot b c a) Fa Fb Fc) as (L0 & L1 & L2). unfold rad in *.
  split; [|split]; intros H1 H2; [rewrite (L0 H1 H2)|rewrite (L1 H1 H2)|rewrite (L2 H1 H2)]; cbn [nth]; rewrite ?P1, ?P2, ?P3, ?P4, ?P5, ?P6, ?Ea, ?Eb, ?Ec; reflexivity.
Qed.
(** Points with integer coordinates. *)
Definition ipt (z : Z * Z) : fpt := (fint (fst z), fint (snd z)).
Definition isq (a b : Z * Z) : Z := ((fst a - fst b) * (fst a - fst b) + (snd a - snd b) * (snd a - snd b))%Z.
Definition idot (p q r : Z * Z) : Z := ((fst p - fst q) * (fst r - fst q) + (snd p - snd q) * (snd r - snd q))%Z.
Definition cos64 (p q r : Z * Z) : f64 := fdiv (fint (idot p q r)) (fmul (fsqrt (fint (isq p q))) (fsqrt (fint (isq r q)))).
Definition smallz (p : Z * Z) : Prop := (Z.abs (fst p) <= 1000 /\ Z.abs (snd p) <= 1000)%Z.
Lemma ipt_diff : forall a b, (Z.abs a <= 1000)%Z -> (Z.abs b <= 1000)%Z -> fin (fsub (fint a) (fint b)) /\ V (fsub (fint a) (fint b)) = IZR (a - b).
Proof using.
  intros a b A B. destruct (fint_ok a) as [FA VA]; [lia|]. destruct (fint_ok b) as [FB VB]; [lia|].
  assert (E : V (fint a) - V (fint b) = IZR (a - b)) by (rewrite VA, VB, minus_IZR; reflexivity).
  destruct (fsub_ok _ _ FA FB) as [F W].
  - rewrite E, <- abs_IZR. apply Rle_trans with (IZR (2 ^ 11)); [apply IZR_le; lia|]. rewrite IZR_pow2 by lia. apply bpow_le. lia.
  - split; [exact F|]. rewrite W, E. apply rnd_id, float_int. lia.
Qed.
Lemma idot_ok : forall p q r, smallz p -> smallz q -> smallz r -> idot p q r <> 0%Z -> dot (vec (ipt p) (ipt q)) (vec (ipt r) (ipt q)) = fint (idot p q r).
Proof using HD.
  intros p q r [P1 P2] [Q1 Q2] [R1 R2] N. unfold vec, ipt. cbn [fst snd].
  destruct (ipt_diff _ _ P1 Q1) as [A1 A2]. destruct (ipt_diff _ _ P2 Q2) as [B1 B2]. destruct (ipt_diff _ _ R1 Q1) as [C1 C2]. destruct (ipt_diff _ _ R2 Q2) as [D1 D2].
  destruct HD as (H1 & _ & _). destruct (H1 _ _ _ _ _ _ _ _ A1 B1 C1 D1 A2 B2 C2 D2) as [F E]; try lia. fold (idot p q r) in E.
  assert (PB : forall a b c d, (Z.abs a <= 1000 -> Z.abs b <= 1000 -> Z.abs c <= 1000 -> Z.abs d <= 1000 -> Z.abs ((a - b) * (c - d)) <= 2000 * 2000)%Z)
    by (intros; rewrite Z.abs_mul; apply Z.mul_le_mono_nonneg; lia).
  assert (NB : (Z.abs (idot p q r) <= 2 ^ 53)%Z).
  { unfold idot. pose proof (PB _ _ _ _ P1 Q1 R1 Q1) as X1. pose proof (PB _ _ _ _ P2 Q2 R2 Q2) as X2. set (m1 := ((fst p - fst q) * _)%Z) in *. set (m2 := ((snd p - snd q) * _)%Z) in *. clearbody m1 m2. clear - X1 X2. lia. }
  destruct (fint_ok _ NB) as [F2 V2].
  apply fin_eq; [exact F|exact F2|rewrite E, V2; reflexivity|rewrite E; intro X; apply eq_IZR in X; contradiction].
Qed.
Lemma iangle : forall p q r, smallz p -> smallz q -> smallz r -> idot p q r <> 0%Z -> isq p q <> 0%Z -> isq r q <> 0%Z ->
  angle64 arccos dot (ipt p) (ipt q) (ipt r) = fabs (arccos (cos64 p q r)).
Proof using HD.
  intros p q r P Q R0 N1 N2 N3. unfold angle64. cbv zeta. change (fsub (fst (ipt p)) (fst (ipt q)), fsub (snd (ipt p)) (snd (ipt q))) with (vec (ipt p) (ipt q)).
  change (fsub (fst (ipt r)) (fst (ipt q)), fsub (snd (ipt r)) (snd (ipt q))) with (vec (ipt r) (ipt q)). unfold norm64.
  rewrite (idot_ok p q r), (idot_ok p q p), (idot_ok r q r) by assumption. reflexivity.
Qed.
Lemma ifin : forall p, smallz p -> fin_pt (ipt p).
Proof using. intros p [A B]. split; apply fint_ok; lia. Qed.
Lemma iother : forall p q, smallz p -> smallz q -> p <> q -> other (ipt p) (ipt q).
Proof using.
  intros p q [A B] [C E] N. unfold other, ipt. cbn [fst snd]. destruct (fint_ok (fst p)) as [_ V1]; [lia|]. destruct (fint_ok (snd p)) as [_ V2]; [lia|]. destruct (fint_ok (fst q)) as [_ V3]; [lia|]. destruct (fint_ok (snd q)) as [_ V4]; [lia|].
  rewrite V1, V2, V3, V4. destruct (Z.eq_dec (fst p) (fst q)) as [H|H].
  - right. intro X. apply eq_IZR in X. apply N. destruct p, q. cbn in *. subst. reflexivity.
  - left. intro X. apply eq_IZR in X. contradiction.
Qed.
Lemma ismall : forall p, smallz p -> small_pt (ipt p).
Proof using.
  intros p [A B]. split; [apply ifin; split; assumption|]. unfold ipt. cbn [fst snd]. destruct (fint_ok (fst p)) as [_ V1]; [lia|]. destruct (fint_ok (snd p)) as [_ V2]; [lia|]. rewrite V1, V2, <- !abs_IZR.
  split; (apply Rle_trans with (IZR (2 ^ 10)); [apply IZR_le; lia|]; rewrite IZR_pow2 by lia; apply bpow_le; lia).
Qed.
Lemma iapart : forall p q, smallz p -> smallz q -> p <> q -> apart (ipt p) (ipt q).
Proof using.
  intros p q [A B] [C E] N. unfold apart, ipt. cbn [fst snd]. destruct (fint_ok (fst p)) as [_ V1]; [lia|]. destruct (fint_ok (snd p)) as [_ V2]; [lia|]. destruct (fint_ok (fst q)) as [_ V3]; [lia|]. destruct (fint_ok (snd q)) as [_ V4]; [lia|].
  rewrite V1, V2, V3, V4, <- !minus_IZR, <- !abs_IZR. assert (B1 : bpow radix2 (-440) <= IZR 1) by (change (IZR 1) with (bpow radix2 0); apply bpow_le; lia).
  destruct (Z.eq_dec (fst p) (fst q)) as [H|H]; [right|left]; (eapply Rle_trans; [exact B1|apply IZR_le]); [|lia].
  assert (snd p <> snd q) by (intro X; apply N; destruct p, q; cbn in *; subst; reflexivity). lia.
Qed.
(** Is the cosine clearly not 1 or -1, clearly negative, clearly positive? *)
Definition wide64 (x : f64) : bool := fle (fdyadic (-63) (-6)) x && fle x (fdyadic 63 (-6)).
Lemma wide_circle : forall p q r, smallz p -> smallz q -> smallz r -> idot p q r <> 0%Z -> isq p q <> 0%Z -> isq r q <> 0%Z ->
  is_finite (cos64 p q r) = true -> wide64 (cos64 p q r) = true -> circle64 arccos dot (ipt p) (ipt q) (ipt r) = circum64 (ipt p) (ipt q) (ipt r).
Proof using HA HD.
  intros p q r P Q R0 N1 N2 N3 F W. unfold wide64 in W. apply andb_true_iff in W. destruct W as [W1 W2].
  assert (X : forall k, (Z.abs k = 63)%Z -> fin (fdyadic k (-6)) /\ V (fdyadic k (-6)) = IZR k / 64).
  { intros k K. assert (E : IZR k * bpow radix2 (-6) = IZR k / 64) by (cbn; lra). destruct (fdyadic_ok k (-6)) as [A B].
    - rewrite E. unfold Rdiv. rewrite Rabs_mult, <- abs_IZR, K, Rabs_pos_eq by lra. apply Rle_trans with (bpow radix2 0); [cbn; lra|apply bpow_le; lia].
    - split; [exact A|]. rewrite B, rnd_id by (apply float_dyadic; lia). exact E. }
  destruct (X (-63)%Z eq_refl) as [FL VL]. destruct (X 63%Z eq_refl) as [FU VU]. apply (proj1 (fle_ok _ _ FL F)) in W1. apply (proj1 (fle_ok _ _ F FU)) in W2. rewrite VL in W1. rewrite VU in W2.
  destruct (wide_not_flat arccos HA (cos64 p q r) F) as [A B]; [apply Rabs_le; lra|].
  unfold circle64. rewrite (iangle p q r) by assumption. rewrite A, B. reflexivity.
Qed.
Lemma eighth : forall k, (Z.abs k = 1)%Z -> fin (fdyadic k (-3)) /\ V (fdyadic k (-3)) = IZR k / 8.
Proof using.
  intros k K. assert (E : IZR k * bpow radix2 (-3) = IZR k / 8) by (cbn; lra). destruct (fdyadic_ok k (-3)) as [A B].
  - rewrite E. unfold Rdiv. rewrite Rabs_mult, <- abs_IZR, K, Rabs_pos_eq by lra. apply Rle_trans with (bpow radix2 0); [cbn; lra|apply bpow_le; lia].
  - split; [exact A|]. rewrite B, rnd_id by (apply float_dyadic; lia). exact E.
Qed.
Lemma iacute : forall p q r, smallz p -> smallz q -> smallz r -> idot p q r <> 0%Z -> isq p q <> 0%Z -> isq r q <> 0%Z ->
  is_finite (cos64 p q r) = true -> fle (fdyadic 1 (-3)) (cos64 p q r) && fle (cos64 p q r) (fint 1) = true -> fle (angle64 arccos dot (ipt p) (ipt q) (ipt r)) half_pi = true.
Proof using HA HD.
  intros p q r P Q R0 N1 N2 N3 F W. apply andb_true_iff in W. destruct W as [W1 W2]. destruct (eighth 1%Z eq_refl) as [FL VL]. destruct (fint_ok 1) as [FU VU]; [lia|].
  apply (proj1 (fle_ok _ _ FL F)) in W1. apply (proj1 (fle_ok _ _ F FU)) in W2. rewrite VL in W1. rewrite VU in W2. rewrite iangle by assumption. apply acute_yes; [exact HA|exact F|lra].
Qed.
Lemma iobtuse : forall p q r, smallz p -> smallz q -> smallz r -> idot p q r <> 0%Z -> isq p q <> 0%Z -> isq r q <> 0%Z ->
  is_finite (cos64 p q r) = true -> fle (cos64 p q r) (fdyadic (-1) (-3)) && fle (fint (-1)) (cos64 p q r) = true -> fle (angle64 arccos dot (ipt p) (ipt q) (ipt r)) half_pi = false.
Proof using HA HD.
  intros p q r P Q R0 N1 N2 N3 F W. apply andb_true_iff in W. destruct W as [W1 W2]. destruct (eighth (-1)%Z eq_refl) as [FL VL]. destruct (fint_ok (-1)) as [FU VU]; [lia|].
  apply (proj1 (fle_ok _ _ F FL)) in W1. apply (proj1 (fle_ok _ _ FU F)) in W2. rewrite VL in W1. rewrite VU in W2. rewrite iangle by assumption. apply obtuse_no; [exact HA|exact F|lra].
Qed.
End Libs.

(** ** C147 *)
(** Whatever the libraries return, the loop ends after at most one round per point and one
    more; the result is the circle of three consecutive points among those left, with a
    computed angle of at most pi/2; the others were removed. *)
Theorem C147_loop : forall arccos dot l, exists r, skyum_lists64 arccos dot l = Some r /\
  match r with
  | Ok (c, rest, gone, (p, q, s)) => Permutation.Permutation l (gone ++ rest) /\ In q rest /\ p = prec64 q rest /\ s = succ64 q rest /\
      circle64 arccos dot p q s = Ok c /\ fle (angle64 arccos dot p q s) half_pi = true
  | Raise e => True
  end.
Proof.
  intros arccos dot l. destruct (skyum_general arccos dot (S (length l)) l [] ltac:(lia)) as (r & E & H). exists r. split; [exact E|].
  destruct r as [[[[c rest] gone] [[p q] s]]|e]; [|exact I]. destruct H as ((g & -> & P) & H). split; [exact P|exact H].
Qed.
Print Assumptions C147_loop.

(** With accurate libraries the only exception is ZeroDivisionError. *)
Theorem C147_exceptions : forall arccos dot l e, ArccosOk arccos -> DotOk dot ->
  (l <> [] -> Forall small_pt l -> skyum_lists64 arccos dot l = Some (Raise e) -> e = ZeroDivisionError) /\
  (l = [] -> skyum_lists64 arccos dot l = Some (Raise IndexError)).
Proof. intros arccos dot l e HA HD. split; [apply loop_exn; assumption|]. intros ->. reflexivity. Qed.
Print Assumptions C147_exceptions.

(** Three points of a row or column of small integers: the circle of the middle one is
    exactly the circle between the other two. *)
Theorem C147_straight : forall arccos dot a b d c (flip : bool), ArccosOk arccos -> DotOk dot ->
  smallz (a, c) -> smallz (b, c) -> smallz (d, c) -> (a < b < d)%Z \/ (d < b < a)%Z ->
  let at_ x := if flip then ipt (c, x) else ipt (x, c) in
  exists rho cx cy, circle64 arccos dot (at_ a) (at_ b) (at_ d) = Ok (rho, cx, cy) /\
    fin rho /\ V rho = Rabs (IZR (d - a)) / 2 /\
    fin cx /\ V cx = (if flip then IZR c else IZR (a + d) / 2) /\ fin cy /\ V cy = (if flip then IZR (a + d) / 2 else IZR c).
Proof.
  intros arccos dot a b d c flip HA HD [A C] [B _] [Dd _] ORD at_. cbn [fst snd] in *.
  set (pa := if flip then (c, a) else (a, c)). set (pb := if flip then (c, b) else (b, c)). set (pd := if flip then (c, d) else (d, c)).
  assert (SA : smallz pa) by (unfold pa; destruct flip; split; cbn; lia). assert (SB : smallz pb) by (unfold pb; destruct flip; split; cbn; lia). assert (SD : smallz pd) by (unfold pd; destruct flip; split; cbn; lia).
  assert (EA : at_ a = ipt pa) by (unfold at_, pa; destruct flip; reflexivity). assert (EB : at_ b = ipt pb) by (unfold at_, pb; destruct flip; reflexivity). assert (ED : at_ d = ipt pd) by (unfold at_, pd; destruct flip; reflexivity).
  assert (ID : idot pa pb pd = ((a - b) * (d - b))%Z) by (unfold idot, pa, pb, pd; destruct flip; cbn; ring).
  assert (I1 : isq pa pb = ((a - b) * (a - b))%Z) by (unfold isq, pa, pb; destruct flip; cbn; ring). assert (I2 : isq pd pb = ((d - b) * (d - b))%Z) by (unfold isq, pd, pb; destruct flip; cbn; ring).
  assert (PB : forall x y, (Z.abs x <= 2000 -> Z.abs y <= 2000 -> Z.abs (x * y) <= 2000 * 2000)%Z) by (intros; rewrite Z.abs_mul; apply Z.mul_le_mono_nonneg; lia).
  assert (BIG : forall k, (Z.abs k <= 2 ^ 53)%Z -> Rabs (IZR k) <= bpow radix2 1023).
  { intros k K. rewrite <- abs_IZR. apply Rle_trans with (IZR (2 ^ 53)); [apply IZR_le; exact K|]. rewrite IZR_pow2 by lia. apply bpow_le. lia. }
  assert (HALF : forall k, (Z.abs k <= 4000)%Z -> Rabs (IZR k / 2) <= bpow radix2 1023 /\ rnd (IZR k / 2) = IZR k / 2).
  { intros k K. replace (IZR k / 2) with (IZR k * bpow radix2 (-1)) by (cbn; field). split; [|apply rnd_id, float_dyadic; lia].
    rewrite Rabs_mult, (Rabs_pos_eq (bpow radix2 (-1))) by apply bpow_ge_0. apply Rle_trans with (Rabs (IZR k) * 1); [apply Rmult_le_compat_l; [apply Rabs_pos|cbn; lra]|]. rewrite Rmult_1_r. apply BIG. lia. }
  assert (ROOT : forall x k, fin x -> V x = IZR (k * k) -> (Z.abs k <= 2000)%Z -> fin (fsqrt x) /\ V (fsqrt x) = IZR (Z.abs k)).
  { intros x k F E K. destruct (fsqrt_ok x F) as [S1 S2]; [rewrite E; apply IZR_le; apply Z.square_nonneg|]. split; [exact S1|]. rewrite S2, E, mult_IZR. fold (Rsqr (IZR k)). rewrite sqrt_Rsqr_abs, <- abs_IZR. apply rnd_id, float_int. lia. }
  (* the cosine is -1 *)
  assert (CS : fin (cos64 pa pb pd) /\ V (cos64 pa pb pd) = -1).
  { unfold cos64. rewrite ID, I1, I2. pose proof (PB (a - b) (d - b) ltac:(lia) ltac:(lia))%Z as B1. pose proof (PB (a - b) (a - b) ltac:(lia) ltac:(lia))%Z as B2. pose proof (PB (d - b) (d - b) ltac:(lia) ltac:(lia))%Z as B3.
    destruct (fint_ok ((a - b) * (d - b))) as [F1 V1]; [lia|]. destruct (fint_ok ((a - b) * (a - b))) as [F2 V2]; [lia|]. destruct (fint_ok ((d - b) * (d - b))) as [F3 V3]; [lia|].
    destruct (ROOT _ _ F2 V2 ltac:(lia)) as [F4 V4]. destruct (ROOT _ _ F3 V3 ltac:(lia)) as [F5 V5].
    assert (AB : (Z.abs (a - b) * Z.abs (d - b) = - ((a - b) * (d - b)))%Z) by (destruct ORD; [rewrite (Z.abs_neq (a - b)), (Z.abs_eq (d - b)) by lia|rewrite (Z.abs_eq (a - b)), (Z.abs_neq (d - b)) by lia]; ring).
    assert (NZ : ((a - b) * (d - b) <> 0)%Z) by (apply Z.neq_mul_0; lia).
    destruct (fmul_ok _ _ F4 F5) as [F6 V6]; [rewrite V4, V5, <- mult_IZR; apply BIG; rewrite AB; lia|]. rewrite V4, V5, <- mult_IZR, AB, rnd_id in V6 by (apply float_int; lia).
    assert (QT : V (fint ((a - b) * (d - b))) / V (fmul (fsqrt (fint ((a - b) * (a - b)))) (fsqrt (fint ((d - b) * (d - b))))) = -1).
    { rewrite V1, V6, opp_IZR. field. intro X. apply eq_IZR in X. contradiction. }
    destruct (fdiv_ok (fint ((a - b) * (d - b))) (fmul (fsqrt (fint ((a - b) * (a - b)))) (fsqrt (fint ((d - b) * (d - b))))) F1) as [F7 V7].
    - rewrite V6. intro X. apply eq_IZR in X. lia.
    - rewrite QT. apply (BIG (-1)%Z). lia.
    - split; [exact F7|]. rewrite V7, QT. apply rnd_id, (float_int (-1)%Z). lia. }
  destruct CS as [FC VC].
  assert (AN : angle64 arccos dot (ipt pa) (ipt pb) (ipt pd) = fabs (arccos (cos64 pa pb pd))).
  { apply iangle; try assumption; rewrite ?ID, ?I1, ?I2; apply Z.neq_mul_0; lia. }
  destruct (arccos_value arccos HA (cos64 pa pb pd) FC) as (A0 & FA & AV & AA); [rewrite VC; lra|]. rewrite VC in AV.
  assert (AC : acos (-1) = PI) by (replace (-1) with (- (1)) by ring; rewrite acos_opp, acos_1; ring). rewrite AC in AV.
  assert (FLAT : flt (fabs (fsub (fabs (fabs (arccos (cos64 pa pb pd)))) pi64)) tiny64 = true).
  { rewrite AA. destruct pi_ok as [FP _]. pose proof pi_bounds as [[P1 P2] [P3 P4]]. destruct tiny_ok as (FT & T1 & T2). pose proof pi_near as PN. apply Rabs_le_inv in PN. change (bpow radix2 (-49)) with (/ 562949953421312) in PN.
    assert (SM : Rabs (V (fabs (arccos (cos64 pa pb pd))) - V pi64) <= bpow radix2 (-20)) by (change (bpow radix2 (-20)) with (/ 1048576); apply Rabs_le; lra).
    destruct (fsub_ok _ pi64 FA FP) as [FS VS]; [eapply Rle_trans; [exact SM|apply bpow_le; lia]|]. destruct (fabs_ok _ FS) as [FB VB]. apply (proj2 (flt_ok _ _ FB FT)). rewrite VB, VS.
    apply Rle_lt_trans with (bpow radix2 (-20)); [apply rnd_abs_le; [apply float_pow2; lia|exact SM]|]. change (bpow radix2 (-20)) with (/ 1048576). lra. }
  rewrite EA, EB, ED. unfold circle64. rewrite AN, FLAT. unfold ipt at 1 2 3.
  (* exact values *)
  assert (MID : forall x y, (Z.abs x <= 1000)%Z -> (Z.abs y <= 1000)%Z -> fin (fdiv (fadd (fint x) (fint y)) (fint 2)) /\ V (fdiv (fadd (fint x) (fint y)) (fint 2)) = IZR (x + y) / 2).
  { intros x y X Y. destruct (fint_ok x) as [F1 V1]; [lia|]. destruct (fint_ok y) as [F2 V2]; [lia|]. destruct (fint_ok 2) as [F3 V3]; [lia|].
    destruct (fadd_ok _ _ F1 F2) as [F4 V4]; [rewrite V1, V2, <- plus_IZR; apply BIG; lia|]. rewrite V1, V2, <- plus_IZR, rnd_id in V4 by (apply float_int; lia).
    destruct (HALF (x + y)%Z ltac:(lia)) as [H1 H2]. destruct (fdiv_ok _ (fint 2) F4) as [F5 V5]; [rewrite V3; lra|rewrite V4, V3; exact H1|]. split; [exact F5|]. rewrite V5, V4, V3. exact H2. }
  assert (RAD : forall x, fin x -> V x = IZR (Z.abs (d - a)) -> fin (fdiv x (fint 2)) /\ V (fdiv x (fint 2)) = Rabs (IZR (d - a)) / 2).
  { intros x F E. destruct (fint_ok 2) as [F3 V3]; [lia|]. destruct (HALF (Z.abs (d - a)) ltac:(lia)) as [H1 H2]. destruct (fdiv_ok x (fint 2) F) as [F5 V5]; [rewrite V3; lra|rewrite E, V3; exact H1|]. split; [exact F5|]. rewrite V5, E, V3, H2, abs_IZR. reflexivity. }
  assert (DST : fin (distance64 (fint (fst pa)) (fint (snd pa)) (fint (fst pd)) (fint (snd pd))) /\ V (distance64 (fint (fst pa)) (fint (snd pa)) (fint (fst pd)) (fint (snd pd))) = IZR (Z.abs (d - a))).
  { unfold distance64, dist64. apply ROOT; [| |lia].
    all: unfold sq64; cbn [fst snd].
    all: destruct SA as [A1 A2]; destruct SD as [D1 D2]; destruct (ipt_diff _ _ A1 D1) as [X1 X2]; destruct (ipt_diff _ _ A2 D2) as [Y1 Y2].
    all: pose proof (PB (fst pa - fst pd) (fst pa - fst pd) ltac:(lia) ltac:(lia))%Z as B1; pose proof (PB (snd pa - snd pd) (snd pa - snd pd) ltac:(lia) ltac:(lia))%Z as B2.
    all: destruct (fmul_ok _ _ X1 X1) as [M1 M2]; [rewrite X2, <- mult_IZR; apply BIG; lia|]; rewrite X2, <- mult_IZR, rnd_id in M2 by (apply float_int; lia).
    all: destruct (fmul_ok _ _ Y1 Y1) as [N1 N2]; [rewrite Y2, <- mult_IZR; apply BIG; lia|]; rewrite Y2, <- mult_IZR, rnd_id in N2 by (apply float_int; lia).
    all: destruct (fadd_ok _ _ M1 N1) as [S1 S2]; [rewrite M2, N2, <- plus_IZR; apply BIG; lia|]; rewrite M2, N2, <- plus_IZR, rnd_id in S2 by (apply float_int; lia).
    - exact S1.
    - rewrite S2. f_equal. unfold pa, pd. destruct flip; cbn [fst snd]; ring. }
  destruct DST as [DF DV]. destruct (RAD _ DF DV) as [RF RV].
  destruct (MID (fst pa) (fst pd) ltac:(apply SA) ltac:(apply SD)) as [XF XV]. destruct (MID (snd pa) (snd pd) ltac:(apply SA) ltac:(apply SD)) as [YF YV].
  do 3 eexists. split; [reflexivity|]. split; [exact RF|]. split; [exact RV|]. split; [exact XF|]. split; [|split; [exact YF|]].
  - rewrite XV. unfold pa, pd. destruct flip; cbn [fst snd]; [rewrite plus_IZR; field|reflexivity].
  - rewrite YV. unfold pa, pd. destruct flip; cbn [fst snd]; [reflexivity|rewrite plus_IZR; field].
Qed.
Print Assumptions C147_straight.

(** Two points: the loop ends with the circle between them exactly if the rounded square
    of the rounded root of the squared distance is not below the squared distance. *)
Theorem C147_pair : forall arccos dot p q, ArccosOk arccos -> DotOk dot -> small_pt p -> small_pt q -> apart p q ->
  let d := dot (vec p q) (vec p q) in
  (V (fmul (fsqrt d) (fsqrt d)) < V d -> skyum_lists64 arccos dot [p; q] = Some (Raise ZeroDivisionError)) /\
  (V d <= V (fmul (fsqrt d) (fsqrt d)) -> exists rho cx cy cand, skyum_lists64 arccos dot [p; q] = Some (Ok (rho, cx, cy, [p; q], [], cand)) /\
     fin rho /\ Rabs (V rho - D p q / 2) <= bpow radix2 (-50) * D p q /\
     fin cx /\ V cx = rnd (rnd (V (fst p) + V (fst q)) / 2) /\ fin cy /\ V cy = rnd (rnd (V (snd p) + V (snd q)) / 2)).
Proof.
  intros arccos dot p q HA HD P Q AP d. split; intro H.
  - apply (pair_raises arccos dot HA HD 2 p q [] P Q AP H).
  - apply (pair_returns arccos dot HA HD 2 p q [] P Q AP H).
Qed.
Print Assumptions C147_pair.

(** Finding: (0, 0), (0, 1), (3, 2) has an obtuse angle at (0, 1), but the radius computed
    at (0, 0) is the largest by rounding; the circumscribed circle is returned although
    the points fit into a smaller one. *)
Definition rotations {A} (a b c : A) : list (list A) := [[a; b; c]; [b; c; a]; [c; a; b]].
Theorem C147_too_large_refuted : forall arccos dot l, ArccosOk arccos -> DotOk dot ->
  In l (rotations (ipt (0, 0)%Z) (ipt (0, 1)%Z) (ipt (3, 2)%Z)) ->
  exists rho cx cy cand, skyum_lists64 arccos dot l = Some (Ok (rho, cx, cy, l, [], cand)) /\ 189 / 100 < V rho /\ covers (3 / 2) 1 (181 / 100) l.
Proof.
  intros arccos dot l HA HD IL. set (a := (0, 0)%Z) in *. set (b := (0, 1)%Z) in *. set (c := (3, 2)%Z) in *.
  assert (Sa : smallz a) by (split; cbn; lia). assert (Sb : smallz b) by (split; cbn; lia). assert (Sc : smallz c) by (split; cbn; lia).
  assert (Oab : other (ipt a) (ipt b)) by (apply iother; auto; discriminate). assert (Oac : other (ipt a) (ipt c)) by (apply iother; auto; discriminate). assert (Obc : other (ipt b) (ipt c)) by (apply iother; auto; discriminate).
  assert (Ca : circle64 arccos dot (ipt c) (ipt a) (ipt b) = circum64 (ipt c) (ipt a) (ipt b)) by (apply wide_circle; auto; try discriminate; vm_compute; reflexivity).
  assert (Cb : circle64 arccos dot (ipt a) (ipt b) (ipt c) = circum64 (ipt a) (ipt b) (ipt c)) by (apply wide_circle; auto; try discriminate; vm_compute; reflexivity).
  assert (Cc : circle64 arccos dot (ipt b) (ipt c) (ipt a) = circum64 (ipt b) (ipt c) (ipt a)) by (apply wide_circle; auto; try discriminate; vm_compute; reflexivity).
  assert (AY : fle (angle64 arccos dot (ipt c) (ipt a) (ipt b)) half_pi = true) by (apply iacute; auto; try discriminate; vm_compute; reflexivity).
  assert (CMP : match circum64 (ipt c) (ipt a) (ipt b), circum64 (ipt a) (ipt b) (ipt c), circum64 (ipt b) (ipt c) (ipt a) with
    | Ok ka, Ok kb, Ok kc => is_finite (rad ka) && is_finite (rad kb) && is_finite (rad kc) && flt (rad kb) (rad ka) && flt (rad kc) (rad ka) && flt (fdyadic 121 (-6)) (rad ka)
    | _, _, _ => false end = true) by (vm_compute; reflexivity).
  destruct (circum64 (ipt c) (ipt a) (ipt b)) as [ka|]; [|discriminate CMP]. destruct (circum64 (ipt a) (ipt b) (ipt c)) as [kb|]; [|discriminate CMP]. destruct (circum64 (ipt b) (ipt c) (ipt a)) as [kc|]; [|discriminate CMP].
  repeat (apply andb_true_iff in CMP; destruct CMP as [CMP ?]). fold (fin (rad ka)) in CMP.
  assert (Fb : fin (rad kb)) by assumption. assert (Fc : fin (rad kc)) by assumption.
  assert (LB : V (rad kb) < V (rad ka)) by (apply (proj1 (flt_ok _ _ Fb CMP)); assumption). assert (LC : V (rad kc) < V (rad ka)) by (apply (proj1 (flt_ok _ _ Fc CMP)); assumption).
  assert (LR : 189 / 100 < V (rad ka)).
  { assert (E : IZR 121 * bpow radix2 (-6) = 121 / 64) by (cbn; lra). destruct (fdyadic_ok 121 (-6)) as [F61 V61]; [rewrite E, Rabs_pos_eq by lra; apply Rle_trans with (bpow radix2 1); [cbn; lra|apply bpow_le; lia]|].
    rewrite rnd_id, E in V61 by (apply float_dyadic; lia). assert (X : flt (fdyadic 121 (-6)) (rad ka) = true) by assumption. apply (proj1 (flt_ok _ _ F61 CMP)) in X. rewrite V61 in X. lra. }
  assert (CV : Forall (fun p => (V (fst p) - 3 / 2) ^ 2 + (V (snd p) - 1) ^ 2 <= (181 / 100) ^ 2) [ipt a; ipt b; ipt c]).
  { destruct (fint_ok 0) as [_ V0]; [lia|]. destruct (fint_ok 1) as [_ V1]; [lia|]. destruct (fint_ok 2) as [_ V2]; [lia|]. destruct (fint_ok 3) as [_ V3]; [lia|].
    repeat (apply Forall_cons; [|]); try apply Forall_nil; unfold ipt, a, b, c; cbn [fst snd]; rewrite ?V0, ?V1, ?V2, ?V3; lra. }
  inversion CV as [|? ? C1 CV2]; subst. inversion CV2 as [|? ? C2 CV3]; subst. inversion CV3 as [|? ? C3 _]; subst.
  destruct IL as [<-|[<-|[<-|[]]]]; unfold skyum_lists64; cbn [length].
  - destruct (tri_step arccos dot 3 (ipt a) (ipt b) (ipt c) [] ka kb kc (ifin a Sa) (ifin b Sb) (ifin c Sc) Oab Oac Obc Ca Cb Cc CMP Fb Fc) as (X & _ & _). rewrite (X LB LC), AY.
    destruct ka as [[rho cx] cy]. exists rho, cx, cy, (ipt c, ipt a, ipt b). split; [reflexivity|]. split; [exact LR|]. unfold covers. repeat (apply Forall_cons; [assumption|]). apply Forall_nil.
  - destruct (tri_step arccos dot 3 (ipt b) (ipt c) (ipt a) [] kb kc ka (ifin b Sb) (ifin c Sc) (ifin a Sa) Obc (other_sym _ _ Oab) (other_sym _ _ Oac) Cb Cc Ca Fb Fc CMP) as (_ & _ & X). rewrite (X LB LC), AY.
    destruct ka as [[rho cx] cy]. exists rho, cx, cy, (ipt c, ipt a, ipt b). split; [reflexivity|]. split; [exact LR|]. unfold covers. repeat (apply Forall_cons; [assumption|]). apply Forall_nil.
  - destruct (tri_step arccos dot 3 (ipt c) (ipt a) (ipt b) [] kc ka kb (ifin c Sc) (ifin a Sa) (ifin b Sb) (other_sym _ _ Oac) (other_sym _ _ Obc) Oab Cc Ca Cb Fc CMP Fb) as (_ & X & _). rewrite (X LC LB), AY.
    destruct ka as [[rho cx] cy]. exists rho, cx, cy, (ipt c, ipt a, ipt b). split; [reflexivity|]. split; [exact LR|]. unfold covers. repeat (apply Forall_cons; [assumption|]). apply Forall_nil.
Qed.
Print Assumptions C147_too_large_refuted.

(** Finding: for the same points with the coordinates exchanged the call fails. *)
Theorem C147_crash_refuted : forall arccos dot l, ArccosOk arccos -> DotOk dot ->
  In l (rotations (ipt (0, 0)%Z) (ipt (2, 3)%Z) (ipt (1, 0)%Z)) -> skyum_lists64 arccos dot l = Some (Raise ZeroDivisionError).
Proof.
  intros arccos dot l HA HD IL. set (a := (0, 0)%Z) in *. set (b := (2, 3)%Z) in *. set (c := (1, 0)%Z) in *.
  assert (Sa : smallz a) by (split; cbn; lia). assert (Sb : smallz b) by (split; cbn; lia). assert (Sc : smallz c) by (split; cbn; lia).
  assert (Oab : other (ipt a) (ipt b)) by (apply iother; auto; discriminate). assert (Oac : other (ipt a) (ipt c)) by (apply iother; auto; discriminate). assert (Obc : other (ipt b) (ipt c)) by (apply iother; auto; discriminate).
  assert (Ca : circle64 arccos dot (ipt c) (ipt a) (ipt b) = circum64 (ipt c) (ipt a) (ipt b)) by (apply wide_circle; auto; try discriminate; vm_compute; reflexivity).
  assert (Cb : circle64 arccos dot (ipt a) (ipt b) (ipt c) = circum64 (ipt a) (ipt b) (ipt c)) by (apply wide_circle; auto; try discriminate; vm_compute; reflexivity).
  assert (Cc : circle64 arccos dot (ipt b) (ipt c) (ipt a) = circum64 (ipt b) (ipt c) (ipt a)) by (apply wide_circle; auto; try discriminate; vm_compute; reflexivity).
  assert (AN : fle (angle64 arccos dot (ipt b) (ipt c) (ipt a)) half_pi = false) by (apply iobtuse; auto; try discriminate; vm_compute; reflexivity).
  assert (CMP : match circum64 (ipt c) (ipt a) (ipt b), circum64 (ipt a) (ipt b) (ipt c), circum64 (ipt b) (ipt c) (ipt a) with
    | Ok ka, Ok kb, Ok kc => is_finite (rad ka) && is_finite (rad kb) && is_finite (rad kc) && flt (rad ka) (rad kc) && flt (rad kb) (rad kc)
    | _, _, _ => false end = true) by (vm_compute; reflexivity).
  destruct (circum64 (ipt c) (ipt a) (ipt b)) as [ka|]; [|discriminate CMP]. destruct (circum64 (ipt a) (ipt b) (ipt c)) as [kb|]; [|discriminate CMP]. destruct (circum64 (ipt b) (ipt c) (ipt a)) as [kc|]; [|discriminate CMP].
  repeat (apply andb_true_iff in CMP; destruct CMP as [CMP ?]). fold (fin (rad ka)) in CMP.
  assert (Fb : fin (rad kb)) by assumption. assert (Fc : fin (rad kc)) by assumption.
  assert (LA : V (rad ka) < V (rad kc)) by (apply (proj1 (flt_ok _ _ CMP Fc)); assumption). assert (LB : V (rad kb) < V (rad kc)) by (apply (proj1 (flt_ok _ _ Fb Fc)); assumption).
  assert (PR : forall p q, (p = a /\ q = b) \/ (p = b /\ q = a) -> forall fuel gone, skyum64 arccos dot (S fuel) [ipt p; ipt q] gone = Some (Raise ZeroDivisionError)).
  { intros p q PQ fuel gone. assert (Sp : smallz p) by (destruct PQ as [[-> ->]|[-> ->]]; assumption). assert (Sq : smallz q) by (destruct PQ as [[-> ->]|[-> ->]]; assumption).
    assert (N : p <> q) by (destruct PQ as [[-> ->]|[-> ->]]; discriminate). assert (I13 : idot p q p = 13%Z) by (destruct PQ as [[-> ->]|[-> ->]]; reflexivity).
    apply pair_raises; auto using ismall, iapart. unfold own. rewrite (idot_ok dot HD p q p Sp Sq Sp) by (rewrite I13; discriminate). rewrite I13.
    assert (F13 : is_finite (fmul (fsqrt (fint 13)) (fsqrt (fint 13))) = true) by (vm_compute; reflexivity). destruct (fint_ok 13) as [G13 _]; [lia|].
    apply (proj1 (flt_ok _ _ F13 G13)). vm_compute. reflexivity. }
  destruct IL as [<-|[<-|[<-|[]]]]; unfold skyum_lists64; cbn [length].
  - destruct (tri_step arccos dot 3 (ipt a) (ipt b) (ipt c) [] ka kb kc (ifin a Sa) (ifin b Sb) (ifin c Sc) Oab Oac Obc Ca Cb Cc CMP Fb Fc) as (_ & _ & X). rewrite (X LA LB), AN. apply PR. auto.
  - destruct (tri_step arccos dot 3 (ipt b) (ipt c) (ipt a) [] kb kc ka (ifin b Sb) (ifin c Sc) (ifin a Sa) Obc (other_sym _ _ Oab) (other_sym _ _ Oac) Cb Cc Ca Fb Fc CMP) as (_ & X & _). rewrite (X LB LA), AN. apply PR. auto.
  - destruct (tri_step arccos dot 3 (ipt c) (ipt a) (ipt b) [] kc ka kb (ifin c Sc) (ifin a Sa) (ifin b Sb) (other_sym _ _ Oac) (other_sym _ _ Obc) Oab Cc Ca Cb Fc CMP Fb) as (X & _ & _). rewrite (X LA LB), AN. apply PR. auto.
Qed.
Print Assumptions C147_crash_refuted.

(** Both through the call: any order of the points, any order of the hull. *)
Lemma three_orders : forall {A} (a b c : A) l, Permutation.Permutation l [a; b; c] -> In l (rotations a b c) \/ In (rev l) (rotations a b c).
Proof.
  intros A a b c l P. assert (L := Permutation.Permutation_length P). destruct l as [|x [|y [|z [|w l]]]]; try discriminate L. clear L.
  assert (X : In x [a; b; c]) by (apply (Permutation.Permutation_in _ P); left; reflexivity).
  assert (T : forall x y p q : A, Permutation.Permutation [x; y] [p; q] -> (x = p /\ y = q) \/ (x = q /\ y = p)) by (intros ? ? ? ? H; apply Permutation.Permutation_length_2 in H; tauto).
  destruct X as [X|[X|[X|[]]]]; subst x.
  - apply Permutation.Permutation_cons_inv in P. destruct (T _ _ _ _ P) as [[-> ->]|[-> ->]]; cbn; auto 10.
  - assert (Q : Permutation.Permutation [b; y; z] [b; a; c]) by (rewrite P; apply Permutation.perm_swap). apply Permutation.Permutation_cons_inv in Q.
    destruct (T _ _ _ _ Q) as [[-> ->]|[-> ->]]; cbn; auto 10.
  - assert (Q : Permutation.Permutation [c; y; z] [c; a; b]) by (rewrite P; apply Permutation.Permutation_sym, (Permutation.Permutation_cons_append [a; b] c)). apply Permutation.Permutation_cons_inv in Q.
    destruct (T _ _ _ _ Q) as [[-> ->]|[-> ->]]; cbn; auto 10.
Qed.
Definition clockwise3 (a b c : Z * Z) : Prop := ((fst a * snd b - snd a * fst b) + (fst b * snd c - snd b * fst c) + (fst c * snd a - snd c * fst a) < 0)%Z.
Lemma mbc_runs : forall arccos dot hull cw pts a b c, ClockwiseOk cw -> smallz a -> smallz b -> smallz c -> clockwise3 a b c ->
  Permutation.Permutation pts [ipt a; ipt b; ipt c] -> Permutation.Permutation (hull pts) pts ->
  exists l, In l (rotations (ipt a) (ipt b) (ipt c)) /\ Permutation.Permutation pts l /\
    mbc64 arccos dot hull cw pts = match skyum_lists64 arccos dot l with
      | None => None | Some (Raise e) => Some (Raise e) | Some (Ok (rho, cx, cy, _, _, _)) => Some (Ok ((cx, cy), rho)) end.
Proof.
  intros arccos dot hull cw pts a b c CW Sa Sb Sc N P H. assert (PH := Permutation.Permutation_trans H P).
  assert (Y : forall l, In l (rotations (ipt a) (ipt b) (ipt c)) -> cw l = true /\ cw (rev l) = false).
  { unfold clockwise3 in N. unfold smallz in Sa, Sb, Sc. destruct a as [a1 a2], b as [b1 b2], c as [c1 c2]. cbn [fst snd] in *.
    intros l [<-|[<-|[<-|[]]]]; unfold ipt; cbn [rev app fst snd]; rewrite !CW by lia; split; try (apply Z.ltb_lt; lia); apply Z.ltb_ge; lia. }
  unfold mbc64. destruct (three_orders _ _ _ _ PH) as [I|I].
  - exists (hull pts). split; [exact I|]. split; [apply Permutation.Permutation_sym, H|]. rewrite (proj1 (Y _ I)). reflexivity.
  - exists (rev (hull pts)). split; [exact I|]. split; [apply Permutation.Permutation_sym; etransitivity; [apply Permutation.Permutation_sym, Permutation.Permutation_rev|exact H]|].
    pose proof (Y _ I) as [Y1 Y2]. rewrite rev_involutive in Y2. rewrite Y1, Y2. reflexivity.
Qed.

Theorem C147_call_refuted : forall arccos dot hull cw pts, ArccosOk arccos -> DotOk dot -> ClockwiseOk cw -> Permutation.Permutation (hull pts) pts ->
  (Permutation.Permutation pts [ipt (0, 0)%Z; ipt (0, 1)%Z; ipt (3, 2)%Z] ->
     exists c rho, mbc64 arccos dot hull cw pts = Some (Ok (c, rho)) /\ 189 / 100 < V rho /\ covers (3 / 2) 1 (181 / 100) pts) /\
  (Permutation.Permutation pts [ipt (0, 0)%Z; ipt (2, 3)%Z; ipt (1, 0)%Z] -> mbc64 arccos dot hull cw pts = Some (Raise ZeroDivisionError)).
Proof.
  intros arccos dot hull cw pts HA HD CW H. split; intro P.
  - destruct (mbc_runs arccos dot hull cw pts (0, 0)%Z (0, 1)%Z (3, 2)%Z CW) as (l & I & PL & E); try assumption; try (split; cbn; lia); try (unfold clockwise3; cbn; lia).
    destruct (C147_too_large_refuted arccos dot l HA HD I) as (rho & cx & cy & cand & R1 & R2 & R3). rewrite R1 in E. exists (cx, cy), rho. split; [exact E|]. split; [exact R2|].
    unfold covers in *. rewrite Forall_forall in *. intros p Hp. apply R3, (Permutation.Permutation_in _ PL Hp).
  - destruct (mbc_runs arccos dot hull cw pts (0, 0)%Z (2, 3)%Z (1, 0)%Z CW) as (l & I & PL & E); try assumption; try (split; cbn; lia); try (unfold clockwise3; cbn; lia).
    rewrite (C147_crash_refuted arccos dot l HA HD I) in E. exact E.
Qed.
Print Assumptions C147_call_refuted.

(** ** Concrete cases *)
(** Libraries as assumed exist: arccos rounded to nearest, and two rounded products that
    are added. *)
Definition dot_plain (v w : fpt) : f64 := fadd (fmul (fst v) (fst w)) (fmul (snd v) (snd w)).
Definition of_real (x : R) : f64 := fdyadic (Ztrunc (scaled_mantissa radix2 fexp64 (rnd x))) (cexp radix2 fexp64 (rnd x)).
Definition arccos_nearest (x : f64) : f64 :=
  if is_finite x then if Rle_dec (-1) (V x) then if Rle_dec (V x) 1 then of_real (acos (V x)) else B754_nan else B754_nan else B754_nan.
Example C147_case_libraries : ArccosOk arccos_nearest /\ DotOk dot_plain.
Proof.
  assert (REAL : forall x, Rabs x <= 4 -> fin (of_real x) /\ V (of_real x) = rnd x).
  { intros x X. assert (E : IZR (Ztrunc (scaled_mantissa radix2 fexp64 (rnd x))) * bpow radix2 (cexp radix2 fexp64 (rnd x)) = rnd x) by (symmetry; apply (rnd_float x)).
    destruct (fdyadic_ok (Ztrunc (scaled_mantissa radix2 fexp64 (rnd x))) (cexp radix2 fexp64 (rnd x))) as [A B].
    - rewrite E. apply Rle_trans with (bpow radix2 2); [apply rnd_abs_le; [apply float_pow2; lia|exact X]|apply bpow_le; lia].
    - split; [exact A|]. unfold of_real. rewrite B, E. apply rnd_id, rnd_float. }
  split.
  - split; [|split].
    + intros x F [B1 B2]. unfold arccos_nearest. unfold fin in F. rewrite F. destruct (Rle_dec (-1) (V x)); [|contradiction]. destruct (Rle_dec (V x) 1); [|contradiction].
      pose proof (acos_bound (V x)) as AB. pose proof pi_bounds as [_ PB]. destruct (REAL (acos (V x))) as [A E]; [rewrite Rabs_pos_eq; lra|]. split; [exact A|]. rewrite E.
      pose proof (rnd_error (acos (V x))) as ER. rewrite (Rabs_pos_eq (acos (V x))) in ER by lra. assert (T : tiny <= bpow radix2 (-41)) by (apply bpow_le; lia).
      assert (U : u * acos (V x) <= bpow radix2 (-41)).
      { apply Rle_trans with (bpow radix2 (-53) * bpow radix2 2); [change (bpow radix2 2) with 4; pose proof (bpow_gt_0 radix2 (-53)); unfold u; nra|]. rewrite <- bpow_plus. apply bpow_le. lia. }
      replace (bpow radix2 (-40)) with (bpow radix2 (-41) + bpow radix2 (-41)); [lra|]. replace (bpow radix2 (-40)) with (2 * bpow radix2 (-41)) by (change 2 with (bpow radix2 1); rewrite <- bpow_plus; reflexivity). ring.
    + intros x F H. unfold arccos_nearest. unfold fin in F. rewrite F. destruct (Rle_dec (-1) (V x)); [|reflexivity]. destruct (Rle_dec (V x) 1); [|reflexivity]. lra.
    + reflexivity.
  - split; [|split].
    + intros a b c d i j k l A B C Dd VA VB VC VD I J K L. unfold dot_plain. cbn [fst snd].
      assert (IB : forall x y, (Z.abs x <= 2 ^ 20)%Z -> (Z.abs y <= 2 ^ 20)%Z -> (Z.abs (x * y) <= 2 ^ 40)%Z) by (intros x y X Y; rewrite Z.abs_mul; change (2 ^ 40)%Z with (2 ^ 20 * 2 ^ 20)%Z; apply Z.mul_le_mono_nonneg; lia).
      assert (OK : forall z, (Z.abs z <= 2 ^ 41)%Z -> Rabs (IZR z) <= bpow radix2 1023 /\ rnd (IZR z) = IZR z).
      { intros z Z0. split; [|apply rnd_id, float_int; lia]. rewrite <- abs_IZR. apply Rle_trans with (IZR (2 ^ 41)); [apply IZR_le; exact Z0|]. rewrite IZR_pow2 by lia. apply bpow_le. lia. }
      pose proof (IB i k I K) as B1. pose proof (IB j l J L) as B2. destruct (OK (i * k)%Z ltac:(lia)) as [O1 O2]. destruct (OK (j * l)%Z ltac:(lia)) as [O3 O4]. destruct (OK (i * k + j * l)%Z ltac:(lia)) as [O5 O6].
      destruct (fmul_ok a c A C) as [F1 E1]; [rewrite VA, VC, <- mult_IZR; exact O1|]. destruct (fmul_ok b d B Dd) as [F2 E2]; [rewrite VB, VD, <- mult_IZR; exact O3|].
      rewrite VA, VC, <- mult_IZR, O2 in E1. rewrite VB, VD, <- mult_IZR, O4 in E2. destruct (fadd_ok _ _ F1 F2) as [F3 E3]; [rewrite E1, E2, <- plus_IZR; exact O5|].
      split; [exact F3|]. rewrite E3, E1, E2, <- plus_IZR. exact O6.
    + intros a b A B BA BB LOW. unfold dot_plain. cbn [fst snd]. set (x := V a * V a) in *. set (y := V b * V b) in *.
      assert (x0 : 0 <= x <= bpow radix2 800) by (unfold x; rewrite <- Rabs_mult_sq; change 800%Z with (400 + 400)%Z; rewrite bpow_plus; pose proof (Rabs_pos (V a)); split; [apply Rmult_le_pos|apply Rmult_le_compat]; assumption).
      assert (y0 : 0 <= y <= bpow radix2 800) by (unfold y; rewrite <- Rabs_mult_sq; change 800%Z with (400 + 400)%Z; rewrite bpow_plus; pose proof (Rabs_pos (V b)); split; [apply Rmult_le_pos|apply Rmult_le_compat]; assumption).
      assert (B8 : bpow radix2 800 <= bpow radix2 1023) by (apply bpow_le; lia).
      destruct (fmul_ok a a A A) as [F1 E1]; [fold x; rewrite Rabs_pos_eq; lra|]. destruct (fmul_ok b b B B) as [F2 E2]; [fold y; rewrite Rabs_pos_eq; lra|]. fold x in E1. fold y in E2.
      pose proof (rnd_error x) as X1. pose proof (rnd_error y) as Y1. rewrite (Rabs_pos_eq x) in X1 by lra. rewrite (Rabs_pos_eq y) in Y1 by lra. pose proof (rnd_nonneg x ltac:(lra)) as rx0. pose proof (rnd_nonneg y ltac:(lra)) as ry0.
      assert (RX : rnd x <= bpow radix2 800) by (rewrite <- (rnd_id (bpow radix2 800)) by (apply float_pow2; lia); apply rnd_le; lra).
      assert (RY : rnd y <= bpow radix2 800) by (rewrite <- (rnd_id (bpow radix2 800)) by (apply float_pow2; lia); apply rnd_le; lra).
      assert (B81 : bpow radix2 801 <= bpow radix2 1023) by (apply bpow_le; lia). assert (B82 : bpow radix2 801 = 2 * bpow radix2 800) by (change 2 with (bpow radix2 1); rewrite <- bpow_plus; reflexivity).
      destruct (fadd_ok _ _ F1 F2) as [F3 E3]; [rewrite E1, E2, Rabs_pos_eq; lra|]. rewrite E1, E2 in E3. split; [exact F3|]. rewrite E3.
      pose proof (rnd_plus_error (rnd x) (rnd y) (rnd_float x) (rnd_float y)) as P1. rewrite (Rabs_pos_eq (rnd x + rnd y)) in P1 by lra.
      set (s := x + y) in *. assert (T : tiny <= u * s).
      { apply Rle_trans with (bpow radix2 (-53) * bpow radix2 (-900)); [unfold tiny; rewrite <- bpow_plus; apply bpow_le; lia|unfold u; apply Rmult_le_compat_l; [apply bpow_ge_0|exact LOW]]. }
      assert (U : 0 <= u <= / 1000) by (rewrite u_val; lra). apply Rabs_le_inv in X1. apply Rabs_le_inv in Y1. apply Rabs_le_inv in P1.
      assert (s0 : 0 <= s) by (unfold s; lra). replace (bpow radix2 (-50)) with (8 * u) by (unfold u; change 8 with (bpow radix2 3); rewrite <- bpow_plus; reflexivity).
      assert (Q : - (3 * (u * s)) <= rnd x + rnd y - s <= 3 * (u * s)) by (unfold s in *; lra). assert (us : 0 <= u * s) by (apply Rmult_le_pos; lra).
      assert (u * (rnd x + rnd y) <= 2 * (u * s)) by nra. apply Rabs_le. lra.
    + intros a b c d A B C Dd E1 E2. unfold dot_plain. cbn [fst snd].
      assert (X : forall x y, fin x -> fin y -> V y = - V x -> V (fmul y y) = V (fmul x x) /\ is_finite (fmul y y) = is_finite (fmul x x) /\ fmul y y = fmul x x).
      { intros x y X Y E. assert (Z0 : fmul y y = fmul x x); [|rewrite Z0; auto].
        destruct x as [sx|sx| |sx mx ex Hx]; try discriminate X; destruct y as [sy|sy| |sy my ey Hy]; try discriminate Y.
        - destruct sx, sy; reflexivity.
        - exfalso. change (V (B754_zero sx)) with 0 in E. rewrite Ropp_0 in E. revert E. unfold V, B2R. apply F2R_neq_0. destruct sy; discriminate.
        - exfalso. change (V (B754_zero sy)) with 0 in E. assert (E' : V (B754_finite sx mx ex Hx) = 0) by lra. revert E'. unfold V, B2R. apply F2R_neq_0. destruct sx; discriminate.
        - assert (EY : B754_finite sy my ey Hy = Bopp (B754_finite sx mx ex Hx)).
          { apply B2R_inj; [reflexivity|reflexivity|]. rewrite B2R_Bopp. exact E. }
          rewrite EY. cbn [Bopp]. apply B2SF_inj. unfold fmul, Bmult. rewrite !B2SF_SF2B. destruct sx; reflexivity. }
      destruct (X a c A C E1) as (_ & _ & ->). destruct (X b d B Dd E2) as (_ & _ & ->). reflexivity.
Qed.
(** Two points on a line parallel to an axis, and (0, 0) and (2, 3): the criterion of C147_pair. *)
Example C147_case :
  fle (fint 9) (fmul (fsqrt (fint 9)) (fsqrt (fint 9))) = true /\ flt (fmul (fsqrt (fint 13)) (fsqrt (fint 13))) (fint 13) = true /\
  fle (fint 2) (fmul (fsqrt (fint 2)) (fsqrt (fint 2))) = true /\
  match circum64 (ipt (0, 0)%Z) (ipt (4, 3)%Z) (ipt (4, -3)%Z) with Ok (r, x, y) => feq r (fdyadic 25 (-3)) && feq x (fdyadic 25 (-3)) && feq y (fint 0) | Raise _ => false end = true /\
  circum64 (ipt (0, 0)%Z) (ipt (1, 1)%Z) (ipt (2, 2)%Z) = Raise ZeroDivisionError /\
  lexmax64 [(fint 1, fint 3); (fint 2, fint 1); (fint 2, fint 1); (fint 2, fint 0)] = 2%nat /\ lexmax64 [(fint 1, fint 3); (B754_nan, fint 0); (fint 2, fint 9)] = 1%nat.
Proof. repeat split; vm_compute; reflexivity. Qed.
