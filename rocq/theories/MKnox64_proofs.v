(** Lemmas for C144. *)
From Coq Require Import Reals ZArith QArith Qreals List Bool Lia Lra Psatz.
From Flocq Require Import Core BinarySingleNaN.
From Verif Require Import Base Float_model Float_proofs F64_model F64_proofs F64_props Area64_model Area64_spec Area64_proofs Spacetime_model MKnox64_model.
Import ListNotations.
Local Open Scope R_scope.

(** ** Sizes *)
Lemma nsum_le : forall A (f : A -> nat) l b, (forall x, In x l -> (f x <= b)%nat) -> (nsum (map f l) <= List.length l * b)%nat.
Proof.
  intros A f l b. induction l as [|x l IH]; intro H; [cbn; lia|]. cbn [map nsum fold_right List.length]. fold (nsum (map f l)).
  specialize (IH (fun y I => H y (or_intror I))). specialize (H x (or_introl eq_refl)). lia.
Qed.
Lemma b2n_le : forall b, (b2n b <= 1)%nat. Proof. destruct b; cbn; lia. Qed.
Definition ones (sm tm : list (list bool)) (n : nat) : nat :=
  nsum (map (fun i => nsum (map (fun j => b2n (mget tm i j && mget sm i j)) (seq 0 n))) (seq 0 n)).
Lemma ones_le : forall sm tm n, (ones sm tm n <= n * n)%nat.
Proof.
  intros. unfold ones.
  pose proof (nsum_le nat (fun i => nsum (map (fun j => b2n (mget tm i j && mget sm i j)) (seq 0 n))) (seq 0 n) n) as H. rewrite seq_length in H. apply H. intros i _.
  pose proof (nsum_le nat (fun j => b2n (mget tm i j && mget sm i j)) (seq 0 n) 1) as H1. rewrite seq_length, Nat.mul_1_r in H1. apply H1. intros. apply b2n_le.
Qed.
Lemma col_sum_range : forall m n j, (-1 <= col_sum m n j <= Z.of_nat n - 1)%Z.
Proof.
  intros m n j. unfold col_sum. pose proof (nsum_le nat (fun i => b2n (mget m i j)) (seq 0 n) 1 ltac:(intros; apply b2n_le)) as H. rewrite seq_length in H. lia.
Qed.
Lemma expstat_le : forall sm tm n, (2 <= n)%nat -> (Z.abs (expstat sm tm n) <= Z.of_nat n * ((Z.of_nat n - 1) * (Z.of_nat n - 1)))%Z.
Proof.
  intros sm tm n N. unfold expstat.
  assert (G : forall l, (Z.abs (Zsum (map (fun j => (col_sum sm n j * col_sum tm n j)%Z) l)) <= Z.of_nat (List.length l) * ((Z.of_nat n - 1) * (Z.of_nat n - 1)))%Z); [|specialize (G (seq 0 n)); rewrite seq_length in G; exact G].
  induction l as [|j l IH]; [cbn; lia|].
  cbn [map Zsum fold_right List.length]. fold (Zsum (map (fun j => (col_sum sm n j * col_sum tm n j)%Z) l)).
  pose proof (col_sum_range sm n j). pose proof (col_sum_range tm n j).
  assert (Z.abs (col_sum sm n j * col_sum tm n j) <= (Z.of_nat n - 1) * (Z.of_nat n - 1))%Z by nia. lia.
Qed.
(** ** The exact statistic *)
Definition mkR (sm tm : list (list bool)) (n : nat) : R := (IZR (mk_obs sm tm n) - IZR (expstat sm tm n) / (INR n - 1)) / 2.
Lemma q_of_z : forall z, Q2R (inject_Z z) = IZR z.
Proof. intro z. unfold Q2R, inject_Z. cbn. field. Qed.
Lemma mk_stat_real : forall sm tm n, (2 <= n)%nat -> exists v, mk_stat sm tm n = Fin v /\ Q2R v = mkR sm tm n.
Proof.
  intros sm tm n N. unfold mk_stat. fold (expstat sm tm n). unfold xdiv.
  assert (D : ~ (Qnat n - 1 == 0)%Q). { intro H. apply Qeq_eqR in H. unfold Qnat in H. rewrite Q2R_minus, q_of_z in H. replace (Q2R 1) with 1 in H by (unfold Q2R; cbn; lra). replace (Q2R 0) with 0 in H by (unfold Q2R; cbn; lra).
    rewrite <- INR_IZR_INZ in H. apply le_INR in N. cbn in N. lra. }
  destruct (Qeq_bool (Qnat n - 1) 0) eqn:E; [apply Qeq_bool_iff in E; contradiction|]. eexists. split; [reflexivity|].
  rewrite Q2R_div by discriminate. rewrite Q2R_minus, Q2R_div by exact D. rewrite Q2R_minus. unfold Qnat. rewrite !q_of_z, <- INR_IZR_INZ.
  replace (Q2R 1) with 1 by (unfold Q2R; cbn; lra). replace (Q2R 2) with 2 by (unfold Q2R; cbn; lra). reflexivity.
Qed.
(** Different values are 1 / (2 (n - 1)) apart. *)
Lemma mk_gap : forall sm tm sm' tm' n, (2 <= n)%nat -> mkR sm tm n < mkR sm' tm' n -> / (2 * (INR n - 1)) <= mkR sm' tm' n - mkR sm tm n.
Proof.
  intros sm tm sm' tm' n N H. unfold mkR in *. set (o := mk_obs sm tm n) in *. set (o' := mk_obs sm' tm' n) in *. set (e := expstat sm tm n) in *. set (e' := expstat sm' tm' n) in *.
  assert (M : 1 <= INR n - 1) by (apply le_INR in N; cbn in N; lra). set (m := (Z.of_nat n - 1)%Z). assert (ME : INR n - 1 = IZR m) by (unfold m; rewrite minus_IZR, <- INR_IZR_INZ; reflexivity).
  set (d := (o' * m - e' - (o * m - e))%Z). assert (DE : (IZR o' - IZR e' / (INR n - 1)) / 2 - (IZR o - IZR e / (INR n - 1)) / 2 = IZR d * / (2 * (INR n - 1))).
  { unfold d. rewrite !minus_IZR, !mult_IZR, <- ME. field. lra. }
  rewrite DE. assert (I : 0 < / (2 * (INR n - 1))) by (apply Rinv_0_lt_compat; lra).
  assert (D1 : (1 <= d)%Z); [|apply IZR_le in D1; nra]. assert (0 < IZR d); [|apply lt_IZR in H0; lia].
  apply Rmult_lt_reg_r with (/ (2 * (INR n - 1))); [exact I|]. rewrite <- DE. lra.
Qed.
Lemma mkR_le : forall sm tm n, (2 <= n)%nat -> Rabs (IZR (expstat sm tm n) / (INR n - 1)) <= INR n * (INR n - 1) /\ Rabs (IZR (mk_obs sm tm n)) <= INR n * INR n.
Proof.
  intros sm tm n N. assert (M : 1 <= INR n - 1) by (apply le_INR in N; cbn in N; lra). split.
  - pose proof (expstat_le sm tm n N) as E. apply IZR_le in E. rewrite abs_IZR, !mult_IZR, minus_IZR, <- INR_IZR_INZ in E.
    unfold Rdiv. rewrite Rabs_mult, (Rabs_pos_eq (/ _)) by (apply Rlt_le, Rinv_0_lt_compat; lra).
    apply Rmult_le_reg_r with (INR n - 1); [lra|]. rewrite Rmult_assoc, Rinv_l, Rmult_1_r by lra. lra.
  - unfold mk_obs. fold (ones sm tm n). pose proof (ones_le sm tm n) as O. rewrite <- abs_IZR, INR_IZR_INZ, <- mult_IZR. apply IZR_le. nia.
Qed.

(** ** The computed statistic *)
Lemma entry_ok : forall sm tm i j, fin (entry64 sm tm i j) /\ V (entry64 sm tm i j) = INR (b2n (mget tm i j && mget sm i j)).
Proof.
  intros sm tm i j. assert (BIG : 1 <= bpow radix2 1023) by (change 1 with (bpow radix2 0); apply bpow_le; lia).
  assert (BV : forall b, fin (bit64 b) /\ V (bit64 b) = INR (b2n b)). { intros [|]; unfold bit64; [destruct (fint_ok 1) as [F E]|destruct (fint_ok 0) as [F E]]; try lia; (split; [exact F|rewrite E; reflexivity]). }
  assert (IR : forall a b, INR (b2n a) * INR (b2n b) = INR (b2n (a && b))) by (intros [|] [|]; cbn; ring).
  assert (RI : forall b, rnd (INR (b2n b)) = INR (b2n b)) by (intro b; rewrite INR_IZR_INZ; apply rnd_id, float_int; destruct b; cbn; lia).
  assert (AB : forall b, Rabs (INR (b2n b)) <= bpow radix2 1023) by (intros [|]; cbn; rewrite ?Rabs_R0, ?Rabs_R1; lra).
  assert (MM : forall x y a b, fin x -> V x = INR (b2n a) -> fin y -> V y = INR (b2n b) -> fin (fmul x y) /\ V (fmul x y) = INR (b2n (a && b))).
  { intros x y a b FX EX FY EY. destruct (fmul_ok x y FX FY) as [F E]; [rewrite EX, EY, IR; apply AB|]. split; [exact F|]. rewrite E, EX, EY, IR. apply RI. }
  destruct (fint_ok 1) as [F1 E1]; [lia|]. destruct (BV (mget tm i j)) as [FT ET]. destruct (BV (mget sm i j)) as [FS ES].
  destruct (MM _ _ true _ F1 E1 FT ET) as [A1 A2]. destruct (MM _ _ true _ F1 E1 FS ES) as [B1 B2]. apply (MM _ _ _ _ A1 A2 B1 B2).
Qed.
Lemma row_ok : forall (f : nat -> f64) (c : nat -> nat) l, (forall j, fin (f j) /\ V (f j) = INR (c j)) ->
  Forall fin (map f l) /\ Forall (multiple 0) (map f l) /\ Vsum (map f l) = INR (nsum (map c l)) /\ Vabs (map f l) = INR (nsum (map c l)).
Proof.
  intros f c l H. induction l as [|j l (A & B & C & D)]; [cbn; repeat split; constructor|]. destruct (H j) as [F E]. cbn [map]. split; [constructor; assumption|].
  split. { constructor; [|exact B]. exists (Z.of_nat (c j)). rewrite E, INR_IZR_INZ. change (bpow radix2 0) with 1. ring. }
  unfold Vsum, Vabs in *. cbn [map fold_right nsum]. fold (nsum (map c l)). rewrite plus_INR, C, D, E. rewrite (Rabs_pos_eq (INR _)) by apply pos_INR. split; reflexivity.
Qed.
Lemma mat_ok : forall sm tm n, let l := knoxmat64 sm tm n in
  Forall fin l /\ Forall (multiple 0) l /\ Vsum l = INR (ones sm tm n) /\ Vabs l = INR (ones sm tm n).
Proof.
  intros sm tm n. unfold knoxmat64, ones.
  assert (G : forall is, let l := flat_map (fun i => map (entry64 sm tm i) (seq 0 n)) is in let c := nsum (map (fun i => nsum (map (fun j => b2n (mget tm i j && mget sm i j)) (seq 0 n))) is) in
    Forall fin l /\ Forall (multiple 0) l /\ Vsum l = INR c /\ Vabs l = INR c); [|apply (G (seq 0 n))].
  induction is as [|i is (A & B & C & D)]; [cbn; repeat split; constructor|].
  cbn [flat_map map nsum fold_right]. fold (nsum (map (fun i => nsum (map (fun j => b2n (mget tm i j && mget sm i j)) (seq 0 n))) is)).
  destruct (row_ok (entry64 sm tm i) (fun j => b2n (mget tm i j && mget sm i j)) (seq 0 n) (entry_ok sm tm i)) as (A1 & B1 & C1 & D1).
  split; [apply Forall_app; auto|]. split; [apply Forall_app; auto|]. rewrite Vsum_app, Vabs_app, plus_INR, C, D, C1, D1. split; reflexivity.
Qed.
Lemma sum_ok : forall sm tm n t, (Z.of_nat n <= 2 ^ 26)%Z -> Adds t (knoxmat64 sm tm n) -> fin (tsum t) /\ V (tsum t) = INR (ones sm tm n).
Proof.
  intros sm tm n t N A. destruct (mat_ok sm tm n) as (F & M & S1 & S2). destruct (adds_ok t _ A F) as (F' & E1 & E2 & _ & M').
  destruct (tsum_exact t 0 ltac:(lia) F' (M' _ M)) as (G1 & G2 & _); [|split; [exact G1|rewrite G2, E1; exact S1]].
  rewrite E2, S2, INR_IZR_INZ. change (0 + 53)%Z with 53%Z. rewrite <- IZR_pow2 by lia. apply IZR_le. pose proof (ones_le sm tm n). nia.
Qed.
Lemma mk64_steps : forall sm tm n t, (2 <= n)%nat -> (Z.of_nat n <= 2 ^ 16)%Z -> Adds t (knoxmat64 sm tm n) ->
  let x := mk64 (tsum t) (expstat sm tm n) n in
  fin x /\ V x = rnd (rnd (IZR (mk_obs sm tm n) - rnd (IZR (expstat sm tm n) / (INR n - 1))) / 2).
Proof.
  intros sm tm n t N N16 A. destruct (sum_ok sm tm n t ltac:(lia) A) as [SF SV]. pose proof (ones_le sm tm n) as O. pose proof (expstat_le sm tm n N) as E.
  destruct (mkR_le sm tm n N) as [B1 B2]. assert (M : 1 <= INR n - 1) by (apply le_INR in N; cbn in N; lra).
  destruct (fint_ok (Z.of_nat n)) as [NF NV]; [lia|]. destruct (fint_ok 1) as [F1 V1]; [lia|]. destruct (fint_ok 2) as [F2 V2]; [lia|].
  destruct (fint_ok (expstat sm tm n)) as [EF EV]. { set (z := Z.of_nat n) in *. assert (Z1 : (0 <= (z - 1) * (z - 1) <= 2 ^ 16 * 2 ^ 16)%Z) by nia. assert (z * ((z - 1) * (z - 1)) <= 2 ^ 16 * (2 ^ 16 * 2 ^ 16))%Z by (apply Z.mul_le_mono_nonneg; lia). lia. }
  assert (NR : INR n <= bpow radix2 16) by (rewrite INR_IZR_INZ, <- IZR_pow2 by lia; apply IZR_le; exact N16).
  change (bpow radix2 16) with 65536 in NR. assert (BIG : 1000000000000000000 <= bpow radix2 1023). { apply Rle_trans with (bpow radix2 60); [cbn; lra|apply bpow_le; lia]. }
  set (ob := mk_obs sm tm n) in *. set (ex := expstat sm tm n) in *. set (e := IZR ex / (INR n - 1)) in *.
  assert (OB : INR (ones sm tm n) - INR n = IZR ob) by (unfold ob, mk_obs; fold (ones sm tm n); rewrite minus_IZR, <- !INR_IZR_INZ; reflexivity).
  rewrite <- INR_IZR_INZ in NV.
  destruct (fsub_ok (tsum t) (fint (Z.of_nat n)) SF NF) as [OF OV]. { rewrite SV, NV, OB. nra. }
  rewrite SV, NV, OB in OV. assert (OI : isfloat (IZR ob)). { apply float_int. apply le_IZR. rewrite abs_IZR. rewrite IZR_pow2 by lia. apply Rle_trans with (bpow radix2 32); [|apply bpow_le; lia]. change (bpow radix2 32) with 4294967296. nra. }
  rewrite (rnd_id _ OI) in OV.
  destruct (fsub_ok (fint (Z.of_nat n)) (fint 1) NF F1) as [DF DV]. { rewrite NV, V1, Rabs_pos_eq by lra. lra. }
  rewrite NV, V1 in DV. assert (DI : isfloat (INR n - 1)). { rewrite INR_IZR_INZ, <- minus_IZR. apply float_int. lia. } rewrite (rnd_id _ DI) in DV.
  destruct (fdiv_ok (fint ex) (fsub (fint (Z.of_nat n)) (fint 1)) EF) as [QF QV]; [rewrite DV; lra|rewrite EV, DV; fold e; nra|].
  rewrite EV, DV in QV. fold e in QV.
  assert (Q1 : Rabs (rnd e) <= 2 * (INR n * (INR n - 1)) + 1).
  { pose proof (rnd_error e) as R1. pose proof u_le. pose proof u_ge. assert (tiny <= 1) by (change 1 with (bpow radix2 0); apply bpow_le; lia).
    pose proof (Rabs_pos e). assert (Rabs (rnd e) <= Rabs e + Rabs (rnd e - e)) by (replace (rnd e) with (e + (rnd e - e)) at 1 by ring; apply Rabs_triang). nra. }
  assert (Q2 : Rabs (IZR ob - rnd e) <= 100000000000). { unfold Rminus. eapply Rle_trans; [apply Rabs_triang|]. rewrite Rabs_Ropp. nra. }
  destruct (fsub_ok _ _ OF QF) as [RF RV]; [rewrite OV, QV; lra|]. rewrite OV, QV in RV.
  assert (Q3 : Rabs (rnd (IZR ob - rnd e)) <= 300000000000).
  { pose proof (rnd_error (IZR ob - rnd e)) as R1. pose proof u_le. pose proof u_ge. assert (tiny <= 1) by (change 1 with (bpow radix2 0); apply bpow_le; lia).
    set (y := IZR ob - rnd e) in *. pose proof (Rabs_pos y). assert (Rabs (rnd y) <= Rabs y + Rabs (rnd y - y)) by (replace (rnd y) with (y + (rnd y - y)) at 1 by ring; apply Rabs_triang). nra. }
  destruct (fdiv_ok _ (fint 2) RF) as [XF XV]; [rewrite V2; lra| |].
  { rewrite RV, V2. unfold Rdiv. rewrite Rabs_mult, (Rabs_pos_eq (/ 2)) by lra. lra. }
  rewrite RV, V2 in XV. split; [exact XF|exact XV].
Qed.
Lemma mk64_error : forall sm tm n t, (2 <= n)%nat -> (Z.of_nat n <= 2 ^ 16)%Z -> Adds t (knoxmat64 sm tm n) ->
  let x := mk64 (tsum t) (expstat sm tm n) n in fin x /\ Rabs (V x - mkR sm tm n) <= 4 * u * (INR n * INR n).
Proof.
  intros sm tm n t N N16 A x. destruct (mk64_steps sm tm n t N N16 A) as [XF XV]. fold x in XF, XV. split; [exact XF|]. rewrite XV. unfold mkR.
  destruct (mkR_le sm tm n N) as [B1 B2]. set (ob := IZR (mk_obs sm tm n)) in *. set (e := IZR (expstat sm tm n) / (INR n - 1)) in *.
  assert (M : 2 <= INR n) by (apply le_INR in N; cbn in N; lra). set (q := INR n * INR n) in *. assert (Q4 : 4 <= q) by (unfold q; nra).
  assert (B3 : Rabs e <= q) by (unfold q; nra). pose proof (rnd_error e) as R1. pose proof (rnd_error (ob - rnd e)) as R2. set (y := rnd (ob - rnd e)) in *. pose proof (rnd_error (y / 2)) as R3.
  pose proof u_ge as U0. assert (U1 : u <= / 1000) by (apply Rle_trans with (bpow radix2 (-10)); [apply bpow_le; lia|cbn; lra]).
  assert (T : tiny <= u / 1000). { apply Rle_trans with (u * bpow radix2 (-10)); [unfold u, tiny; rewrite <- bpow_plus; apply bpow_le; lia|]. cbn. lra. } pose proof tiny_gt.
  assert (OE : Rabs (ob - e) <= 2 * q) by (unfold Rminus; eapply Rle_trans; [apply Rabs_triang|]; rewrite Rabs_Ropp; lra).
  assert (A1 : Rabs (rnd e - e) <= 1.01 * u * q) by nra.
  assert (A2 : Rabs (ob - rnd e) <= 2.1 * q). { replace (ob - rnd e) with ((ob - e) - (rnd e - e)) by ring. unfold Rminus at 1. eapply Rle_trans; [apply Rabs_triang|]. rewrite Rabs_Ropp. nra. }
  assert (A3 : Rabs (y - (ob - rnd e)) <= 2.2 * u * q) by nra.
  assert (A4 : Rabs (y - (ob - e)) <= 3.3 * u * q). { replace (y - (ob - e)) with ((y - (ob - rnd e)) - (rnd e - e)) by ring. unfold Rminus at 1. eapply Rle_trans; [apply Rabs_triang|]. rewrite Rabs_Ropp. nra. }
  assert (A5 : Rabs y <= 2.1 * q). { replace y with ((ob - e) + (y - (ob - e))) by ring. eapply Rle_trans; [apply Rabs_triang|]. nra. }
  assert (A6 : Rabs (y / 2) <= 1.05 * q) by (unfold Rdiv; rewrite Rabs_mult, (Rabs_pos_eq (/ 2)) by lra; lra).
  assert (A7 : Rabs (rnd (y / 2) - y / 2) <= 1.1 * u * q) by nra.
  replace (rnd (y / 2) - (ob - e) / 2) with ((rnd (y / 2) - y / 2) + (y - (ob - e)) * / 2) by (unfold Rdiv; ring). eapply Rle_trans; [apply Rabs_triang|]. rewrite Rabs_mult, (Rabs_pos_eq (/ 2)) by lra. nra.
Qed.
(** Nothing is rounded if n - 1 is a power of two. *)
Lemma mk64_exact : forall sm tm n t k, (0 <= k)%Z -> (Z.of_nat n - 1 = 2 ^ k)%Z -> (Z.of_nat n <= 2 ^ 16)%Z -> Adds t (knoxmat64 sm tm n) ->
  V (mk64 (tsum t) (expstat sm tm n) n) = mkR sm tm n.
Proof.
  intros sm tm n t k K0 NK N16 A. assert (P2 : (0 < 2 ^ k)%Z) by (apply Z.pow_pos_nonneg; lia). assert (N : (2 <= n)%nat) by lia.
  destruct (mk64_steps sm tm n t N N16 A) as [_ XV]. rewrite XV. unfold mkR. destruct (mkR_le sm tm n N) as [B1 B2].
  assert (K16 : (k < 16)%Z) by (apply (Z.pow_lt_mono_r_iff 2); lia).
  assert (DE : INR n - 1 = bpow radix2 k) by (rewrite INR_IZR_INZ, <- minus_IZR, NK; apply IZR_pow2; exact K0). rewrite DE in *.
  set (ob := mk_obs sm tm n) in *. set (ex := expstat sm tm n) in *.
  assert (NR : INR n <= bpow radix2 16) by (rewrite INR_IZR_INZ, <- IZR_pow2 by lia; apply IZR_le; exact N16). change (bpow radix2 16) with 65536 in NR.
  assert (N0 : 2 <= INR n) by (apply le_INR in N; cbn in N; lra). assert (BK : bpow radix2 k <= 65536) by lra. pose proof (bpow_gt_0 radix2 k) as BP.
  assert (EE : IZR ex / bpow radix2 k = IZR ex * bpow radix2 (- k)) by (rewrite bpow_opp; reflexivity).
  assert (W : forall z j, (-1074 <= j)%Z -> (-17 <= j)%Z -> Rabs (IZR z * bpow radix2 j) <= 10000000000 -> rnd (IZR z * bpow radix2 j) = IZR z * bpow radix2 j).
  { intros z j J J' B. apply rnd_id, grid_float; [exact J|]. eapply Rle_trans; [exact B|]. apply Rle_trans with (bpow radix2 36); [cbn; lra|apply bpow_le; lia]. }
  assert (E1 : Rabs (IZR ex / bpow radix2 k) <= 4300000000) by nra. assert (O1 : Rabs (IZR ob) <= 4300000000) by nra.
  rewrite EE in *. rewrite (W ex (- k)%Z) by (lia || lra).
  assert (OE : IZR ob - IZR ex * bpow radix2 (- k) = IZR (ob * 2 ^ k - ex) * bpow radix2 (- k)).
  { rewrite minus_IZR, mult_IZR, IZR_pow2 by exact K0. rewrite Rmult_minus_distr_r, Rmult_assoc, <- bpow_plus. replace (k + - k)%Z with 0%Z by lia. change (bpow radix2 0) with 1. ring. }
  assert (B3 : Rabs (IZR ob - IZR ex * bpow radix2 (- k)) <= 9000000000) by (unfold Rminus; eapply Rle_trans; [apply Rabs_triang|]; rewrite Rabs_Ropp; lra).
  rewrite OE in *. rewrite W by (lia || lra).
  assert (HE : IZR (ob * 2 ^ k - ex) * bpow radix2 (- k) / 2 = IZR (ob * 2 ^ k - ex) * bpow radix2 (- k - 1)).
  { replace (- k - 1)%Z with (- k + -1)%Z by lia. rewrite (bpow_plus radix2 (- k)). change (bpow radix2 (-1)) with (/ 2). unfold Rdiv. ring. }
  rewrite HE. apply W; [lia|lia|]. rewrite <- HE. unfold Rdiv. rewrite Rabs_mult, (Rabs_pos_eq (/ 2)) by lra. lra.
Qed.

(** The sum is the float of a positive number of ones. *)
Lemma tsum_ones : forall sm tm n t, (Z.of_nat n <= 2 ^ 26)%Z -> (1 <= ones sm tm n)%nat -> Adds t (knoxmat64 sm tm n) -> tsum t = fint (Z.of_nat (ones sm tm n)).
Proof.
  intros sm tm n t N P A. destruct (sum_ok sm tm n t N A) as [F E]. pose proof (ones_le sm tm n). destruct (fint_ok (Z.of_nat (ones sm tm n))) as [F' E']; [nia|].
  rewrite <- INR_IZR_INZ in E'. apply le_INR in P. cbn in P. apply (B2R_inj 53 1024); [| |unfold V in E, E'; rewrite E, E'; reflexivity]; apply is_finite_strict_B2R; unfold V in E, E'; lra.
Qed.

(** ** The expected table *)
Lemma half_ok : forall k, (0 <= k <= 2 ^ 50)%Z -> fin (half64 (2 * k)) /\ V (half64 (2 * k)) = IZR k.
Proof.
  intros k K. destruct (fint_ok (2 * k)) as [F E]; [lia|]. destruct (fint_ok 2) as [F2 E2]; [lia|].
  assert (Q : IZR (2 * k) / 2 = IZR k) by (rewrite mult_IZR; field). assert (B : Rabs (IZR k) <= bpow radix2 1023).
  { rewrite <- abs_IZR, Z.abs_eq by lia. apply Rle_trans with (bpow radix2 50); [rewrite <- IZR_pow2 by lia; apply IZR_le; lia|apply bpow_le; lia]. }
  destruct (fdiv_ok (fint (2 * k)) (fint 2) F) as [A C]; [rewrite E2; lra|rewrite E, E2, Q; exact B|]. split; [exact A|]. unfold half64. rewrite C, E, E2, Q. apply rnd_id, float_int. lia.
Qed.
Section Table.
Variables (s t p : Z).
Hypotheses (P1 : (1 <= p <= 2 ^ 23)%Z) (S1 : (0 <= s <= p)%Z) (T1 : (0 <= t <= p)%Z).
Let big : 100000000 <= bpow radix2 1023.
Proof. apply Rle_trans with (bpow radix2 30); [cbn; lra|apply bpow_le; lia]. Qed.
Let PR : 1 <= IZR p <= 8388608. Proof. destruct P1 as [A B]. apply IZR_le in A. apply IZR_le in B. change (2 ^ 23)%Z with 8388608%Z in B. lra. Qed.
Let SR : 0 <= IZR s <= IZR p. Proof. destruct S1 as [A B]. apply IZR_le in A. apply IZR_le in B. lra. Qed.
Let TR : 0 <= IZR t <= IZR p. Proof. destruct T1 as [A B]. apply IZR_le in A. apply IZR_le in B. lra. Qed.
Let small_u : 0 < u <= / 1000000. Proof. split; [apply u_ge|]. apply Rle_trans with (bpow radix2 (-20)); [apply bpow_le; lia|cbn; lra]. Qed.
Let small_t : 0 < tiny <= u / 1000000. Proof. split; [apply tiny_gt|]. apply Rle_trans with (u * bpow radix2 (-20)); [unfold u, tiny; rewrite <- bpow_plus; apply bpow_le; lia|]. pose proof u_ge. cbn. lra. Qed.
Definition E00 : R := IZR s * IZR t / IZR p.
Let E00_range : 0 <= E00 <= IZR s /\ E00 <= IZR t.
Proof.
  unfold E00. pose proof PR. pose proof SR. pose proof TR. assert (I : 0 < / IZR p) by (apply Rinv_0_lt_compat; lra). assert (IP : IZR p * / IZR p = 1) by (apply Rinv_r; lra). unfold Rdiv.
  split; [split|].
  - repeat apply Rmult_le_pos; lra.
  - replace (IZR s) with (IZR s * (IZR p * / IZR p)) at 2 by (rewrite IP; ring). replace (IZR s * (IZR p * / IZR p)) with ((IZR s * IZR p) * / IZR p) by ring. apply Rmult_le_compat_r; [lra|]. apply Rmult_le_compat_l; lra.
  - replace (IZR t) with (IZR t * (IZR p * / IZR p)) at 2 by (rewrite IP; ring). replace (IZR t * (IZR p * / IZR p)) with ((IZR p * IZR t) * / IZR p) by ring. apply Rmult_le_compat_r; [lra|]. apply Rmult_le_compat_r; lra.
Qed.
Lemma table_e00 : fin (fdiv (fmul (half64 (2 * s)) (half64 (2 * t))) (half64 (2 * p))) /\ V (fdiv (fmul (half64 (2 * s)) (half64 (2 * t))) (half64 (2 * p))) = rnd E00.
Proof using P1 S1 T1.
  destruct (half_ok s) as [FS VS]; [lia|]. destruct (half_ok t) as [FT VT]; [lia|]. destruct (half_ok p) as [FP VP]; [lia|]. destruct E00_range as [[A0 A1] _]. pose proof PR. pose proof SR. pose proof TR.
  destruct (fmul_ok _ _ FS FT) as [FM VM]; [rewrite VS, VT, Rabs_pos_eq by (apply Rmult_le_pos; lra); apply Rle_trans with (8388608 * 8388608); [apply Rmult_le_compat; lra|apply Rle_trans with (bpow radix2 50); [cbn; lra|apply bpow_le; lia]]|].
  rewrite VS, VT, <- mult_IZR, rnd_id, mult_IZR in VM by (apply float_int; nia).
  destruct (fdiv_ok _ (half64 (2 * p)) FM) as [F E]; [rewrite VP; lra|rewrite VM, VP; fold E00; rewrite Rabs_pos_eq by lra; lra|]. split; [exact F|]. rewrite E, VM, VP. reflexivity.
Qed.
Let err00 : Rabs (rnd E00 - E00) <= 1.001 * u * IZR p.
Proof. pose proof (rnd_error E00) as H. destruct E00_range as [[A0 A1] _]. rewrite (Rabs_pos_eq E00) in H by exact A0. pose proof PR. pose proof SR. pose proof small_u. pose proof small_t. nra. Qed.
Lemma rnd00 : 0 <= rnd E00 <= 1.001 * IZR p.
Proof using P1 S1 T1. split; [apply rnd_nonneg, E00_range|]. pose proof err00 as H. apply Rabs_le_inv in H. destruct E00_range as [[A0 A1] _]. pose proof PR. pose proof SR. pose proof small_u. nra. Qed.
(** One margin minus the first cell. *)
Lemma table_edge : forall m, m = s \/ m = t -> let e := fdiv (fmul (half64 (2 * s)) (half64 (2 * t))) (half64 (2 * p)) in
  fin (fsub (half64 (2 * m)) e) /\ V (fsub (half64 (2 * m)) e) = rnd (IZR m - rnd E00) /\ Rabs (V (fsub (half64 (2 * m)) e) - (IZR m - E00)) <= 2.1 * u * IZR p.
Proof using P1 S1 T1.
  intros m M e. assert (MR : (0 <= m <= p)%Z /\ 0 <= IZR m <= IZR p) by (pose proof SR; pose proof TR; destruct M as [->| ->]; split; assumption).
  destruct MR as [MZ MR]. destruct (half_ok m) as [FM VM]; [lia|]. destruct table_e00 as [FE VE]. fold e in FE, VE. pose proof rnd00 as R0. pose proof PR.
  assert (B : Rabs (IZR m - rnd E00) <= 1.001 * IZR p) by (apply Rabs_le; lra).
  destruct (fsub_ok (half64 (2 * m)) e FM FE) as [F E]; [rewrite VM, VE; lra|]. rewrite VM, VE in E. split; [exact F|]. split; [exact E|]. rewrite E.
  pose proof (rnd_error (IZR m - rnd E00)) as H1. pose proof err00 as H2. pose proof small_u. pose proof small_t.
  replace (rnd (IZR m - rnd E00) - (IZR m - E00)) with ((rnd (IZR m - rnd E00) - (IZR m - rnd E00)) - (rnd E00 - E00)) by ring. unfold Rminus at 1. eapply Rle_trans; [apply Rabs_triang|]. rewrite Rabs_Ropp. nra.
Qed.
Lemma table_last : forall tr, let e := fdiv (fmul (half64 (2 * s)) (half64 (2 * t))) (half64 (2 * p)) in
  let e01 := fsub (half64 (2 * s)) e in let e10 := fsub (half64 (2 * t)) e in
  Adds tr [e; e01; e10; fint 0] -> (length (leaves tr) <= 5)%nat ->
  fin (fsub (half64 (2 * p)) (tsum tr)) /\ Rabs (V (fsub (half64 (2 * p)) (tsum tr)) - (IZR p - IZR s - IZR t + E00)) <= 32 * u * IZR p /\
  (s = p \/ t = p -> V (fsub (half64 (2 * p)) (tsum tr)) = 0).
Proof using P1 S1 T1.
  intros tr e e01 e10 A L5. destruct table_e00 as [FE VE]. fold e in FE, VE. destruct (table_edge s (or_introl eq_refl)) as (F1 & V1 & B1). destruct (table_edge t (or_intror eq_refl)) as (F2 & V2 & B2). fold e in F1, V1, B1, F2, V2, B2. fold e01 in F1, V1, B1. fold e10 in F2, V2, B2.
  destruct (fint_ok 0) as [F0 V0]; [lia|]. destruct (half_ok p) as [FP VP]; [lia|]. pose proof PR as HP. pose proof SR as HS. pose proof TR as HT. pose proof small_u as HU. pose proof small_t as HTI. destruct E00_range as [[A0 A1] A2]. pose proof err00 as H0. pose proof rnd00 as R0.
  assert (FF : Forall fin [e; e01; e10; fint 0]) by (repeat constructor; assumption). destruct (adds_ok tr _ A FF) as (G1 & G2 & G3 & _ & G5).
  assert (VS : Vsum [e; e01; e10; fint 0] = rnd E00 + V e01 + V e10) by (unfold Vsum; cbn [map fold_right]; rewrite VE, V0; ring).
  assert (C1 : Rabs (V e01) <= 1.001 * IZR p). { replace (V e01) with ((V e01 - (IZR s - E00)) + (IZR s - E00)) by ring. eapply Rle_trans; [apply Rabs_triang|]. rewrite (Rabs_pos_eq (IZR s - E00)) by lra. nra. }
  assert (C2 : Rabs (V e10) <= 1.001 * IZR p). { replace (V e10) with ((V e10 - (IZR t - E00)) + (IZR t - E00)) by ring. eapply Rle_trans; [apply Rabs_triang|]. rewrite (Rabs_pos_eq (IZR t - E00)) by lra. nra. }
  assert (VA : Vabs [e; e01; e10; fint 0] <= 3.1 * IZR p) by (unfold Vabs; cbn [map fold_right]; rewrite VE, V0, Rabs_R0, (Rabs_pos_eq (rnd E00)) by lra; lra).
  assert (LR : INR (length (leaves tr)) <= 5) by (apply le_INR in L5; cbn in L5; lra).
  destruct (tsum_error tr G1) as [TF TE]; [pose proof (pos_INR (length (leaves tr))); nra|rewrite G3; lra|]. rewrite G2, G3, VS in TE.
  assert (GB : g (length (leaves tr) - 1) <= 8 * u). { apply Rle_trans with (g 4); [apply g_le; lia|]. pose proof (g_bound 4 ltac:(cbn; lra)) as GG. cbn [INR] in GG. lra. }
  assert (TE2 : Rabs (V (tsum tr) - (rnd E00 + V e01 + V e10)) <= 25 * u * IZR p). { eapply Rle_trans; [exact TE|]. assert (0 <= Vabs [e; e01; e10; fint 0]) by apply Vabs_pos. nra. }
  assert (SE : Rabs (V (tsum tr) - (IZR s + IZR t - E00)) <= 30.3 * u * IZR p).
  { apply Rabs_le_inv in TE2, H0, B1, B2. apply Rabs_le. lra. }
  assert (PB : Rabs (IZR p - V (tsum tr)) <= 1.001 * IZR p).
  { apply Rabs_le_inv in SE. apply Rabs_le. assert (IZR s + IZR t - E00 <= IZR p). { unfold E00. assert (HQ : 0 <= (IZR p - IZR s) * (IZR p - IZR t) / IZR p). { apply Rmult_le_pos; [apply Rmult_le_pos; lra|apply Rlt_le, Rinv_0_lt_compat; lra]. } replace ((IZR p - IZR s) * (IZR p - IZR t) / IZR p) with (IZR p - IZR s - IZR t + IZR s * IZR t / IZR p) in HQ by (field; lra). lra. } nra. }
  destruct (fsub_ok (half64 (2 * p)) (tsum tr) FP TF) as [F E]; [rewrite VP; lra|]. rewrite VP in E. split; [exact F|]. split.
  - rewrite E. pose proof (rnd_error (IZR p - V (tsum tr))) as RE. assert (RE2 : Rabs (rnd (IZR p - V (tsum tr)) - (IZR p - V (tsum tr))) <= 1.1 * u * IZR p) by nra.
    apply Rabs_le_inv in RE2, SE. apply Rabs_le. lra.
  - intro ST. rewrite E. assert (EI : exists k, (0 <= k <= p)%Z /\ E00 = IZR k /\ IZR s + IZR t - IZR k = IZR p).
    { destruct ST as [Q|Q]; [exists t|exists s]; (split; [assumption|]); (split; [unfold E00; rewrite Q; field; lra|rewrite Q; ring]). }
    destruct EI as (k & KR & EK & SP). rewrite EK in *. assert (RK : rnd (IZR k) = IZR k) by (apply rnd_id, float_int; lia). rewrite RK in VE, V1, V2. rewrite <- minus_IZR, rnd_id in V1 by (apply float_int; lia). rewrite <- minus_IZR, rnd_id in V2 by (apply float_int; lia).
    destruct (tsum_exact tr 0 ltac:(lia) G1) as (_ & TV & _).
    + apply G5. repeat constructor; [exists k; rewrite VE|exists (s - k)%Z; rewrite V1|exists (t - k)%Z; rewrite V2|exists 0%Z; rewrite V0]; change (bpow radix2 0) with 1; rewrite ?Rmult_1_r; reflexivity.
    + rewrite G3. eapply Rle_trans; [exact VA|]. apply Rle_trans with (bpow radix2 40); [cbn; lra|apply bpow_le; lia].
    + rewrite TV, G2. unfold Vsum. cbn [map fold_right]. rewrite VE, V1, V2, V0, !minus_IZR. replace (IZR p - (IZR k + (IZR s - IZR k + (IZR t - IZR k + (0 + 0))))) with 0 by (rewrite <- SP; ring). apply rnd_0.
Qed.
End Table.
