(** Lemmas for C143. *)
From Coq Require Import Reals ZArith List Bool Lia Lra Psatz Machin Ratan QArith Qreals Qpower.
From Flocq Require Import Core BinarySingleNaN Sterbenz.
From Verif Require Import Float_model Float_proofs F64_model F64_proofs F64_props K64_model K64_proofs K64_props L64_model.
Local Open Scope R_scope.
(** The partial sums of Machin's series as rationals. *)
Fixpoint qpow (q : Q) (n : nat) : Q := match n with O => 1%Q | S m => Qred (q * qpow q m)%Q end.
Definition qterm (n : nat) : Q := (qpow (-1) n * (2 * (qpow (1 # 3) (2 * n + 1) / inject_Z (Z.of_nat (2 * n + 1))) + qpow (1 # 7) (2 * n + 1) / inject_Z (Z.of_nat (2 * n + 1))))%Q.
Fixpoint qsum (n : nat) : Q := match n with O => qterm 0 | S m => Qred (qsum m + qterm n)%Q end.
Lemma qpow_ok : forall q n, Q2R (qpow q n) = Q2R q ^ n.
Proof. intros q n. induction n as [|n IH]; cbn [qpow pow]; [unfold Q2R; cbn; lra|]. rewrite (Qeq_eqR _ _ (Qred_correct _)), Q2R_mult, IH. reflexivity. Qed.
Lemma q_z : forall z, Q2R (inject_Z z) = IZR z.
Proof. intro z. unfold Q2R, inject_Z. cbn. field. Qed.
Lemma qterm_ok : forall n, Q2R (qterm n) = tg_alt PI_2_3_7_tg n.
Proof.
  intro n. unfold qterm, tg_alt, PI_2_3_7_tg, Ratan_seq. assert (N : ~ (inject_Z (Z.of_nat (2 * n + 1)) == 0)%Q) by (unfold Qeq, inject_Z; cbn [Qnum Qden]; lia).
  rewrite Q2R_mult, Q2R_plus, Q2R_mult, !Q2R_div, !qpow_ok, q_z, <- INR_IZR_INZ by exact N.
  replace (Q2R (-1)) with (-1) by (unfold Q2R; cbn; lra). replace (Q2R (1 # 3)) with (/ 3) by (unfold Q2R; cbn; lra).
  replace (Q2R (1 # 7)) with (/ 7) by (unfold Q2R; cbn; lra). replace (Q2R 2) with 2 by (unfold Q2R; cbn; lra). reflexivity.
Qed.
Lemma qsum_ok : forall n, Q2R (qsum n) = sum_f_R0 (tg_alt PI_2_3_7_tg) n.
Proof. induction n as [|n IH]; [apply qterm_ok|]. cbn [qsum sum_f_R0]. rewrite (Qeq_eqR _ _ (Qred_correct _)), Q2R_plus, IH, qterm_ok. reflexivity. Qed.
Lemma pi_close : 884279719003555 / 281474976710656 < PI < 884279719003555 / 281474976710656 + 2 / 10000000000000000.
Proof.
  pose proof (PI_2_3_7_ineq 9) as [A B]. rewrite <- !qsum_ok in A, B.
  assert (L : ((884279719003555 # 281474976710656) / 4 < qsum (S (2 * 9)))%Q) by (vm_compute; reflexivity).
  assert (U : (qsum (2 * 9) < ((884279719003555 # 281474976710656) + (2 # 10000000000000000)) / 4)%Q) by (vm_compute; reflexivity).
  apply Qlt_Rlt in L. apply Qlt_Rlt in U. rewrite Q2R_div in L, U by discriminate. rewrite Q2R_plus in U. set (a := qsum _) in *. set (b := qsum _) in *. clearbody a b.
  unfold Q2R in L at 1 2. unfold Q2R in U at 2 3 4. cbn [Qnum Qden] in L, U. lra.
Qed.

Lemma pi_ok : fin pi64 /\ V pi64 = 884279719003555 / 281474976710656.
Proof.
  assert (E : 884279719003555 / 281474976710656 = IZR 884279719003555 * bpow radix2 (-48)) by (cbn [bpow]; change (Z.pow_pos radix2 48) with 281474976710656%Z; lra).
  assert (B : Rabs (IZR 884279719003555 * bpow radix2 (-48)) <= bpow radix2 1023).
  { rewrite <- E, Rabs_pos_eq by lra. apply Rle_trans with (bpow radix2 2); [change (bpow radix2 2) with 4; lra|apply bpow_le; lia]. }
  destruct (fdyadic_ok 884279719003555 (-48) B) as [F R]. split; [exact F|]. unfold pi64. rewrite R, E. apply rnd_id.
  apply generic_format_FLT. exists (Float radix2 884279719003555 (-48)); [reflexivity|cbn; lia|cbn; lia].
Qed.
Lemma u_val : u = / 9007199254740992.
Proof. reflexivity. Qed.
Lemma pi_rel : rel 1 (V pi64) PI.
Proof. destruct pi_ok as [_ ->]. pose proof pi_close. unfold rel. cbn [pow]. rewrite u_val, Rmult_1_r. split; lra. Qed.
Lemma rel_weak : forall i j x X, (i <= j)%nat -> 0 <= X -> rel i x X -> rel j x X.
Proof.
  intros i j x X L P RR. pose proof (rel_nonneg _ _ _ P RR) as x0. destruct RR as [A B].
  assert (Q : (1 - u) ^ j <= (1 - u) ^ i).
  { replace j with (i + (j - i))%nat by lia. rewrite pow_add. pose proof (q_pos i). pose proof (q_pos (j - i)). nra. }
  pose proof (q_pos i). pose proof (q_pos j). split; nra.
Qed.
Lemma rel_sqrt : forall k x X, 0 <= X -> rel (k + k) x X -> rel k (sqrt x) (sqrt X).
Proof.
  intros k x X P RR. pose proof (rel_nonneg _ _ _ P RR) as x0. destruct RR as [A B]. pose proof (q_pos k) as Q. rewrite pow_add in A, B.
  assert (SQ : sqrt ((1 - u) ^ k * (1 - u) ^ k) = (1 - u) ^ k) by (apply sqrt_square; lra).
  split; rewrite <- SQ at 1; rewrite <- sqrt_mult by nra; apply sqrt_le_1_alt; assumption.
Qed.

(** ** The root *)
Lemma root_ok : forall k, fin k -> 0 <= V k -> fin (root64 k) /\ V (root64 k) = rnd (sqrt (rnd (V k / V pi64))).
Proof.
  intros k F P. destruct pi_ok as [PF PV]. pose proof (abs_B2R_lt_emax 53 1024 k) as AB. fold (V k) in AB. rewrite Rabs_pos_eq in AB by exact P.
  assert (D : 0 <= V k / V pi64 <= bpow radix2 1023).
  { rewrite PV. split; [apply Rmult_le_pos; [exact P|lra]|]. change 1024%Z with (1023 + 1)%Z in AB. rewrite bpow_plus in AB. change (bpow radix2 1) with 2 in AB. pose proof (bpow_gt_0 radix2 1023). lra. }
  destruct (fdiv_ok k pi64 F) as [DF DV]; [rewrite PV; lra|rewrite Rabs_pos_eq; lra|].
  unfold root64. destruct (fsqrt_ok _ DF) as [SF SV]; [rewrite DV; apply rnd_nonneg; lra|]. split; [exact SF|]. rewrite SV, DV. reflexivity.
Qed.
Lemma root_le : forall k k', fin k -> fin k' -> 0 <= V k -> V k <= V k' -> V (root64 k) <= V (root64 k').
Proof.
  intros k k' F F' P L. destruct (root_ok k F P) as [_ ->]. destruct (root_ok k' F' ltac:(lra)) as [_ ->]. destruct pi_ok as [_ PV].
  apply rnd_le, sqrt_le_1_alt, rnd_le. rewrite PV. apply Rmult_le_compat_r; lra.
Qed.
Lemma root_nonneg : forall k, fin k -> 0 <= V k -> 0 <= V (root64 k).
Proof. intros k F P. destruct (root_ok k F P) as [_ ->]. apply rnd_nonneg, sqrt_pos. Qed.
(** Relative to the value of K. *)
Lemma root_rel : forall k K i, fin k -> (K = 0 \/ bpow radix2 (-1010) <= K) -> (i <= 6)%nat -> rel i (V k) K -> forall j, (i + 2 <= j + j)%nat ->
  fin (root64 k) /\ rel (S j) (V (root64 k)) (sqrt (K / PI)).
Proof.
  intros k K i F B I6 RR j J. pose proof (bpow_gt_0 radix2 (-1010)) as T0. assert (P : 0 <= K) by (destruct B; lra).
  pose proof (rel_nonneg _ _ _ P RR) as k0. destruct (root_ok k F k0) as [RF RV]. split; [exact RF|]. rewrite RV. pose proof PI_RGT_0 as PP.
  destruct pi_ok as [_ PV]. assert (R1 : rel (i + 1) (V k / V pi64) (K / PI)).
  { apply rel_mult; [exact P|apply Rlt_le, Rinv_0_lt_compat; exact PP|exact RR|apply rel_inv; [exact PP|apply pi_rel]]. }
  destruct B as [->|B].
  - assert (V k = 0). { destruct RR as [_ B]. pose proof (q_pos i). nra. }
    replace (V k / V pi64) with 0 by (rewrite H; unfold Rdiv; ring). rewrite rnd_0. replace (0 / PI) with 0 by (unfold Rdiv; ring). rewrite sqrt_0, rnd_0. unfold rel. lra.
  - assert (PI < 4) by (pose proof pi_close; lra).
    assert (KP : bpow radix2 (-1012) <= K / PI).
    { change (-1012)%Z with (-1010 + -2)%Z. rewrite bpow_plus. change (bpow radix2 (-2)) with (/ 4). apply Rmult_le_compat; try lra. apply Rinv_le; lra. }
    pose proof (bpow_gt_0 radix2 (-1012)) as T1. pose proof (rel_size (i + 1) (V k / V pi64) (K / PI) ltac:(lia) ltac:(lra) R1) as SZ.
    assert (BIG : bpow radix2 (-1013) <= V k / V pi64).
    { change (-1013)%Z with (-1012 + -1)%Z. rewrite bpow_plus. change (bpow radix2 (-1)) with (/ 2). lra. }
    assert (R2 : rel (S (i + 1)) (rnd (V k / V pi64)) (K / PI)) by (apply rel_rnd; [eapply Rle_trans; [|exact BIG]; apply bpow_le; lia|lra|exact R1]).
    assert (R3 : rel j (sqrt (rnd (V k / V pi64))) (sqrt (K / PI))).
    { apply rel_sqrt; [lra|]. apply (rel_weak (S (i + 1))); [lia|lra|exact R2]. }
    apply (rel_err j (sqrt (rnd (V k / V pi64)))); [apply sqrt_pos|exact R3|]. rewrite (Rabs_pos_eq (sqrt _)) by apply sqrt_pos. apply rnd_sqrt_error; [apply rnd_float|].
    apply rnd_nonneg. pose proof (bpow_gt_0 radix2 (-1013)). lra.
Qed.
(** Values of K that are 2^-49 apart have different roots. *)
Lemma root_lt : forall k k', fin k -> fin k' -> (V k = 0 \/ bpow radix2 (-1010) <= V k) -> bpow radix2 (-1010) <= V k' -> V k * (1 + bpow radix2 (-49)) <= V k' -> V (root64 k) < V (root64 k').
Proof.
  intros k k' F F' SZ B G. pose proof (bpow_gt_0 radix2 (-1010)) as T0. assert (P : 0 <= V k) by (destruct SZ; lra). pose proof (bpow_gt_0 radix2 (-49)) as T1.
  destruct (root_rel k' (V k') 0 F' (or_intror B) ltac:(lia) (rel_exact _) 1 ltac:(lia)) as [_ [A1 _]].
  destruct (or_comm (V k = 0) (bpow radix2 (-1010) <= V k)) as [SW _]. destruct (SW SZ) as [L|L].
  - destruct (root_rel k (V k) 0 F (or_intror L) ltac:(lia) (rel_exact _) 1 ltac:(lia)) as [_ [_ B2]].
    pose proof PI_RGT_0 as PP. set (r := V (root64 k)) in *. set (r' := V (root64 k')) in *. pose proof (q_pos 2) as Q2. cbn [pow] in *. set (q := (1 - u) * ((1 - u) * 1)) in *.
    set (s := sqrt (V k / PI)) in *. set (s' := sqrt (V k' / PI)) in *.
    assert (IP : 0 < / PI) by (apply Rinv_0_lt_compat; exact PP).
    assert (SS : s * s = V k / PI) by (apply sqrt_sqrt; apply Rmult_le_pos; lra). assert (SS' : s' * s' = V k' / PI) by (apply sqrt_sqrt; apply Rmult_le_pos; lra).
    assert (s0 : 0 < s) by (apply sqrt_lt_R0; apply Rmult_lt_0_compat; lra). assert (s0' : 0 < s') by (apply sqrt_lt_R0; apply Rmult_lt_0_compat; lra).
    assert (GG : s * s * (1 + bpow radix2 (-49)) <= s' * s').
    { rewrite SS, SS'. unfold Rdiv. replace (V k * / PI * (1 + bpow radix2 (-49))) with (V k * (1 + bpow radix2 (-49)) * / PI) by ring. apply Rmult_le_compat_r; lra. }
    assert (QQ : 1 < (1 + bpow radix2 (-49)) * ((q * q) * (q * q))).
    { assert (U16 : bpow radix2 (-49) = 16 * u). { unfold u. change 16 with (bpow radix2 4). rewrite <- bpow_plus. reflexivity. }
      rewrite U16. assert (Hu : 0 < u <= / 64) by (split; [apply u_ge|change (/ 64) with (bpow radix2 (-6)); apply bpow_le; lia]).
      assert (q2 : 1 - 2 * u <= q) by (unfold q; nra). assert (q4 : 1 - 4 * u <= q * q) by nra. assert (q8 : 1 - 8 * u <= (q * q) * (q * q)) by nra.
      assert (1 < (1 + 16 * u) * (1 - 8 * u)) by nra. nra. }
    assert (X1 : s < s' * (q * q)).
    { apply Rsqr_incrst_0; [|lra|apply Rmult_le_pos; nra]. unfold Rsqr. replace (s' * (q * q) * (s' * (q * q))) with ((s' * s') * ((q * q) * (q * q))) by ring.
      assert (0 < (q * q) * (q * q)) by (assert (0 < q * q) by nra; nra). assert (0 < s * s) by nra. nra. }
    nra.
  - pose proof PI_RGT_0 as PP. assert (RZ : V (root64 k) = 0).
    { destruct (root_ok k F P) as [_ ->]. rewrite L. unfold Rdiv. rewrite Rmult_0_l, rnd_0, sqrt_0. apply rnd_0. }
    rewrite RZ. assert (0 < sqrt (V k' / PI)) by (apply sqrt_lt_R0; apply Rmult_lt_0_compat; [lra|apply Rinv_0_lt_compat; exact PP]).
    pose proof (q_pos 2). nra.
Qed.
(** The difference with the distance. *)
Lemma minus_le : forall x y d, fin x -> fin y -> fin d -> Rabs (V x - V d) <= bpow radix2 1023 -> Rabs (V y - V d) <= bpow radix2 1023 ->
  V x <= V y -> V (fsub x d) <= V (fsub y d).
Proof. intros x y d Fx Fy Fd Bx By L. destruct (fsub_ok x d Fx Fd Bx) as [_ ->]. destruct (fsub_ok y d Fy Fd By) as [_ ->]. apply rnd_le. lra. Qed.
Lemma minus_exact : forall x d, fin x -> fin d -> 0 <= V d -> V d / 2 <= V x <= 2 * V d -> fin (fsub x d) /\ V (fsub x d) = V x - V d.
Proof.
  intros x d Fx Fd P B. pose proof (abs_B2R_lt_emax 53 1024 d) as AB. fold (V d) in AB. rewrite Rabs_pos_eq in AB by exact P.
  pose proof (abs_B2R_lt_emax 53 1024 x) as AX. fold (V x) in AX. rewrite Rabs_pos_eq in AX by lra.
  destruct (fsub_ok x d Fx Fd) as [F E].
  { change 1024%Z with (1023 + 1)%Z in AB, AX. rewrite bpow_plus in AB, AX. change (bpow radix2 1) with 2 in AB, AX. apply Rabs_le. lra. }
  split; [exact F|]. rewrite E. apply rnd_id. apply (@sterbenz radix2 (FLT_exp (-1074) 53) (FLT_exp_valid (-1074) 53) (FLT_exp_monotone (-1074) 53)); [apply V_float|apply V_float|exact B].
Qed.
