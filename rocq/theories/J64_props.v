(** Theorems about Ripley's J on binary64: property C146. *)
From Coq Require Import Reals ZArith List Bool Lia Lra Psatz.
From Flocq Require Import Core BinarySingleNaN.
From Verif Require Import Base Float_model Float_proofs F64_model F64_proofs F64_props K64_proofs Chi64_model Chi64_props G64_model G64_spec G64_proofs J64_model J64_proofs.
Import ListNotations.
Local Open Scope R_scope.

(** ** Auxiliary *)
Lemma j64_nth : forall dg df s, increasing s -> (2 <= length s)%nat -> Forall fin dg -> Forall fin df ->
  exists l, j64 dg df s = Ok l /\ length l = length s /\ nth 0 l (fint 0) = fint 1 /\
  forall i, (0 < i < length s)%nat -> nth i l (fint 0) =
    hazard64 (frac64 (expected dg s i) (expected dg s (length s - 1))) (frac64 (expected df s i) (expected df s (length s - 1))).
Proof.
  intros dg df s M L Fg Ff. destruct (g64_nth dg s M L Fg) as (g & G1 & G2 & G3 & G4). destruct (g64_nth df s M L Ff) as (f & F1 & F2 & F3 & F4).
  unfold j64. rewrite F1, G1. cbn [bind]. eexists. split; [reflexivity|]. rewrite map_length, combine_length. split; [lia|].
  assert (E : forall i, (i < length s)%nat -> nth i (map (fun gf => hazard64 (fst gf) (snd gf)) (combine g f)) (fint 0) = hazard64 (nth i g (fint 0)) (nth i f (fint 0))).
  { intros i I. rewrite (nth_indep _ (fint 0) (hazard64 (fst (fint 0, fint 0)) (snd (fint 0, fint 0)))) by (rewrite map_length, combine_length; lia).
    rewrite (map_nth (fun gf => hazard64 (fst gf) (snd gf))), combine_nth by lia. reflexivity. }
  split.
  - rewrite E by lia. rewrite G3, F3. apply B2SF_inj. vm_compute. reflexivity.
  - intros i I. rewrite E by lia. rewrite G4, F4 by exact I. reflexivity.
Qed.
Lemma take_all : forall l m, (m <= length l)%nat -> (forall i, (i < m)%nat -> is_finite (nth i l (fint 0)) = true) ->
  (m = length l \/ is_finite (nth m l (fint 0)) = false) -> take_finite l = firstn m l.
Proof.
  induction l as [|x l IH]; intros m Lm H E; [cbn in Lm; replace m with O by lia; reflexivity|].
  destruct m as [|m].
  - cbn [firstn take_finite]. destruct E as [E|E]; [discriminate|]. cbn [nth] in E. rewrite E. reflexivity.
  - cbn [firstn take_finite]. pose proof (H O ltac:(lia)) as H0. cbn [nth] in H0. rewrite H0. f_equal. apply IH.
    + cbn in Lm. lia.
    + intros i I. apply (H (S i)). lia.
    + destruct E as [E|E]; [left; cbn in E; lia|right; exact E].
Qed.

(** ** C146 *)
(** With distances of at most 2^26 points and empty-space points: J is 1 at the first
    support value; it is a number exactly at the support values above which some empty-space
    distance is left, and there within (n + p + 6) 2^-53 of the exact quotient; elsewhere it
    is NaN if no distance is left in G either and infinite otherwise. *)
Theorem C146_value : forall dg df s, increasing s -> (2 <= length s)%nat -> Forall fin dg -> Forall fin df ->
  let n := expected dg s (length s - 1) in let p := expected df s (length s - 1) in
  (1 <= n)%nat -> (1 <= p)%nat -> (Z.of_nat n <= 2 ^ 26)%Z -> (Z.of_nat p <= 2 ^ 26)%Z ->
  exists l, j64 dg df s = Ok l /\ length l = length s /\ at_i l 0 = 1 /\
  forall i, (i < length s)%nat -> let c := expected dg s i in let k := expected df s i in let x := nth i l (fint 0) in
    ((k < p)%nat -> fin x /\ Rabs (V x - J_of c n k p) <= (INR n + INR p + 6) * bpow radix2 (-53) * J_of c n k p) /\
    (k = p -> is_finite x = false /\ (is_nan x = true <-> c = n)).
Proof.
  intros dg df s M L Fg Ff n p N1 P1 N2 P2. destruct (j64_nth dg df s M L Fg Ff) as (l & E & LL & L0 & LI). exists l. fold n p in LI.
  destruct one_ok as [F1 V1]. split; [exact E|]. split; [exact LL|]. split; [unfold at_i; rewrite L0; exact V1|]. intros i I c k x.
  assert (C : (c <= n)%nat) by (apply expected_le; [exact M|lia]). assert (K : (k <= p)%nat) by (apply expected_le; [exact M|lia]).
  destruct i as [|i].
  - assert (c0 : c = O) by (apply expected_0; exact L). assert (k0 : k = O) by (apply expected_0; exact L). subst x. rewrite L0, c0, k0. split; [|lia].
    intros _. split; [exact F1|]. rewrite V1. unfold J_of. cbn [INR]. pose proof (n_pos n N1). pose proof (n_pos p P1). pose proof u_ge as U. fold u.
    replace ((1 - 0 / INR n) / (1 - 0 / INR p)) with 1 by (field; split; lra). rewrite Rminus_diag_eq by reflexivity. rewrite Rabs_R0.
    rewrite Rmult_1_r. apply Rmult_le_pos; lra.
  - subst x. rewrite LI by lia. fold c k. split.
    + intro KL. apply hazard_ok; assumption.
    + intro KP. destruct (Nat.eq_dec c n) as [CN|CN].
      * rewrite hazard_nan by assumption. split; [reflexivity|]. tauto.
      * assert (CL : (c < n)%nat) by lia. pose proof (hazard_inf c n k p N1 N2 C P1 P2 K KP CL) as HF. split; [exact HF|]. split; [|intro; contradiction].
        intro NN. exfalso. revert NN. unfold hazard64. rewrite (frac_one c n N1 N2 C). replace (Nat.eqb c n) with false by (symmetry; apply Nat.eqb_neq; lia). cbn [andb].
        destruct (rest_ok c n N1 N2 C) as (FA & _ & _). destruct (rest_ok k p P1 P2 K) as (FB & _ & _). pose proof (rest_zero k p P1 P2 K KP) as Z0.
        pose proof (hazard_inf c n k p N1 N2 C P1 P2 K KP CL) as HF2. unfold hazard64 in HF2. rewrite (frac_one c n N1 N2 C) in HF2.
        replace (Nat.eqb c n) with false in HF2 by (symmetry; apply Nat.eqb_neq; lia). cbn [andb] in HF2.
        pose proof (rest_nonzero c n N1 N2 C CL) as NZ.
        destruct (fsub (fint 1) (frac64 k p)) as [s0|s0| |s0 m0 e0 B0]; try discriminate FB.
        -- destruct (fsub (fint 1) (frac64 c n)) as [s'|s'| |s' m' e' Be']; try discriminate FA; [exfalso; apply NZ; reflexivity|discriminate].
        -- exfalso. unfold V, B2R in Z0. revert Z0. apply F2R_neq_0. destruct s0; discriminate.
Qed.
Print Assumptions C146_value.

(** The truncated function has exactly the support values above which some empty-space
    distance is left. *)
Theorem C146_truncated : forall dg df s l, increasing s -> (2 <= length s)%nat -> Forall fin dg -> Forall fin df ->
  let n := expected dg s (length s - 1) in let p := expected df s (length s - 1) in
  (1 <= n)%nat -> (1 <= p)%nat -> (Z.of_nat n <= 2 ^ 26)%Z -> (Z.of_nat p <= 2 ^ 26)%Z -> j64 dg df s = Ok l ->
  exists m, (1 <= m < length s)%nat /\ take_finite l = firstn m l /\ forall i, (i < length s)%nat -> ((i < m)%nat <-> (expected df s i < p)%nat).
Proof.
  intros dg df s l M L Fg Ff n p N1 P1 N2 P2 E. destruct (C146_value dg df s M L Fg Ff N1 P1 N2 P2) as (l' & E' & LL & _ & H). rewrite E in E'. injection E' as <-.
  assert (X : exists m, (m < length s)%nat /\ expected df s m = p /\ forall i, (i < m)%nat -> (expected df s i < p)%nat).
  { assert (Y : forall t, (t < length s)%nat -> (exists m, (m <= t)%nat /\ expected df s m = p /\ forall i, (i < m)%nat -> (expected df s i < p)%nat) \/
      forall i, (i <= t)%nat -> (expected df s i < p)%nat).
    { induction t as [|t IH]; intro T.
      - right. intros i I. replace i with O by lia. rewrite expected_0 by exact L. lia.
      - destruct (IH ltac:(lia)) as [(m & A & B)|A]; [left; exists m; split; [lia|exact B]|].
        assert (EL : (expected df s (S t) <= p)%nat) by (apply expected_le; [exact M|lia]).
        destruct (Nat.eq_dec (expected df s (S t)) p) as [Q|Q].
        + left. exists (S t). split; [lia|]. split; [exact Q|]. intros i I. apply A. lia.
        + right. intros i I. destruct (Nat.eq_dec i (S t)) as [->|J]; [lia|apply A; lia]. }
    destruct (Y (length s - 1)%nat ltac:(lia)) as [(m & A & B)|A]; [exists m; split; [lia|exact B]|].
    specialize (A (length s - 1)%nat (le_n _)). fold p in A. lia. }
  destruct X as (m & ML & MP & MB). exists m. split; [|split].
  - split; [|exact ML]. destruct m; [|lia]. rewrite expected_0 in MP by exact L. lia.
  - apply take_all; [lia| |].
    + intros i I. destruct (H i ltac:(lia)) as [A _]. apply A. apply MB. exact I.
    + right. apply (H m ML). exact MP.
  - intros i I. split; [apply MB|]. intro A. destruct (Nat.lt_ge_cases i m) as [B|B]; [exact B|].
    pose proof (expected_le df s m i M ltac:(lia)). lia.
Qed.
Print Assumptions C146_truncated.

(** No distance in the range of the support: only the first value is a number. *)
Theorem C146_empty : forall dg df s l, increasing s -> (2 <= length s)%nat -> Forall fin dg -> Forall fin df ->
  expected dg s (length s - 1) = O \/ expected df s (length s - 1) = O -> j64 dg df s = Ok l ->
  (forall i, (0 < i < length s)%nat -> nth i l (fint 0) = B754_nan) /\ exists x, take_finite l = [x] /\ V x = 1.
Proof.
  intros dg df s l M L Fg Ff Z0 E. destruct (j64_nth dg df s M L Fg Ff) as (l' & E' & LL & L0 & LI). rewrite E in E'. injection E' as <-.
  assert (NN : frac64 0 0 = B754_nan) by (apply B2SF_inj; vm_compute; reflexivity).
  assert (A : forall i, (0 < i < length s)%nat -> nth i l (fint 0) = B754_nan).
  { intros i I. rewrite LI by exact I. destruct Z0 as [Z0|Z0]; rewrite Z0.
    - pose proof (expected_le dg s i (length s - 1) M ltac:(lia)). replace (expected dg s i) with O by lia. rewrite NN. unfold hazard64.
      change (is_one B754_nan) with false. cbn [andb]. change (fsub (fint 1) B754_nan) with (@B754_nan 53 1024). destruct (fsub (fint 1) (frac64 _ _)); reflexivity.
    - pose proof (expected_le df s i (length s - 1) M ltac:(lia)). replace (expected df s i) with O by lia. rewrite NN. unfold hazard64.
      change (is_one B754_nan) with false. rewrite andb_false_r. change (fsub (fint 1) B754_nan) with (@B754_nan 53 1024). destruct (fsub (fint 1) (frac64 _ _)); reflexivity. }
  split; [exact A|]. destruct one_ok as [F1 V1]. exists (fint 1). split; [|exact V1].
  rewrite (take_all l 1); [|lia| |].
  - destruct l as [|x l]; [cbn in LL; lia|]. cbn [nth] in L0. rewrite L0. reflexivity.
  - intros i I. replace i with O by lia. rewrite L0. exact F1.
  - right. rewrite A by lia. reflexivity.
Qed.
Print Assumptions C146_empty.

(** Different exact values, from as many distances, are computed in the right order. *)
Theorem C146_order : forall n p c1 k1 c2 k2, (1 <= n)%nat -> (1 <= p)%nat -> (c1 <= n)%nat -> (c2 <= n)%nat -> (k1 < p)%nat -> (k2 < p)%nat ->
  (Z.of_nat n * Z.of_nat p * (Z.of_nat n + Z.of_nat p + 6) <= 2 ^ 51)%Z ->
  J_of c1 n k1 p < J_of c2 n k2 p -> V (hazard64 (frac64 c1 n) (frac64 k1 p)) < V (hazard64 (frac64 c2 n) (frac64 k2 p)).
Proof.
  intros n p c1 k1 c2 k2 N1 P1 C1 C2 K1 K2 B LT.
  assert (N2 : (Z.of_nat n <= 2 ^ 26)%Z) by nia. assert (P2 : (Z.of_nat p <= 2 ^ 26)%Z) by nia.
  destruct (hazard_ok c1 n k1 p N1 N2 C1 P1 P2 ltac:(lia) K1) as [_ E1]. destruct (hazard_ok c2 n k2 p N1 N2 C2 P1 P2 ltac:(lia) K2) as [_ E2].
  pose proof (n_pos n N1) as NP. pose proof (n_pos p P1) as PP. pose proof u_ge as U.
  set (d := (INR n + INR p + 6) * u) in *.
  assert (J1 : forall c k, (c <= n)%nat -> (k < p)%nat -> J_of c n k p = INR ((n - c) * p) / INR (n * (p - k))).
  { intros c k C K. unfold J_of. rewrite !mult_INR, !minus_INR by lia. assert (INR k < INR p) by (apply lt_INR; exact K). field. repeat split; lra. }
  rewrite (J1 c1 k1 C1 K1) in LT, E1. rewrite (J1 c2 k2 C2 K2) in LT, E2.
  set (a1 := ((n - c1))%nat) in *. set (b1 := ((p - k1))%nat) in *. set (a2 := ((n - c2))%nat) in *. set (b2 := ((p - k2))%nat) in *.
  assert (b1p : (1 <= b1)%nat) by (unfold b1; lia). assert (b2p : (1 <= b2)%nat) by (unfold b2; lia).
  pose proof (n_pos b1 b1p) as B1. pose proof (n_pos b2 b2p) as B2. pose proof (pos_INR a1) as A1. pose proof (pos_INR a2) as A2.
  rewrite !mult_INR in *.
  set (j1 := INR a1 * INR p / (INR n * INR b1)) in *. set (j2 := INR a2 * INR p / (INR n * INR b2)) in *.
  assert (Q1 : j1 * (INR n * INR b1 * INR b2) = INR p * INR (a1 * b2)) by (rewrite mult_INR; unfold j1; field; split; lra).
  assert (Q2 : j2 * (INR n * INR b1 * INR b2) = INR p * INR (a2 * b1)) by (rewrite mult_INR; unfold j2; field; split; lra).
  assert (W0 : 0 < INR n * INR b1 * INR b2) by (apply Rmult_lt_0_compat; [apply Rmult_lt_0_compat|]; lra).
  assert (LN : (a1 * b2 < a2 * b1)%nat).
  { apply INR_lt. apply Rmult_lt_reg_l with (INR p); [lra|]. rewrite <- Q1, <- Q2. apply Rmult_lt_compat_r; assumption. }
  (* j1 <= j2 (1 - 1 / (n p)) *)
  assert (np0 : 0 < INR n * INR p) by (apply Rmult_lt_0_compat; lra).
  assert (GAP : j1 * (INR n * INR p) <= j2 * (INR n * INR p - 1)).
  { apply Rmult_le_reg_r with (INR n * INR b1 * INR b2); [exact W0|].
    replace (j1 * (INR n * INR p) * (INR n * INR b1 * INR b2)) with (j1 * (INR n * INR b1 * INR b2) * (INR n * INR p)) by ring.
    replace (j2 * (INR n * INR p - 1) * (INR n * INR b1 * INR b2)) with (j2 * (INR n * INR b1 * INR b2) * (INR n * INR p - 1)) by ring.
    rewrite Q1, Q2, !Rmult_assoc. apply Rmult_le_compat_l; [lra|].
    assert (S1 : INR (a1 * b2) + 1 <= INR (a2 * b1)) by (rewrite <- S_INR; apply le_INR; lia).
    assert (S2 : INR (a2 * b1) <= INR n * INR p) by (rewrite <- mult_INR; apply le_INR; apply Nat.mul_le_mono; unfold a2, b1; lia).
    assert (INR (a1 * b2) * (INR n * INR p) <= (INR (a2 * b1) - 1) * (INR n * INR p)) by (apply Rmult_le_compat_r; lra). nra. }
  assert (D : d * (INR n * INR p) <= / 4).
  { unfold d, u. apply IZR_le in B. rewrite !mult_IZR, !plus_IZR, <- !INR_IZR_INZ in B. change (IZR (2 ^ 51)) with (bpow radix2 51) in B.
    replace ((INR n + INR p + 6) * bpow radix2 (-53) * (INR n * INR p)) with (INR n * INR p * (INR n + INR p + 6) * bpow radix2 (-53)) by ring.
    apply Rle_trans with (bpow radix2 51 * bpow radix2 (-53)); [apply Rmult_le_compat_r; [apply bpow_ge_0|exact B]|].
    rewrite <- bpow_plus. change (51 + -53)%Z with (-2)%Z. change (bpow radix2 (-2)) with (/ 4). lra. }
  assert (d0 : 0 <= d) by (unfold d; apply Rmult_le_pos; lra). assert (j10 : 0 <= j1).
  { unfold j1. apply Rmult_le_pos; [apply Rmult_le_pos; lra|]. apply Rlt_le, Rinv_0_lt_compat, Rmult_lt_0_compat; lra. }
  apply Rabs_le_inv in E1. apply Rabs_le_inv in E2.
  assert (F : j1 + d * j1 < j2 - d * j2); [|lra].
  set (m := INR n * INR p) in *. assert (m1 : 1 <= m) by (unfold m; nra). assert (j2p : 0 < j2) by lra.
  apply Rmult_lt_reg_r with m; [exact np0|].
  replace ((j1 + d * j1) * m) with (j1 * m + d * m * j1) by ring. replace ((j2 - d * j2) * m) with (j2 * m - d * m * j2) by ring.
  assert (d * m * j1 <= / 4 * j2) by (apply Rmult_le_compat; try lra; apply Rmult_le_pos; lra).
  assert (d * m * j2 <= / 4 * j2) by (apply Rmult_le_compat_r; lra). lra.
Qed.
Print Assumptions C146_order.

(** Finding: five points and five empty-space points in an observed and a simulated pattern,
    J exactly 2 in both at the support value 1; the computed values differ, and the
    simulated one does not count as at least the observed one. *)
Definition half64 : f64 := fdyadic 1 (-1).
Lemma half_value : V half64 = / 2.
Proof.
  assert (X : IZR 1 * bpow radix2 (-1) = / 2) by (cbn; lra). destruct (fdyadic_ok 1 (-1)) as [_ B].
  - rewrite X, Rabs_pos_eq by lra. apply Rle_trans with (bpow radix2 0); [cbn; lra|]. apply bpow_le. lia.
  - unfold half64. rewrite B, rnd_id; [exact X|]. apply float_dyadic; lia.
Qed.
Theorem C146_ties_refuted :
  let s := [fint 0; fint 1; fint 2] in
  let dg1 := repeat half64 3 ++ repeat (fint 1) 2 in let df1 := repeat half64 4 ++ [fint 1] in
  let dg2 := half64 :: repeat (fint 1) 4 in let df2 := repeat half64 3 ++ repeat (fint 1) 2 in
  exists l1 l2, j64 dg1 df1 s = Ok l1 /\ j64 dg2 df2 s = Ok l2 /\ J_of 3 5 4 5 = 2 /\ J_of 1 5 3 5 = 2 /\
    expected dg1 s 1 = 3%nat /\ expected df1 s 1 = 4%nat /\ expected dg2 s 1 = 1%nat /\ expected df2 s 1 = 3%nat /\
    fge (nth 1 l2 (fint 0)) (nth 1 l1 (fint 0)) = false /\ fge (nth 1 l1 (fint 0)) (nth 1 l2 (fint 0)) = true.
Proof.
  intros s dg1 df1 dg2 df2.
  assert (O1 : match j64 dg1 df1 s with Ok _ => true | Raise _ => false end = true) by (vm_compute; reflexivity).
  assert (O2 : match j64 dg2 df2 s with Ok _ => true | Raise _ => false end = true) by (vm_compute; reflexivity).
  destruct (j64 dg1 df1 s) as [l1|e1] eqn:E1; [|discriminate O1]. destruct (j64 dg2 df2 s) as [l2|e2] eqn:E2; [|discriminate O2].
  exists l1, l2. split; [reflexivity|]. split; [reflexivity|]. split; [unfold J_of; cbn [INR]; field|]. split; [unfold J_of; cbn [INR]; field|].
  assert (H : V half64 = / 2) by (apply half_value). destruct (fint_ok 0) as [_ V0]; [lia|]. destruct (fint_ok 1) as [_ V1]; [lia|].
  assert (X : forall d, expected d s 1 = from_below d 0 1).
  { intro d. unfold expected. cbn [length s Nat.eqb]. unfold at_i. cbn [nth s]. rewrite V0, V1. reflexivity. }
  rewrite !X. clear X.
  assert (Y : forall a b, from_below (repeat half64 a ++ repeat (fint 1) b) 0 1 = a).
  { intros a b. unfold from_below. rewrite filter_app, app_length. induction a as [|a IH].
    - cbn [repeat filter length]. induction b as [|b IHb]; [reflexivity|]. cbn [repeat filter]. rewrite V1.
      destruct (Rle_dec 0 1); [|lra]. destruct (Rlt_dec 1 1); [lra|]. exact IHb.
    - cbn [repeat filter]. rewrite H. destruct (Rle_dec 0 (/ 2)); [|lra]. destruct (Rlt_dec (/ 2) 1); [|lra]. cbn [length]. lia. }
  split; [apply Y|]. split; [exact (Y 4%nat 1%nat)|]. split; [exact (Y 1%nat 4%nat)|]. split; [apply Y|].
  assert (G1 : fge (match j64 dg2 df2 s with Ok l => nth 1 l (fint 0) | _ => fint 0 end) (match j64 dg1 df1 s with Ok l => nth 1 l (fint 0) | _ => fint 0 end) = false) by (vm_compute; reflexivity).
  assert (G2 : fge (match j64 dg1 df1 s with Ok l => nth 1 l (fint 0) | _ => fint 0 end) (match j64 dg2 df2 s with Ok l => nth 1 l (fint 0) | _ => fint 0 end) = true) by (vm_compute; reflexivity).
  rewrite E1, E2 in G1, G2. split; assumption.
Qed.
Print Assumptions C146_ties_refuted.

(** ** Concrete cases *)
(** Distances to neighbours 1, 1, 2, 4 and to empty-space points 1, 2, 2, 3, at 0, 1, 2, 3, 4:
    1, 1, (1/2)/(3/4), (1/4)/(1/4), NaN; with the last empty-space distance at 2 infinite at 3;
    without distances NaN from the second value on. *)
Example C146_case :
  let s := [fint 0; fint 1; fint 2; fint 3; fint 4] in let dg := [fint 1; fint 1; fint 2; fint 4] in
  let is_f x k e := match Bcompare x (fdyadic k e) with Some Eq => true | _ => false end in
  match j64 dg [fint 1; fint 2; fint 2; fint 3] s with
  | Ok [a; b; c; d; B754_nan] => is_f a 1%Z 0%Z && is_f b 1%Z 0%Z && is_f c 6004799503160661%Z (-53)%Z && is_f d 1%Z 0%Z
  | _ => false end = true /\
  match j64 dg [fint 1; fint 2; fint 2] s with
  | Ok [_; _; _; B754_infinity false; B754_nan] => true | _ => false end = true /\
  match j64 dg [fint 1; fint 2; fint 2] s with Ok l => Nat.eqb (length (take_finite l)) 3 | _ => false end = true /\
  match j64 [] dg s with Ok [_; B754_nan; B754_nan; B754_nan; B754_nan] => true | _ => false end = true /\
  j64 dg dg [fint 2; fint 1] = Raise ValueError.
Proof. cbv zeta. repeat split; vm_compute; reflexivity. Qed.
