(** Theorems about supports, F and G on binary64: property C131. *)
From Coq Require Import Reals ZArith List Bool Lia Lra Psatz.
From Flocq Require Import Core BinarySingleNaN.
From Verif Require Pvalue64_props.
From Verif Require Import Base Float_model Float_proofs F64_model F64_proofs Hex64_model Hex64_proofs G64_model G64_spec G64_proofs.
Import ListNotations.
Local Open Scope R_scope.

(** A generated support starts at the start, ends at the stop, never decreases and is close to the exact grid. *)
Theorem C131_linspace : forall a b num, good_range a b -> (2 <= num)%nat -> (Z.of_nat num <= 2 ^ 50)%Z ->
  let s := linspace64 a b num in
  let exact i := V a + INR i * (V b - V a) / INR (num - 1) in
  length s = num /\ increasing s /\ at_i s 0 = V a /\ nth (num - 1) s (fint 0) = b /\
  (forall i, (i < num)%nat -> V a <= at_i s i <= V b /\ Rabs (at_i s i - exact i) <= bpow radix2 (-49) * Rmax (Rabs (V a)) (Rabs (V b)) /\
     (V a = 0 -> Rabs (at_i s i - exact i) <= bpow radix2 (-51) * exact i)).
Proof. exact grid_ok. Qed.
Print Assumptions C131_linspace.

(** If the number of steps is prime, as 19 is, each value of the exact grid that is a float is computed exactly. *)
Theorem C131_exact : forall b num i, fin b -> 0 <= V b <= bpow radix2 1021 -> Znumtheory.prime (Z.of_nat num - 1) -> (Z.of_nat num <= 2 ^ 50)%Z -> (i < num)%nat ->
  isfloat (INR i * V b / INR (num - 1)) -> at_i (linspace64 (fint 0) b num) i = INR i * V b / INR (num - 1).
Proof. exact exact_ok. Qed.
Print Assumptions C131_exact.

(** G and F are rounded fractions of counts. *)
Theorem C131_values : forall d s, increasing s -> (2 <= length s)%nat -> Forall fin d -> (Z.of_nat (length d) <= 2 ^ 51)%Z ->
  let total := expected d s (length s - 1) in
  exists l, g64 d s = Ok l /\ length l = length s /\ V (nth 0 l (fint 0)) = 0 /\
  (total = O -> forall i, (0 < i < length s)%nat -> nth i l (fint 0) = B754_nan) /\
  ((0 < total)%nat ->
     (forall i, (i < length s)%nat -> fin (nth i l (fint 0)) /\ at_i l i = rnd (INR (expected d s i) / INR total) /\ 0 <= at_i l i <= 1) /\
     at_i l (length s - 1) = 1 /\
     (forall i j, (i < length s)%nat -> (j < length s)%nat -> (at_i l i <= at_i l j <-> (expected d s i <= expected d s j)%nat)) /\
     (forall i j, (i <= j < length s)%nat -> at_i l i <= at_i l j)).
Proof.
  intros d s M L Fd N total. destruct (g64_nth d s M L Fd) as (l & E & LL & L0 & LI). exists l. split; [exact E|]. split; [exact LL|].
  destruct (fint_ok 0) as [F0 V0]; [lia|]. fold total in LI.
  split; [rewrite L0; exact V0|]. split.
  - intros T i I. rewrite LI by exact I. rewrite T. pose proof (expected_le d s i (length s - 1) M ltac:(lia)) as EL. fold total in EL.
    replace (expected d s i) with O by lia. apply B2SF_inj. vm_compute. reflexivity.
  - intro T. pose proof (expected_bound d s (length s - 1)) as TB. fold total in TB.
    assert (EB : forall i, (i < length s)%nat -> (expected d s i <= total)%nat) by (intros i I; apply expected_le; [exact M|lia]).
    assert (VAL : forall i, (i < length s)%nat -> fin (nth i l (fint 0)) /\ at_i l i = rnd (INR (expected d s i) / INR total)).
    { intros i I. destruct i as [|i].
      - unfold at_i. rewrite L0, expected_0 by exact L. split; [exact F0|]. rewrite V0. cbn [INR]. unfold Rdiv. rewrite Rmult_0_l, rnd_0. reflexivity.
      - unfold at_i. rewrite LI by lia. specialize (EB (S i) I).
        destruct (fint_ok (Z.of_nat (expected d s (S i)))) as [FA VA]; [lia|]. destruct (fint_ok (Z.of_nat total)) as [FT VT]; [lia|].
        rewrite <- INR_IZR_INZ in VA, VT. rewrite <- VA, <- VT. apply fdiv_ok; auto.
        + rewrite VT. apply not_0_INR. lia.
        + rewrite VA, VT. pose proof (Pvalue64_props.frac_unit (Z.of_nat (expected d s (S i))) (Z.of_nat total) ltac:(lia) ltac:(lia)) as FU.
          rewrite <- !INR_IZR_INZ in FU. rewrite Rabs_pos_eq by lra. apply Rle_trans with 1; [lra|]. change 1 with (bpow radix2 0). apply bpow_le. lia. }
    split; [|split; [|split]].
    + intros i I. destruct (VAL i I) as [A B]. split; [exact A|]. split; [exact B|]. rewrite B. specialize (EB i I).
      pose proof (Pvalue64_props.frac_unit (Z.of_nat (expected d s i)) (Z.of_nat total) ltac:(lia) ltac:(lia)) as FU.
      rewrite <- !INR_IZR_INZ in FU. apply Pvalue64_props.rnd_unit_range. exact FU.
    + rewrite (proj2 (VAL (length s - 1)%nat ltac:(lia))). fold total. unfold Rdiv. rewrite Rinv_r by (apply not_0_INR; lia). apply Pvalue64_props.rnd_1.
    + intros i j I J. rewrite (proj2 (VAL i I)), (proj2 (VAL j J)), !INR_IZR_INZ. pose proof (EB i I). pose proof (EB j J). rewrite fractions by lia. lia.
    + intros i j IJ. rewrite (proj2 (VAL i ltac:(lia))), (proj2 (VAL j ltac:(lia))), !INR_IZR_INZ. pose proof (EB i ltac:(lia)). pose proof (EB j ltac:(lia)).
      apply fractions; try lia. pose proof (expected_le d s i j M IJ). lia.
Qed.
Print Assumptions C131_values.

(** A support of floats is refused exactly if some value is larger than the next. *)
Theorem C131_refused : forall d s, Forall fin s ->
  (g64 d s = Raise ValueError <-> exists i, (S i < length s)%nat /\ at_i s (S i) < at_i s i).
Proof.
  intros d s F. pose proof (mono_ok s F) as MO. unfold g64. destruct (mono64 s) eqn:E.
  - split; [discriminate|]. intros (i & I & H). apply (proj1 MO) with (i := i) in I; [lra|reflexivity].
  - split; [|reflexivity]. intros _.
    destruct (existsb (fun i => flt (nth (S i) s (fint 0)) (nth i s (fint 0))) (seq 0 (length s - 1))) eqn:X.
    + apply existsb_exists in X. destruct X as (i & I & X). apply in_seq in I. exists i. split; [lia|]. unfold at_i.
      apply flt_ok in X; [exact X| |]; (rewrite Forall_forall in F; apply F, nth_In; lia).
    + exfalso. assert (C : mono64 s = true); [|congruence]. rewrite E. apply MO. intros i I.
      apply Rnot_lt_le. intro C. assert (T : existsb (fun i => flt (nth (S i) s (fint 0)) (nth i s (fint 0))) (seq 0 (length s - 1)) = true); [|congruence].
      apply existsb_exists. exists i. split; [apply in_seq; lia|]. apply flt_ok; [| |exact C]; (rewrite Forall_forall in F; apply F, nth_In; lia).
Qed.
Print Assumptions C131_refused.

(** With the default support every distance is counted. *)
Theorem C131_default : forall d num, d <> [] -> Forall fin d -> (forall x, In x d -> 0 <= V x <= bpow radix2 1021) ->
  (V (fmaximum d) = 0 \/ bpow radix2 (-960) <= V (fmaximum d)) -> (2 <= num)%nat -> (Z.of_nat num <= 2 ^ 50)%Z -> (Z.of_nat (length d) <= 2 ^ 51)%Z ->
  let s := default_support64 d num in
  exists l, g64 d s = Ok l /\ length l = num /\ at_i l (num - 1) = 1 /\
  (forall i, (i < num - 1)%nat -> at_i l i = rnd (INR (below d (at_i s i)) / INR (length d)) /\
     Rabs (at_i s i - INR i * V (fmaximum d) / INR (num - 1)) <= bpow radix2 (-51) * (INR i * V (fmaximum d) / INR (num - 1))).
Proof.
  intros d num NE Fd R MX N1 N2 LD s. destruct (fmaximum_ok d NE Fd) as [MI MM]. set (m := fmaximum d) in *. destruct (fint_ok 0) as [F0 V0]; [lia|].
  pose proof (R m MI) as RM. assert (Fm : fin m) by (rewrite Forall_forall in Fd; apply Fd, MI).
  assert (GR : good_range (fint 0) m).
  { unfold good_range. rewrite V0, Rabs_R0, (Rabs_pos_eq (V m)), Rminus_0_r by lra. pose proof (bpow_ge_0 radix2 1021).
    split; [exact F0|]. split; [exact Fm|]. split; [lra|]. split; [lra|]. split; [lra|]. destruct MX as [Z|Z]; [left; lra|right; exact Z]. }
  destruct (grid_ok (fint 0) m num GR N1 N2) as (LN & INC & S0 & SL & ACC). change (linspace64 (fint 0) m num) with s in *. rewrite V0 in *.
  destruct (C131_values d s INC ltac:(lia) Fd LD) as (l & E & LL & _ & _ & POS).
  assert (B0 : below d 0 = O).
  { unfold below. assert (H : forall x, In x d -> (if Rlt_dec (V x) 0 then true else false) = false).
    { intros x X. destruct (Rlt_dec (V x) 0); [|reflexivity]. specialize (R x X). lra. }
    exact (filter_none _ _ _ H). }
  assert (UA : upto d (V m) = length d).
  { unfold upto. assert (H : forall x, In x d -> (if Rle_dec (V x) (V m) then true else false) = true).
    { intros x X. destruct (Rle_dec (V x) (V m)); [reflexivity|]. specialize (MM x X). lra. }
    exact (filter_all _ _ _ H). }
  assert (SLV : at_i s (num - 1) = V m) by (unfold at_i; rewrite SL; reflexivity).
  assert (TOT : expected d s (length s - 1) = length d).
  { unfold expected. rewrite LN. replace (Nat.eqb (S (num - 1)) num) with true by (symmetry; apply Nat.eqb_eq; lia). rewrite SLV, S0.
    pose proof (from_to_eq d 0 (V m) ltac:(lra)). lia. }
  assert (LP : (0 < length d)%nat) by (destruct d; [contradiction|cbn; lia]).
  rewrite TOT in POS. destruct (POS LP) as (VAL & ONE & _). exists l. split; [exact E|]. split; [lia|]. rewrite LN in ONE. split; [exact ONE|].
  intros i I. destruct (VAL i ltac:(lia)) as (_ & VI & _). split.
  - rewrite VI. unfold expected. rewrite LN. replace (Nat.eqb (S i) num) with false by (symmetry; apply Nat.eqb_neq; lia). rewrite S0.
    destruct INC as [_ INC]. pose proof (INC O i ltac:(lia)) as I0. rewrite S0 in I0. pose proof (from_below_eq d 0 _ I0) as FB. rewrite B0 in FB. cbn in FB. rewrite FB. reflexivity.
  - destruct (ACC i ltac:(lia)) as (_ & _ & A). specialize (A eq_refl). rewrite Rplus_0_l, Rminus_0_r in A. exact A.
Qed.
Print Assumptions C131_default.

(** Finding: a positive but extremely small stop value gives a decreasing support, and G raises ValueError. *)
Theorem C131_order_refuted : exists b, fin b /\ 0 < V b /\ forall d, g64 d (linspace64 (fint 0) b 20) = Raise ValueError.
Proof.
  exists (fdyadic 30 (-1074)). assert (FB : isfloat (IZR 30 * bpow radix2 (-1074))) by (apply float_dyadic; lia).
  assert (P : 0 < IZR 30 * bpow radix2 (-1074)) by (apply Rmult_lt_0_compat; [lra|apply bpow_gt_0]).
  destruct (fdyadic_ok 30 (-1074)) as [A B].
  - rewrite Rabs_pos_eq by lra. apply Rle_trans with (bpow radix2 5 * bpow radix2 (-1074)).
    + apply Rmult_le_compat_r; [apply bpow_ge_0|]. cbn. lra.
    + rewrite <- bpow_plus. apply bpow_le. lia.
  - split; [exact A|]. split; [rewrite B, rnd_id by exact FB; exact P|]. intro d. unfold g64.
    replace (mono64 (linspace64 (fint 0) (fdyadic 30 (-1074)) 20)) with false by (vm_compute; reflexivity). reflexivity.
Qed.
Print Assumptions C131_order_refuted.

(** Finding: with 99 values from 0 to 1 the value that should be 1/2 is smaller, and G there misses a distance below 1/2. *)
Theorem C131_grid_refuted : let s := linspace64 (fint 0) (fint 1) 99 in
  at_i s 49 < / 2 /\ INR 49 * 1 / INR (99 - 1) = / 2 /\
  exists d l, g64 d s = Ok l /\ from_below d 0 (/ 2) = 1%nat /\ length d = 2%nat /\ at_i l 49 = 0.
Proof.
  intro s. set (h := fdyadic (2 ^ 53 - 1) (-54)).
  assert (HV : fin h /\ V h = / 2 - bpow radix2 (-54)).
  { assert (EQ : IZR (2 ^ 53 - 1) * bpow radix2 (-54) = / 2 - bpow radix2 (-54)) by (cbn; lra).
    destruct (fdyadic_ok (2 ^ 53 - 1) (-54)) as [A B].
    - rewrite EQ. pose proof (bpow_gt_0 radix2 (-54)). assert (HB : bpow radix2 (-54) <= / 2) by (change (/ 2) with (bpow radix2 (-1)); apply bpow_le; lia).
      rewrite Rabs_pos_eq by lra. apply Rle_trans with 1; [lra|]. change 1 with (bpow radix2 0). apply bpow_le. lia.
    - split; [exact A|]. unfold h. rewrite B, rnd_id; [exact EQ|]. apply float_dyadic; lia. }
  destruct HV as [FH VH]. pose proof (bpow_gt_0 radix2 (-54)) as BP. destruct (fint_ok 1) as [F1 V1]; [lia|].
  assert (E49 : nth 49 s (fint 0) = h) by (apply B2SF_inj; vm_compute; reflexivity).
  split; [unfold at_i; rewrite E49, VH; lra|]. split; [cbn [INR Nat.sub]; lra|].
  exists [h; fint 1]. destruct (g64 [h; fint 1] s) as [l|e] eqn:E.
  - exists l. split; [reflexivity|]. split; [|split; [reflexivity|]].
    + unfold from_below. cbn [filter]. rewrite VH, V1. assert (bpow radix2 (-54) <= / 2) by (change (/ 2) with (bpow radix2 (-1)); apply bpow_le; lia).
      destruct (Rle_dec 0 (/ 2 - bpow radix2 (-54))), (Rlt_dec (/ 2 - bpow radix2 (-54)) (/ 2)), (Rle_dec 0 (IZR 1)), (Rlt_dec (IZR 1) (/ 2)); try reflexivity; exfalso; lra.
    + assert (C : match g64 [h; fint 1] s with Ok l => B2SF (nth 49 l (fint 1)) | Raise _ => SpecFloat.S754_nan end = B2SF (B754_zero false : f64)) by (vm_compute; reflexivity).
      assert (C2 : match g64 [h; fint 1] s with Ok l => length l | Raise _ => O end = 99%nat) by (vm_compute; reflexivity).
      rewrite E in C, C2. apply B2SF_inj in C. unfold at_i. rewrite (nth_indep _ (fint 0) (fint 1)) by lia. rewrite C. reflexivity.
  - exfalso. assert (C : match g64 [h; fint 1] s with Ok _ => true | Raise _ => false end = true) by (vm_compute; reflexivity). rewrite E in C. discriminate C.
Qed.
Print Assumptions C131_grid_refuted.

(** ** Concrete cases *)
Definition is_f (x : f64) (k e : Z) : bool := match Bcompare x (fdyadic k e) with Some Eq => true | _ => false end.
(** Distances 1, 1, 2, 4 at 0, 1, 2, 3, 4: 0, 0, 1/2, 3/4, 1; a decreasing support; no distance in range. *)
Example C131_case :
  let d := [fint 1; fint 1; fint 2; fint 4] in
  forallb (fun p => is_f (fst p) (snd p) 0) (combine (default_support64 d 5) [0; 1; 2; 3; 4]%Z) = true /\
  match g64 d (default_support64 d 5) with Ok l => forallb (fun p => is_f (fst p) (snd p) (-2)) (combine l [0; 0; 2; 3; 4]%Z) && Nat.eqb (length l) 5 | Raise _ => false end = true /\
  g64 d [fint 2; fint 1] = Raise ValueError /\
  match g64 d [fint 5; fint 6; fint 7] with Ok [_; B754_nan; B754_nan] => true | _ => false end = true /\
  is_f (nth 3 (linspace64 (fint (-1)) (fint 2) 7) (fint 9)) 1 (-1) = true.
Proof. cbv zeta. repeat split; vm_compute; reflexivity. Qed.
(** 19 steps of 1/4: every value is exact. *)
Example C131_case_prime : at_i (linspace64 (fint 0) (fdyadic 19 (-2)) 20) 7 = 7 / 4 /\ Znumtheory.prime (Z.of_nat 20 - 1).
Proof.
  assert (P : Znumtheory.prime (Z.of_nat 20 - 1)).
  { apply Znumtheory.prime_alt. split; [cbn; lia|]. intros k K. cbn in K. intros [q Q]. cbn in Q.
    assert (k = 2 \/ k = 3 \/ k = 4 \/ k = 5 \/ k = 6 \/ k = 7 \/ k = 8 \/ k = 9 \/ k = 10 \/ k = 11 \/ k = 12 \/ k = 13 \/ k = 14 \/ k = 15 \/ k = 16 \/ k = 17 \/ k = 18)%Z by lia.
    repeat match goal with H : _ \/ _ |- _ => destruct H end; subst; lia. }
  split; [|exact P]. assert (E : nth 7 (linspace64 (fint 0) (fdyadic 19 (-2)) 20) (fint 0) = fdyadic 7 (-2)) by (apply B2SF_inj; vm_compute; reflexivity).
  unfold at_i. rewrite E. assert (X : IZR 7 * bpow radix2 (-2) = 7 / 4) by (cbn; lra).
  destruct (fdyadic_ok 7 (-2)) as [_ B].
  - rewrite X, Rabs_pos_eq by lra. apply Rle_trans with (bpow radix2 1); [cbn; lra|]. apply bpow_le. lia.
  - rewrite B, rnd_id; [exact X|]. apply float_dyadic; lia.
Qed.
