(** Theorems in which binary64 rounding is taken into account. *)
From Coq Require Import Reals ZArith Lia Lra.
From Flocq Require Import Core.
From Verif Require Import Float_model Float_proofs.
Local Open Scope R_scope.

(** ** C43 *)
(** An exact quotient that is at most m leads to an index below m. *)
Lemma cell_index_bounds : forall x lo hi w m, isfloat w -> 0 < w -> lo <= x <= hi ->
  (1 <= m < 2 ^ 50)%Z -> rnd (hi - lo) / w < IZR (m + 1) ->
  (0 <= cell_index x lo w m < m)%Z /\
  cell_index x lo w m = Z.min (Zfloor (rnd (x - lo) / w)) (m - 1).
Proof.
  intros x lo hi w m FW W X M Q.
  assert (A0 : 0 <= rnd (x - lo)) by (apply rnd_nonneg; lra).
  assert (A1 : rnd (x - lo) <= rnd (hi - lo)) by (apply rnd_le; lra).
  assert (AQ : rnd (x - lo) / w <= rnd (hi - lo) / w).
  { apply Rmult_le_compat_r; [apply Rlt_le, Rinv_0_lt_compat; auto|auto]. }
  assert (AP : 0 <= rnd (x - lo) / w).
  { apply Rmult_le_pos; [auto|apply Rlt_le, Rinv_0_lt_compat; auto]. }
  unfold cell_index. rewrite floordiv_exact; auto.
  2:{ eapply Rle_lt_trans; [exact AQ|]. eapply Rlt_le_trans; [exact Q|]. apply IZR_le. lia. }
  set (i := Zfloor (rnd (x - lo) / w)).
  assert (I0 : (0 <= i)%Z) by (apply Zfloor_lub; exact AP).
  assert (I1 : (i < m + 1)%Z).
  { apply lt_IZR. eapply Rle_lt_trans; [apply Zfloor_lb|]. lra. }
  destruct (Z.eqb_spec i m); split; lia.
Qed.

(** Grids given by the number of cells, as long as the cell size is a normal number. *)
Theorem C43_count_form : forall lo hi m, isfloat lo -> isfloat hi -> lo < hi -> (1 <= m < 2 ^ 50)%Z ->
  bpow radix2 (-1022) <= rnd (hi - lo) / IZR m ->
  let w := cell_size lo hi m in
  0 < w /\
  (forall x, lo <= x <= hi -> (0 <= cell_index x lo w m < m)%Z) /\
  (forall x y, lo <= x -> x <= y -> y <= hi -> (cell_index x lo w m <= cell_index y lo w m)%Z) /\
  cell_index lo lo w m = 0%Z /\ cell_index hi lo w m = (m - 1)%Z.
Proof.
  intros lo hi m FL FH L M S w.
  assert (PM : 1 <= IZR m) by (apply IZR_le; lia).
  assert (M50 : IZR m < 1125899906842624) by (apply IZR_lt; lia).
  set (R := rnd (hi - lo)) in *.
  assert (T : 0 < bpow radix2 (-1022)) by apply bpow_gt_0.
  assert (RM : R / IZR m * IZR m = R) by (field; lra).
  assert (PR : 0 < R) by (rewrite <- RM; apply Rmult_lt_0_compat; lra).
  destruct (rnd_rel (R / IZR m)) as [e [E W]]; [rewrite Rabs_pos_eq; lra|].
  rewrite u_small in E. apply Rabs_le_inv in E.
  assert (WW : w = R / IZR m * (1 + e)) by exact W.
  assert (WP : 0 < w) by (rewrite WW; apply Rmult_lt_0_compat; lra).
  assert (FW : isfloat w) by apply rnd_float.
  assert (QE : R / w = IZR m / (1 + e)) by (rewrite WW; field; lra).
  assert (Q : R / w < IZR (m + 1)).
  { rewrite QE, plus_IZR. apply Rmult_lt_reg_r with (1 + e); [lra|].
    replace (IZR m / (1 + e) * (1 + e)) with (IZR m) by (field; lra). nra. }
  assert (Q2 : IZR (m - 1) < R / w).
  { rewrite QE, minus_IZR. apply Rmult_lt_reg_r with (1 + e); [lra|].
    replace (IZR m / (1 + e) * (1 + e)) with (IZR m) by (field; lra). nra. }
  split; [exact WP|].
  assert (B : forall x, lo <= x <= hi -> (0 <= cell_index x lo w m < m)%Z /\
    cell_index x lo w m = Z.min (Zfloor (rnd (x - lo) / w)) (m - 1)).
  { intros x X. apply (cell_index_bounds x lo hi w m); auto. }
  split; [intros x X; apply B; auto|]. split; [|split].
  - intros x y X XY Y. destruct (B x) as [_ ->]; [lra|]. destruct (B y) as [_ ->]; [lra|].
    apply Z.min_le_compat_r. apply Zfloor_le. apply Rmult_le_compat_r; [apply Rlt_le, Rinv_0_lt_compat; auto|].
    apply rnd_le. lra.
  - destruct (B lo) as [_ ->]; [lra|]. replace (lo - lo) with 0 by ring. rewrite rnd_0.
    replace (0 / w) with 0 by (field; lra). rewrite Zfloor_IZR. lia.
  - destruct (B hi) as [_ ->]; [lra|]. fold R.
    assert ((m - 1 <= Zfloor (R / w))%Z) by (apply Zfloor_lub; lra). lia.
Qed.
Print Assumptions C43_count_form.

(** Grids given by the cell size: no condition on the size of the numbers. *)
Theorem C43_size_form : forall lo hi w, isfloat lo -> isfloat hi -> lo < hi -> isfloat w -> 0 < w ->
  (cell_number lo hi w < 2 ^ 50)%Z ->
  (forall x, lo <= x <= hi -> (0 <= cell_index x lo w (cell_number lo hi w) < cell_number lo hi w)%Z) \/
  (cell_number lo hi w = 0%Z /\ rnd (rnd (hi - lo) / w) = 0).
Proof.
  intros lo hi w FL FH L FW W M. set (m := cell_number lo hi w) in *.
  set (q := rnd (hi - lo) / w).
  assert (Q0 : 0 <= q).
  { apply Rmult_le_pos; [apply rnd_nonneg; lra|apply Rlt_le, Rinv_0_lt_compat; auto]. }
  assert (R0 : 0 <= rnd q) by (apply rnd_nonneg; auto).
  assert (MQ : rnd q <= IZR m) by apply Zceil_ub.
  destruct (Z.eq_dec m 0) as [Z|Z].
  - right. split; [exact Z|]. rewrite Z in MQ. fold q. lra.
  - left. assert (M0 : (0 <= m)%Z) by (apply le_IZR; lra). intros x X.
    apply (cell_index_bounds x lo hi w m); auto; [lia|].
    fold q. destruct (Rlt_le_dec q (IZR (m + 1))) as [H|H]; auto. exfalso.
    assert (F : isfloat (IZR (m + 1))).
    { replace (IZR (m + 1)) with (IZR (m + 1) * bpow radix2 0) by (simpl; ring). apply float_dyadic; lia. }
    apply rnd_le in H. rewrite (rnd_id _ F) in H. rewrite plus_IZR in H. lra.
Qed.
Print Assumptions C43_size_form.

(** Subnormal ranges break it: the range 5*2^-1074 in 4 columns gives the cell size
    2^-1074 and the point at the upper edge gets index 5, which is not a key. *)
Theorem C43_subnormal_refuted : 
  let hi := IZR 5 * bpow radix2 (-1074) in
  isfloat 0 /\ isfloat hi /\ 0 < hi /\ 0 < cell_size 0 hi 4 /\ cell_index hi 0 (cell_size 0 hi 4) 4 = 5%Z.
Proof.
  intros hi. assert (P : 0 < bpow radix2 (-1074)) by apply bpow_gt_0.
  assert (FH : isfloat hi) by (apply float_mult_emin; lia).
  split; [apply generic_format_0|]. split; [exact FH|]. split; [unfold hi; lra|].
  assert (C : cell_size 0 hi 4 = bpow radix2 (-1074)).
  { unfold cell_size. rewrite Rminus_0_r, (rnd_id hi FH). rewrite (rnd_by_sub _ 1).
    - ring.
    - split; [unfold hi; lra|]. replace (bpow radix2 (-1022)) with (IZR (2 ^ 52) * bpow radix2 (-1074)).
      + unfold hi. change (2 ^ 52)%Z with 4503599627370496%Z. lra.
      + rewrite (IZR_Zpower radix2) by lia. rewrite <- bpow_plus. reflexivity.
    - unfold hi. replace (IZR 5 * bpow radix2 (-1074) / 4 * bpow radix2 1074) with (5 / 4).
      + rewrite Rabs_pos_eq; lra.
      + replace (IZR 5 * bpow radix2 (-1074) / 4 * bpow radix2 1074)
          with (5 / 4 * (bpow radix2 (-1074) * bpow radix2 1074)) by field.
        rewrite <- bpow_plus. simpl bpow. ring. }
  rewrite C. split; [exact P|]. unfold cell_index. rewrite Rminus_0_r, (rnd_id hi FH).
  assert (Q : hi / bpow radix2 (-1074) = 5) by (unfold hi; field; lra).
  rewrite floordiv_exact.
  - rewrite Q, Zfloor_IZR. reflexivity.
  - replace (bpow radix2 (-1074)) with (IZR 1 * bpow radix2 (-1074)) by ring. apply float_mult_emin. lia.
  - unfold hi. lra.
  - exact P.
  - rewrite Q. apply IZR_lt. reflexivity.
Qed.
Print Assumptions C43_subnormal_refuted.

(** 1/10 is not a double; three columns over [0, 3] work. *)
Example C43_case : cell_index 3 0 (cell_size 0 3 3) 3 = 2%Z.
Proof.
  assert (F : forall z, (Z.abs z < 2 ^ 53)%Z -> isfloat (IZR z)).
  { intros z Z. replace (IZR z) with (IZR z * bpow radix2 0) by (simpl; ring). apply float_dyadic; lia. }
  assert (R3 : rnd (3 - 0) = 3) by (rewrite Rminus_0_r; apply rnd_id, F; lia).
  destruct (C43_count_form 0 3 3) as [_ [_ [_ [_ H]]]]; auto; try lia; try lra.
  - apply F. lia.
  - apply F. lia.
  - rewrite R3. replace (3 / 3) with (bpow radix2 0) by (simpl; field). apply bpow_le. lia.
Qed.

(** ** C83 *)
Theorem C83_simulated_size : forall n area, (1 <= n < 2 ^ 50)%Z -> 0 < area ->
  bpow radix2 (-1022) <= IZR n / area ->
  simulated_size n area = n \/ simulated_size n area = (n - 1)%Z.
Proof.
  intros n a N A S. unfold simulated_size.
  assert (PN : 1 <= IZR n) by (apply IZR_le; lia).
  assert (N50 : IZR n < 1125899906842624) by (apply IZR_lt; lia).
  assert (T : 0 < bpow radix2 (-1022)) by apply bpow_gt_0.
  destruct (rnd_rel (IZR n / a)) as [e1 [E1 ->]]; [rewrite Rabs_pos_eq; lra|].
  replace (IZR n / a * (1 + e1) * a) with (IZR n * (1 + e1)) by (field; lra).
  rewrite u_small in E1. apply Rabs_le_inv in E1.
  destruct (rnd_rel (IZR n * (1 + e1))) as [e2 [E2 ->]].
  { rewrite Rabs_pos_eq by nra. eapply Rle_trans; [apply tiny_le_half|]. nra. }
  rewrite u_small in E2. apply Rabs_le_inv in E2.
  assert (B : Rabs (e1 + e2 + e1 * e2) <= / 3602879701896396) by (apply Rabs_le; nra).
  apply Rabs_le_inv in B.
  replace (IZR n * (1 + e1) * (1 + e2)) with (IZR n + IZR n * (e1 + e2 + e1 * e2)) by ring.
  set (e := e1 + e2 + e1 * e2) in *.
  assert (U : - 1 < IZR n * e < 1) by nra.
  rewrite Ztrunc_floor by nra.
  destruct (Rle_lt_dec 0 (IZR n * e)) as [G|G].
  - left. apply Zfloor_imp. rewrite plus_IZR. lra.
  - right. apply Zfloor_imp. rewrite plus_IZR, minus_IZR. lra.
Qed.
Print Assumptions C83_simulated_size.

(** Ten points in a 7 by 11 window: nine points are simulated. *)
Theorem C83_one_lost_refuted : simulated_size 10 77 = 9%Z.
Proof.
  unfold simulated_size.
  assert (R1 : rnd (10 / 77) = IZR 4679064547917398 * bpow radix2 (-55)).
  { apply rnd_by; [lia|simpl; lra|]. simpl. apply Rabs_def1; lra. }
  assert (R2 : rnd (IZR 4679064547917398 * bpow radix2 (-55) * 77) = IZR 5629499534213119 * bpow radix2 (-49)).
  { apply rnd_by; [lia|simpl; lra|]. simpl. apply Rabs_def1; lra. }
  rewrite R1, R2. rewrite Ztrunc_floor by (simpl; lra). apply Zfloor_imp. simpl. lra.
Qed.
Print Assumptions C83_one_lost_refuted.
