(** The integer parameters of PoissonClusterPointProcess in binary64 arithmetic. *)
From Coq Require Import ZArith Reals Lra Lia.
From Flocq Require Import Core.
From Verif Require Import Float_model Float_proofs.
Local Open Scope R_scope.

Lemma int_float : forall m, (Z.abs m < 2 ^ 53)%Z -> isfloat (IZR m).
Proof.
  intros m H. replace (IZR m) with (IZR m * bpow radix2 0) by (simpl; ring). apply float_dyadic; lia.
Qed.

Lemma rnd_quotient : forall n p, (0 <= n < 2 ^ 53)%Z -> (0 < p < 2 ^ 53)%Z ->
  Zfloor (rnd (IZR n / IZR p)) = Zfloor (IZR n / IZR p) /\ Zceil (rnd (IZR n / IZR p)) = Zceil (IZR n / IZR p).
Proof.
  intros n p Hn Hp. set (x := IZR n / IZR p).
  assert (P0 : 0 < IZR p) by (apply IZR_lt; lia).
  assert (N0 : 0 <= IZR n) by (apply IZR_le; lia).
  assert (E : x * IZR p = IZR n) by (unfold x; field; lra).
  assert (X0 : 0 <= x) by (unfold x; apply Rmult_le_pos; [lra|apply Rlt_le, Rinv_0_lt_compat; lra]).
  set (m := Zfloor x).
  pose proof (Zfloor_lb x) as L1. pose proof (Zfloor_ub x) as L2. fold m in L1, L2.
  assert (M0 : (0 <= m)%Z) by (apply Zfloor_lub; simpl; lra).
  destruct (Req_dec (IZR m) x) as [I|I].
  - rewrite <- I. rewrite rnd_id; [rewrite Zfloor_IZR; auto|]. apply int_float. rewrite Z.abs_eq by lia.
    assert (IZR m * 1 <= IZR n). { rewrite <- E, <- I. apply Rmult_le_compat_l; [apply IZR_le; lia|]. apply IZR_le; lia. }
    rewrite Rmult_1_r in H. apply le_IZR in H. lia.
  - (* strictly between two integers *)
    assert (S1 : IZR m * IZR p < IZR n) by (rewrite <- E; apply Rmult_lt_compat_r; lra).
    assert (S2 : IZR n < (IZR m + 1) * IZR p) by (rewrite <- E; apply Rmult_lt_compat_r; lra).
    rewrite <- mult_IZR in S1. rewrite <- plus_IZR, <- mult_IZR in S2. apply lt_IZR in S1. apply lt_IZR in S2.
    assert (T1 : IZR m * IZR p + 1 <= IZR n) by (rewrite <- mult_IZR, <- plus_IZR; apply IZR_le; lia).
    assert (T2 : IZR n + 1 <= (IZR m + 1) * IZR p) by (rewrite <- plus_IZR, <- plus_IZR, <- mult_IZR; apply IZR_le; lia).
    assert (Nl : IZR n < 9007199254740992) by (apply IZR_lt; lia).
    assert (P53 : IZR p < 9007199254740992) by (apply IZR_lt; lia).
    destruct (Z.eq_dec n 0) as [->|Nz]; [exfalso; simpl in *; nia|].
    assert (N1 : 1 <= IZR n) by (apply IZR_le; lia).
    destruct (rnd_rel x) as [e [E1 R1]].
    { rewrite Rabs_pos_eq by lra.
      apply Rle_trans with (bpow radix2 (-53)); [apply bpow_le; lia|]. change (bpow radix2 (-53)) with u. rewrite u_small.
      apply Rmult_le_reg_r with (IZR p); [lra|]. rewrite E. apply Rle_trans with 1; [|lra].
      apply Rmult_le_reg_l with 9007199254740992; [lra|]. rewrite <- Rmult_assoc, Rinv_r, Rmult_1_l, Rmult_1_r by lra. lra. }
    rewrite u_small in E1. apply Rabs_le_inv in E1.
    assert (D : rnd x * IZR p = IZR n + IZR n * e) by (rewrite R1, <- E; ring).
    assert (Ne : -1 < IZR n * e < 1).
    { split.
      - apply Rlt_le_trans with (IZR n * - / 9007199254740992); [|apply Rmult_le_compat_l; lra].
        apply Rmult_lt_reg_r with 9007199254740992; [lra|]. rewrite Rmult_assoc, Ropp_mult_distr_l_reverse, Rinv_l by lra. lra.
      - apply Rle_lt_trans with (IZR n * / 9007199254740992); [apply Rmult_le_compat_l; lra|].
        apply Rmult_lt_reg_r with 9007199254740992; [lra|]. rewrite Rmult_assoc, Rinv_l by lra. lra. }
    assert (G1 : IZR m < rnd x) by (apply Rmult_lt_reg_r with (IZR p); [lra|]; rewrite D; lra).
    assert (G2 : rnd x < IZR m + 1) by (apply Rmult_lt_reg_r with (IZR p); [lra|]; rewrite D; lra).
    split.
    + apply Zfloor_imp. rewrite plus_IZR. lra.
    + assert (Z1 : Zceil (rnd x) = (m + 1)%Z) by (apply Zceil_imp; rewrite minus_IZR, plus_IZR; simpl; lra).
      assert (Z2 : Zceil x = (m + 1)%Z) by (apply Zceil_imp; rewrite minus_IZR, plus_IZR; simpl; lra).
      congruence.
Qed.

(** [int(np.ceil(n * 1.0 / parents))] and [int(n / children)] lose nothing to rounding. *)
Theorem C40_float_children : forall n parents, (0 <= n < 2 ^ 53)%Z -> (0 < parents < 2 ^ 53)%Z ->
  forall k, (Zceil (rnd (rnd (IZR n * 1) / IZR parents)) <= k)%Z <-> (n <= k * parents)%Z.
Proof.
  intros n p Hn Hp k. rewrite Rmult_1_r. rewrite (rnd_id (IZR n)) by (apply int_float; lia).
  rewrite (proj2 (rnd_quotient n p Hn Hp)).
  assert (P0 : 0 < IZR p) by (apply IZR_lt; lia).
  assert (E : IZR n / IZR p * IZR p = IZR n) by (field; lra).
  split; intro H.
  - apply le_IZR. rewrite mult_IZR, <- E. apply Rmult_le_compat_r; [lra|].
    eapply Rle_trans; [apply Zceil_ub|]. apply IZR_le. exact H.
  - apply Zceil_glb. apply Rmult_le_reg_r with (IZR p); [lra|]. rewrite E, <- mult_IZR. apply IZR_le. exact H.
Qed.
Print Assumptions C40_float_children.
Theorem C40_float_parents : forall n children, (0 <= n < 2 ^ 53)%Z -> (0 < children < 2 ^ 53)%Z ->
  Ztrunc (rnd (IZR n / IZR children)) = (n / children)%Z.
Proof.
  intros n c Hn Hc.
  assert (P0 : 0 < IZR c) by (apply IZR_lt; lia).
  rewrite Ztrunc_floor.
  2:{ apply rnd_nonneg. apply Rmult_le_pos; [apply IZR_le; lia|apply Rlt_le, Rinv_0_lt_compat; lra]. }
  rewrite (proj1 (rnd_quotient n c Hn Hc)).
  apply Zfloor_div. lia.
Qed.
Print Assumptions C40_float_parents.
Example C40_float_case : Zceil (rnd (rnd (IZR 10 * 1) / IZR 3)) = 4%Z.
Proof.
  apply Z.le_antisymm.
  - apply C40_float_children; lia.
  - destruct (Z.le_gt_cases 4 (Zceil (rnd (rnd (IZR 10 * 1) / IZR 3)))); auto.
    exfalso. assert (X : (Zceil (rnd (rnd (IZR 10 * 1) / IZR 3)) <= 3)%Z) by lia.
    apply C40_float_children in X; lia.
Qed.
