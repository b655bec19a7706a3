(** Lemmas about binary64 rounding. *)
From Coq Require Import Reals ZArith Lia Lra.
From Flocq Require Import Core Relative.
From Verif Require Import Float_model.
Local Open Scope R_scope.

#[global] Instance prec53 : Prec_gt_0 53 := eq_refl.
#[global] Instance valid64 : Valid_exp fexp64 := FLT_exp_valid (-1074) 53.

Lemma rnd_le : forall x y, x <= y -> rnd x <= rnd y.
Proof. intros. apply round_le; auto with typeclass_instances. Qed.
Lemma rnd_float : forall x, isfloat (rnd x).
Proof. intros. apply generic_format_round; auto with typeclass_instances. Qed.
Lemma rnd_id : forall x, isfloat x -> rnd x = x.
Proof. intros. apply round_generic; auto with typeclass_instances. Qed.
Lemma rnd_0 : rnd 0 = 0.
Proof. apply round_0; auto with typeclass_instances. Qed.
Lemma rnd_nonneg : forall x, 0 <= x -> 0 <= rnd x.
Proof. intros x H. rewrite <- rnd_0. apply rnd_le; auto. Qed.

Lemma float_mult_emin : forall k, (Z.abs k < 2 ^ 53)%Z -> isfloat (IZR k * bpow radix2 (-1074)).
Proof.
  intros k H. apply generic_format_FLT. exists (Float radix2 k (-1074)); simpl; try lia. reflexivity.
Qed.
Lemma float_dyadic : forall k e, (Z.abs k < 2 ^ 53)%Z -> (-1074 <= e)%Z -> isfloat (IZR k * bpow radix2 e).
Proof.
  intros k e H E. apply generic_format_FLT. exists (Float radix2 k e); simpl; try lia. reflexivity.
Qed.
(** Every float is an integer multiple of the smallest positive one. *)
Lemma float_multiple : forall x, isfloat x -> exists k, x = IZR k * bpow radix2 (-1074).
Proof.
  intros x H. apply FLT_format_generic in H; auto with typeclass_instances.
  destruct H as [f F1 F2 F3]. exists (Fnum f * 2 ^ (Fexp f + 1074))%Z.
  rewrite F1. unfold F2R. rewrite mult_IZR. rewrite (IZR_Zpower radix2) by lia.
  rewrite Rmult_assoc, <- bpow_plus. f_equal. f_equal. lia.
Qed.

Definition u : R := bpow radix2 (-53).
Lemma u_small : u = / 9007199254740992.
Proof. reflexivity. Qed.

(** Relative error for normal results. *)
Lemma rnd_rel : forall x, bpow radix2 (-1022) <= Rabs x -> exists e, Rabs e <= u /\ rnd x = x * (1 + e).
Proof.
  intros x H. destruct (relative_error_N_FLT_ex radix2 (-1074) 53 eq_refl (fun x => negb (Z.even x)) x) as [e [E1 E2]].
  { simpl. exact H. }
  exists e. split; [|exact E2]. eapply Rle_trans; [exact E1|]. unfold u.
  change (/2) with (bpow radix2 (-1)). rewrite <- bpow_plus. apply bpow_le. lia.
Qed.
(** ... and for multiples of the smallest float, whatever their size. *)
Lemma rnd_rel_multiple : forall k, exists e, Rabs e <= u /\ 
  rnd (IZR k * bpow radix2 (-1074)) = IZR k * bpow radix2 (-1074) * (1 + e).
Proof.
  intros k. destruct (Rle_lt_dec (bpow radix2 (-1022)) (Rabs (IZR k * bpow radix2 (-1074)))) as [H|H].
  - apply rnd_rel; auto.
  - exists 0. split; [rewrite Rabs_R0; apply bpow_ge_0|]. rewrite rnd_id; [ring|].
    apply float_mult_emin. rewrite Rabs_mult, (Rabs_pos_eq (bpow _ _)) in H by apply bpow_ge_0.
    replace (bpow radix2 (-1022)) with (IZR (2 ^ 52) * bpow radix2 (-1074)) in H.
    + apply Rmult_lt_reg_r in H; [|apply bpow_gt_0]. rewrite <- abs_IZR in H. apply lt_IZR in H. lia.
    + rewrite (IZR_Zpower radix2) by lia. rewrite <- bpow_plus. reflexivity.
Qed.

Lemma tiny_le_half : bpow radix2 (-1022) <= 1 / 2.
Proof. replace (1/2) with (bpow radix2 (-1)) by (simpl; lra). apply bpow_le. lia. Qed.

(** numpy's floor division is the exact floor for moderate quotients. *)
Lemma floordiv_exact : forall a b, isfloat b -> 0 <= a -> 0 < b -> a / b < IZR (2 ^ 50) ->
  floordiv a b = Zfloor (a / b).
Proof.
  intros a b FB A B L. unfold floordiv, fmod. set (k := Zfloor (a / b)).
  assert (K0 : (0 <= k)%Z).
  { apply Zfloor_lub. apply Rmult_le_pos; [auto|apply Rlt_le, Rinv_0_lt_compat; auto]. }
  assert (K1 : IZR k < IZR (2 ^ 50)) by (eapply Rle_lt_trans; [apply Zfloor_lb|exact L]).
  replace (a - (a - b * IZR k)) with (b * IZR k) by ring.
  destruct (float_multiple b FB) as [j J].
  destruct (rnd_rel_multiple (j * k)) as [e1 [E1 R1]].
  assert (X : b * IZR k = IZR (j * k) * bpow radix2 (-1074)) by (rewrite J, mult_IZR; ring).
  rewrite X, R1, <- X. replace (b * IZR k * (1 + e1) / b) with (IZR k * (1 + e1)) by (field; lra).
  rewrite u_small in E1. apply Rabs_le_inv in E1.
  change (2 ^ 50)%Z with 1125899906842624%Z in *.
  assert (D : exists d, rnd (IZR k * (1 + e1)) = d /\ Rabs (d - IZR k) <= 3 / 8 /\ (k = 0%Z -> d = 0)).
  { destruct (Z.eq_dec k 0) as [Z|Z].
    - exists 0. rewrite Z, Rmult_0_l, rnd_0. split; [auto|]. split; [rewrite Rminus_0_r, Rabs_R0; lra|auto].
    - assert (P : 1 <= IZR k) by (apply IZR_le; lia).
      destruct (rnd_rel (IZR k * (1 + e1))) as [e2 [E2 R2]].
      + rewrite Rabs_pos_eq by nra. eapply Rle_trans; [apply tiny_le_half|]. nra.
      + rewrite R2. eexists. split; [reflexivity|]. split; [|lia].
        rewrite u_small in E2. apply Rabs_le_inv in E2.
        replace (IZR k * (1 + e1) * (1 + e2) - IZR k) with (IZR k * (e1 + e2 + e1 * e2)) by ring.
        assert (B1 : Rabs (e1 + e2 + e1 * e2) <= / 3602879701896396).
        { apply Rabs_le. nra. }
        rewrite Rabs_mult, (Rabs_pos_eq (IZR k)) by lra.
        apply Rle_trans with (1125899906842624 * / 3602879701896396); [|lra].
        apply Rmult_le_compat; try lra. apply Rabs_pos. }
  destruct D as [d [-> [D1 D2]]]. apply Rabs_le_inv in D1.
  assert (H58 : isfloat (5 / 8)).
  { replace (5/8) with (IZR 5 * bpow radix2 (-3)) by (simpl; lra). apply float_dyadic; simpl; lia. }
  assert (H12 : isfloat (1 / 2)).
  { replace (1/2) with (IZR 1 * bpow radix2 (-1)) by (simpl; lra). apply float_dyadic; simpl; lia. }
  destruct (Rle_lt_dec (IZR k) d) as [G|G].
  - assert (F : Zfloor d = k). { apply Zfloor_imp. rewrite plus_IZR. lra. }
    rewrite F. destruct (Rlt_dec (1 / 2) (rnd (d - IZR k))) as [C|C]; [|reflexivity].
    exfalso. assert (Y : rnd (d - IZR k) <= rnd (1/2)) by (apply rnd_le; lra).
    rewrite (rnd_id (1/2)) in Y by auto. lra.
  - assert (F : Zfloor d = (k - 1)%Z). { apply Zfloor_imp. rewrite plus_IZR, minus_IZR. lra. }
    rewrite F, minus_IZR. destruct (Rlt_dec (1 / 2) (rnd (d - (IZR k - 1)))) as [C|C]; [lia|].
    exfalso. assert (Y : rnd (5/8) <= rnd (d - (IZR k - 1))) by (apply rnd_le; lra).
    rewrite (rnd_id (5/8)) in Y by auto. lra.
Qed.

(** Rounding to a given number by its scaled distance. *)
Lemma rnd_by : forall x e M, (-1074 <= e)%Z -> bpow radix2 (e + 52) <= x < bpow radix2 (e + 53) ->
  Rabs (x * bpow radix2 (- e) - IZR M) < / 2 -> rnd x = IZR M * bpow radix2 e.
Proof.
  intros x e M E H D. unfold rnd, round, F2R. simpl.
  assert (MG : mag radix2 x = (e + 53)%Z :> Z).
  { apply mag_unique. rewrite Rabs_pos_eq.
    - replace (e + 53 - 1)%Z with (e + 52)%Z by lia. exact H.
    - apply Rle_trans with (bpow radix2 (e + 52)); [apply bpow_ge_0|apply H]. }
  assert (C : cexp radix2 fexp64 x = e).
  { unfold cexp. rewrite MG. unfold fexp64, FLT_exp. lia. }
  unfold scaled_mantissa. rewrite C. f_equal. f_equal. apply Znearest_imp. exact D.
Qed.
(** The same in the range of subnormal numbers. *)
Lemma rnd_by_sub : forall x M, 0 < x < bpow radix2 (-1022) ->
  Rabs (x * bpow radix2 1074 - IZR M) < / 2 -> rnd x = IZR M * bpow radix2 (-1074).
Proof.
  intros x M H D. unfold rnd, round, F2R. simpl.
  assert (C : cexp radix2 fexp64 x = (-1074)%Z).
  { unfold cexp, fexp64, FLT_exp. destruct (mag radix2 x) as [m Hm]. simpl.
    assert (X : x <> 0) by lra. specialize (Hm X). rewrite Rabs_pos_eq in Hm by lra.
    assert (L : bpow radix2 (m - 1) < bpow radix2 (-1022)) by lra. apply lt_bpow in L. lia. }
  unfold scaled_mantissa. rewrite C. f_equal. f_equal. apply Znearest_imp. exact D.
Qed.
