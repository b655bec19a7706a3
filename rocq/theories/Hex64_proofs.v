(** Integer parts and floor division of floats; hexagonal grids on binary64. *)
From Coq Require Import Reals ZArith List Bool Lia Lra Psatz.
From Flocq Require Import Core BinarySingleNaN.
From Verif Require Import Base BaseLemmas Float_model Float_proofs F64_model F64_proofs Hex64_model.
Import ListNotations.
Local Open Scope R_scope.

(** ** Comparisons *)
Lemma flt_ok : forall a b, fin a -> fin b -> flt a b = true <-> V a < V b.
Proof.
  intros a b Fa Fb. unfold flt. rewrite (Bltb_correct 53 1024 a b Fa Fb). unfold V.
  destruct (Rlt_bool_spec (B2R a) (B2R b)); split; intro; try assumption; try reflexivity; try discriminate. lra.
Qed.
Lemma flt_false : forall a b, fin a -> fin b -> flt a b = false <-> V b <= V a.
Proof.
  intros a b Fa Fb. pose proof (flt_ok a b Fa Fb) as H. destruct (flt a b).
  - split; [discriminate|]. intro L. assert (V a < V b) by (apply H; reflexivity). lra.
  - split; [|reflexivity]. intros _. destruct (Rle_lt_dec (V b) (V a)) as [L|L]; [exact L|]. apply H in L. discriminate.
Qed.

(** ** Integer parts *)
Lemma Zceil_div : forall x y, (y <> 0)%Z -> Zceil (IZR x / IZR y) = (- ((- x) / y))%Z.
Proof.
  intros x y H. unfold Zceil. rewrite <- Zfloor_div by exact H. rewrite opp_IZR. do 2 f_equal. field. apply IZR_neq. exact H.
Qed.
Lemma V_finite : forall s m e H, V (B754_finite s m e H) = (if s then IZR (Zneg m) else IZR (Zpos m)) * bpow radix2 e.
Proof. intros s m e H. unfold V, B2R, F2R. cbn [Fnum Fexp]. destruct s; reflexivity. Qed.
Lemma scale_div : forall z e, (e < 0)%Z -> IZR z * bpow radix2 e = IZR z / IZR (2 ^ (- e)).
Proof.
  intros z e H. rewrite IZR_pow2 by lia. unfold Rdiv. f_equal. replace e with (- - e)%Z at 1 by lia. apply bpow_opp.
Qed.
Lemma scale_mul : forall z e, (0 <= e)%Z -> IZR z * bpow radix2 e = IZR (z * 2 ^ e).
Proof. intros z e H. rewrite mult_IZR, IZR_pow2 by lia. reflexivity. Qed.
Lemma to_Z_ok : forall (dv : Z -> Z -> Z) (part : R -> Z), (forall n, part (IZR n) = n) ->
  (forall x y, (0 < y)%Z -> part (IZR x / IZR y) = dv x y) -> forall x, fin x -> to_Z dv x = Ok (part (V x)).
Proof.
  intros dv part P1 P2 x F. unfold to_Z. destruct x as [s|s| |s m e H]; try discriminate.
  - unfold V. cbn. rewrite (P1 0%Z). reflexivity.
  - rewrite V_finite. f_equal. set (z := if s then Z.neg m else Z.pos m).
    replace (if s then IZR (Z.neg m) else IZR (Z.pos m)) with (IZR z) by (unfold z; destruct s; reflexivity).
    destruct (Z.leb_spec 0 e) as [L|L].
    + rewrite scale_mul by exact L. symmetry. apply P1.
    + rewrite scale_div by exact L. symmetry. apply P2. apply Z.pow_pos_nonneg; lia.
Qed.
Lemma py_int_ok : forall x, fin x -> py_int x = Ok (Ztrunc (V x)).
Proof. apply to_Z_ok; [apply Ztrunc_IZR|]. intros x y H. apply Ztrunc_div. lia. Qed.
Lemma py_ceil_ok : forall x, fin x -> py_ceil x = Ok (Zceil (V x)).
Proof. apply to_Z_ok; [apply Zceil_IZR|]. intros x y H. apply Zceil_div. lia. Qed.
Lemma py_floor_ok : forall x, fin x -> py_floor x = Ok (Zfloor (V x)).
Proof. apply to_Z_ok; [apply Zfloor_IZR|]. intros x y H. apply Zfloor_div. lia. Qed.

(** ** Floor division *)
Lemma fmod64_ok : forall a b, fin a -> fin b -> 0 <= V a <= bpow radix2 1023 -> 0 < V b -> fin (fmod64 a b) /\ V (fmod64 a b) = fmod (V a) (V b).
Proof.
  intros a b Fa Fb A B. unfold fmod64. destruct b as [sb|sb| |sb mb eb Hb]; try discriminate; [unfold V in B; cbn in B; lra|].
  destruct a as [sa|sa| |sa ma ea Ha]; try discriminate.
  - split; [reflexivity|]. unfold V at 1 2. cbn [B2R]. unfold fmod. unfold Rdiv. rewrite Rmult_0_l. change 0 with (IZR 0) at 3. rewrite Zfloor_IZR. ring.
  - rewrite V_finite in A, B. assert (sa = false). { destruct sa; [|reflexivity]. exfalso. assert (IZR (Z.neg ma) * bpow radix2 ea < 0); [|lra].
      apply Ropp_lt_cancel. rewrite Ropp_0, Ropp_mult_distr_l, <- opp_IZR. apply Rmult_lt_0_compat; [apply IZR_lt; lia|apply bpow_gt_0]. }
    assert (sb = false). { destruct sb; [|reflexivity]. exfalso. assert (IZR (Z.neg mb) * bpow radix2 eb < 0); [|lra].
      apply Ropp_lt_cancel. rewrite Ropp_0, Ropp_mult_distr_l, <- opp_IZR. apply Rmult_lt_0_compat; [apply IZR_lt; lia|apply bpow_gt_0]. }
    subst sa sb. clear B. rewrite !V_finite. set (e := Z.min ea eb).
    set (za := (Z.pos ma * 2 ^ (ea - e))%Z). set (zb := (Z.pos mb * 2 ^ (eb - e))%Z).
    assert (PA : (0 < 2 ^ (ea - e))%Z) by (apply Z.pow_pos_nonneg; unfold e; lia).
    assert (PB : (0 < 2 ^ (eb - e))%Z) by (apply Z.pow_pos_nonneg; unfold e; lia).
    assert (ZA : (0 < za)%Z) by (unfold za; apply Z.mul_pos_pos; lia). assert (ZB : (0 < zb)%Z) by (unfold zb; apply Z.mul_pos_pos; lia).
    assert (EA : IZR (Z.pos ma) * bpow radix2 ea = IZR za * bpow radix2 e).
    { unfold za. rewrite mult_IZR, IZR_pow2, Rmult_assoc, <- bpow_plus by (unfold e; lia). do 2 f_equal. lia. }
    assert (EB : IZR (Z.pos mb) * bpow radix2 eb = IZR zb * bpow radix2 e).
    { unfold zb. rewrite mult_IZR, IZR_pow2, Rmult_assoc, <- bpow_plus by (unfold e; lia). do 2 f_equal. lia. }
    assert (BA := Ha). assert (BB := Hb). unfold SpecFloat.bounded, SpecFloat.canonical_mantissa in BA, BB. apply andb_prop in BA. apply andb_prop in BB. destruct BA as [BA1 BA2]. destruct BB as [BB1 BB2].
    apply Zle_bool_imp_le in BA2. apply Zle_bool_imp_le in BB2. apply Zeq_bool_eq in BA1. apply Zeq_bool_eq in BB1. unfold SpecFloat.fexp, SpecFloat.emin in BA1, BB1.
    assert (MA : (Z.pos ma < 2 ^ 53)%Z).
    { rewrite Digits.Zpos_digits2_pos in BA1. 
      assert (D : (Digits.Zdigits radix2 (Z.pos ma) <= 53)%Z) by lia. apply (Digits.Zpower_gt_Zdigits radix2 53 (Z.pos ma)) in D. exact D. }
    assert (MB : (Z.pos mb < 2 ^ 53)%Z).
    { rewrite Digits.Zpos_digits2_pos in BB1. 
      assert (D : (Digits.Zdigits radix2 (Z.pos mb) <= 53)%Z) by lia. apply (Digits.Zpower_gt_Zdigits radix2 53 (Z.pos mb)) in D. exact D. }
    assert (EM : (-1074 <= e)%Z) by (unfold e; lia).
    assert (RB : (0 <= Z.rem za zb < 2 ^ 53)%Z).
    { pose proof (Z.rem_bound_pos za zb ltac:(lia) ZB) as Q. split; [lia|]. destruct (Z_le_gt_dec eb ea) as [L|L].
      - assert (zb = Z.pos mb) by (unfold zb; replace (eb - e)%Z with 0%Z by (unfold e; lia); rewrite Z.pow_0_r; lia). lia.
      - assert (za = Z.pos ma) by (unfold za; replace (ea - e)%Z with 0%Z by (unfold e; lia); rewrite Z.pow_0_r; lia).
        assert (Z.rem za zb <= za)%Z by (rewrite Z.rem_mod_nonneg by lia; apply Z.mod_le; lia). lia. }
    assert (FL : isfloat (IZR (Z.rem za zb) * bpow radix2 e)) by (apply float_dyadic; lia).
    destruct (fdyadic_ok (Z.rem za zb) e) as [R1 R2].
    + rewrite Rabs_mult, (Rabs_pos_eq (bpow _ _)), <- abs_IZR by apply bpow_ge_0.
      assert (L : (Z.rem za zb <= za)%Z) by (rewrite Z.rem_mod_nonneg by lia; apply Z.mod_le; lia).
      rewrite Z.abs_eq by lia. apply Rle_trans with (IZR za * bpow radix2 e); [apply Rmult_le_compat_r; [apply bpow_ge_0|apply IZR_le; exact L]|].
      rewrite <- EA. apply A.
    + split; [exact R1|]. rewrite R2, rnd_id by exact FL. rewrite EA, EB. unfold fmod.
      assert (NZ : IZR zb <> 0) by (apply IZR_neq; lia).
      replace (IZR za * bpow radix2 e / (IZR zb * bpow radix2 e)) with (IZR za / IZR zb) by (field; split; [apply Rgt_not_eq, bpow_gt_0|exact NZ]).
      rewrite Zfloor_div by lia. rewrite Z.rem_mod_nonneg, Z.mod_eq, minus_IZR, mult_IZR by lia. ring.
Qed.

Lemma half_ok : fin f0_5 /\ V f0_5 = / 2.
Proof.
  destruct (fdyadic_ok 1 (-1)) as [A B].
  - rewrite Rmult_1_l, Rabs_pos_eq by apply bpow_ge_0. apply bpow_le. lia.
  - split; [exact A|]. unfold f0_5. rewrite B, Rmult_1_l. rewrite rnd_id; [reflexivity|]. apply generic_format_bpow. unfold fexp64, FLT_exp. lia.
Qed.
Lemma fmod_range : forall a b, 0 <= a -> 0 < b -> 0 <= fmod a b <= a.
Proof.
  intros a b A B. unfold fmod. assert (Q : 0 <= a / b) by (apply Rmult_le_pos; [lra|apply Rlt_le, Rinv_0_lt_compat; lra]).
  assert (K : (0 <= Zfloor (a / b))%Z) by (apply Zfloor_lub; exact Q). pose proof (Zfloor_lb (a / b)) as L. apply IZR_le in K.
  assert (b * IZR (Zfloor (a / b)) <= b * (a / b)) by (apply Rmult_le_compat_l; lra).
  replace (b * (a / b)) with a in H by (field; lra). assert (0 <= b * IZR (Zfloor (a / b))) by (apply Rmult_le_pos; lra). lra.
Qed.
Lemma floordiv64_ok : forall a b, fin a -> fin b -> 0 <= V a <= bpow radix2 1022 -> 0 < V b -> V a / V b < IZR (2 ^ 50) ->
  py_floor (floordiv64 a b) = Ok (Zfloor (V a / V b)).
Proof.
  intros a b Fa Fb [A0 A1] B Q. rewrite <- floordiv_exact; [|apply V_float|lra|lra|exact Q].
  assert (BW : bpow radix2 1022 <= bpow radix2 1023) by (apply bpow_le; lia).
  destruct (fmod64_ok a b Fa Fb ltac:(lra) B) as [M1 M2]. pose proof (fmod_range (V a) (V b) A0 B) as MR.
  assert (NZ : forall T (x y : T), match b with B754_zero _ => x | _ => y end = y).
  { intros T x y. destruct b as [sb|sb| |sb mb eb Hb]; try reflexivity. unfold V in B; cbn in B; lra. }
  unfold floordiv64, floordiv. rewrite NZ. cbv zeta. rewrite <- M2 in *. set (m := fmod64 a b) in *.
  destruct (fint_ok 0) as [Z1 Z2]; [lia|]. destruct (fint_ok 1) as [O1 O2]; [lia|]. destruct half_ok as [H1 H2].
  assert (C1 : flt m (fint 0) = false) by (apply flt_false; auto; lra).
  assert (C2 : flt b (fint 0) = false) by (apply flt_false; auto; lra).
  rewrite C1, C2, andb_false_r. cbn [andb orb].
  destruct (fsub_ok a m Fa M1) as [S1 S2]; [rewrite Rabs_pos_eq; lra|].
  assert (SR : 0 <= V (fsub a m) <= V a).
  { rewrite S2. split; [apply rnd_nonneg; lra|]. rewrite <- (rnd_id (V a)) at 2 by apply V_float. apply rnd_le. lra. }
  assert (IB : 0 < / V b) by (apply Rinv_0_lt_compat; lra).
  assert (QR : 0 <= V (fsub a m) / V b <= V a / V b) by (unfold Rdiv; split; [apply Rmult_le_pos; lra|apply Rmult_le_compat_r; lra]).
  rewrite IZR_pow2 in Q by lia.
  assert (P50 : bpow radix2 50 <= bpow radix2 1023) by (apply bpow_le; lia).
  destruct (fdiv_ok (fsub a m) b S1) as [D1 D2]; [lra|rewrite Rabs_pos_eq; lra|].
  set (d := fdiv (fsub a m) b) in *. rewrite <- S2, <- D2.
  assert (F50 : isfloat (bpow radix2 50)) by (apply generic_format_bpow; unfold fexp64, FLT_exp; lia).
  assert (DR : 0 <= V d <= bpow radix2 50).
  { rewrite D2. split; [apply rnd_nonneg; lra|]. rewrite <- (rnd_id (bpow radix2 50)) by exact F50. apply rnd_le. lra. }
  rewrite (py_floor_ok d D1). set (z := Zfloor (V d)).
  assert (ZR : (0 <= z <= 2 ^ 50)%Z).
  { split; [apply Zfloor_lub; lra|]. apply le_IZR. rewrite IZR_pow2 by lia. pose proof (Zfloor_lb (V d)). fold z in H. lra. }
  destruct (fint_ok z) as [F1 F2]; [lia|]. destruct (fint_ok (z + 1)) as [G1 G2]; [lia|].
  pose proof (Zfloor_lb (V d)) as L1. pose proof (Zfloor_ub (V d)) as L2. fold z in L1, L2.
  assert (PS : 1 <= bpow radix2 1023) by (change 1 with (bpow radix2 0); apply bpow_le; lia).
  destruct (fsub_ok d (fint z) D1 F1) as [E1 E2]; [rewrite F2, Rabs_pos_eq; lra|]. rewrite F2 in E2.
  destruct (flt f0_5 (fsub d (fint z))) eqn:C.
  - apply flt_ok in C; auto. rewrite H2, E2 in C. destruct (Rlt_dec (1 / 2) (rnd (V d - IZR z))) as [_|N]; [|lra].
    assert (A : V (fadd (fint z) (fint 1)) = IZR (z + 1) /\ fin (fadd (fint z) (fint 1))).
    { destruct (fadd_ok (fint z) (fint 1) F1 O1) as [X1 X2].
      - rewrite F2, O2, <- plus_IZR, Rabs_pos_eq by (apply IZR_le; lia). apply Rle_trans with (bpow radix2 53); [|apply bpow_le; lia]. rewrite <- IZR_pow2 by lia. apply IZR_le. lia.
      - split; [|exact X1]. rewrite X2, F2, O2, <- plus_IZR. apply rnd_id, float_int. lia. }
    destruct A as [A2 A3]. rewrite (py_floor_ok _ A3), A2, Zfloor_IZR. reflexivity.
  - apply flt_false in C; auto. rewrite H2, E2 in C. destruct (Rlt_dec (1 / 2) (rnd (V d - IZR z))) as [N|_]; [lra|].
    rewrite (py_floor_ok _ F1), F2, Zfloor_IZR. reflexivity.
Qed.

(** ** Extremes of a column *)
Lemma fmin2_ok : forall x y, fin x -> fin y -> (fmin2 x y = x \/ fmin2 x y = y) /\ V (fmin2 x y) <= V x /\ V (fmin2 x y) <= V y.
Proof.
  intros x y Fx Fy. assert (E : fmin2 x y = if flt y x then y else x) by (unfold fmin2; destruct x; try discriminate; destruct y; try discriminate; reflexivity).
  rewrite E. destruct (flt y x) eqn:C.
  - apply flt_ok in C; auto. split; [auto|]. lra.
  - apply flt_false in C; auto. split; [auto|]. lra.
Qed.
Lemma fmax2_ok : forall x y, fin x -> fin y -> (fmax2 x y = x \/ fmax2 x y = y) /\ V x <= V (fmax2 x y) /\ V y <= V (fmax2 x y).
Proof.
  intros x y Fx Fy. assert (E : fmax2 x y = if flt x y then y else x) by (unfold fmax2; destruct x; try discriminate; destruct y; try discriminate; reflexivity).
  rewrite E. destruct (flt x y) eqn:C.
  - apply flt_ok in C; auto. split; [auto|]. lra.
  - apply flt_false in C; auto. split; [auto|]. lra.
Qed.
Lemma fold_fmin2 : forall l x, fin x -> Forall fin l -> In (fold_left fmin2 l x) (x :: l) /\ forall y, In y (x :: l) -> V (fold_left fmin2 l x) <= V y.
Proof.
  induction l as [|z l IH]; intros x Fx Fl.
  - split; [left; reflexivity|]. intros y [->|[]]. cbn. lra.
  - inversion Fl as [|? ? Fz Fl']; subst. cbn [fold_left]. destruct (fmin2_ok x z Fx Fz) as [E [L1 L2]].
    assert (F2 : fin (fmin2 x z)) by (destruct E as [-> | ->]; assumption).
    destruct (IH _ F2 Fl') as [I1 I2]. split.
    + destruct I1 as [I1|I1]; [|right; right; exact I1]. rewrite <- I1. destruct E as [-> | ->]; [left|right; left]; reflexivity.
    + intros y [->|[->|Hy]].
      * specialize (I2 (fmin2 y z) (or_introl eq_refl)). lra.
      * specialize (I2 (fmin2 x y) (or_introl eq_refl)). lra.
      * apply I2. right. exact Hy.
Qed.
Lemma fold_fmax2 : forall l x, fin x -> Forall fin l -> In (fold_left fmax2 l x) (x :: l) /\ forall y, In y (x :: l) -> V y <= V (fold_left fmax2 l x).
Proof.
  induction l as [|z l IH]; intros x Fx Fl.
  - split; [left; reflexivity|]. intros y [->|[]]. cbn. lra.
  - inversion Fl as [|? ? Fz Fl']; subst. cbn [fold_left]. destruct (fmax2_ok x z Fx Fz) as [E [L1 L2]].
    assert (F2 : fin (fmax2 x z)) by (destruct E as [-> | ->]; assumption).
    destruct (IH _ F2 Fl') as [I1 I2]. split.
    + destruct I1 as [I1|I1]; [|right; right; exact I1]. rewrite <- I1. destruct E as [-> | ->]; [left|right; left]; reflexivity.
    + intros y [->|[->|Hy]].
      * specialize (I2 (fmax2 y z) (or_introl eq_refl)). lra.
      * specialize (I2 (fmax2 x y) (or_introl eq_refl)). lra.
      * apply I2. right. exact Hy.
Qed.
Lemma fminimum_ok : forall l, l <> [] -> Forall fin l -> In (fminimum l) l /\ forall y, In y l -> V (fminimum l) <= V y.
Proof. intros [|x l] NE F; [contradiction|]. inversion F; subst. apply fold_fmin2; assumption. Qed.
Lemma fmaximum_ok : forall l, l <> [] -> Forall fin l -> In (fmaximum l) l /\ forall y, In y l -> V y <= V (fmaximum l).
Proof. intros [|x l] NE F; [contradiction|]. inversion F; subst. apply fold_fmax2; assumption. Qed.

(** ** Numbers away from the multiples of a length *)
Definition clear (r s eta : R) : Prop := forall k, eta < Rabs (r - IZR k * s).
Lemma floor_stable : forall q A s eta, 0 < s -> 0 <= eta -> clear A s eta -> Rabs (q * s - A) <= eta ->
  Zfloor q = Zfloor (A / s) /\ Zceil q = (Zfloor (A / s) + 1)%Z.
Proof.
  intros q A s eta S E C H. set (f := Zfloor (A / s)). pose proof (Zfloor_lb (A / s)) as L1. pose proof (Zfloor_ub (A / s)) as L2. fold f in L1, L2.
  assert (M1 : IZR f * s <= A). { replace A with (A / s * s) by (field; lra). apply Rmult_le_compat_r; lra. }
  assert (M2 : A < (IZR f + 1) * s). { replace A with (A / s * s) at 1 by (field; lra). apply Rmult_lt_compat_r; lra. }
  pose proof (C f) as C1. pose proof (C (f + 1)%Z) as C2. rewrite plus_IZR in C2.
  rewrite Rabs_pos_eq in C1 by lra. rewrite Rabs_left1 in C2 by lra. apply Rabs_le_inv in H.
  assert (G1 : IZR f < q) by (apply Rmult_lt_reg_r with s; lra).
  assert (G2 : q < IZR f + 1) by (apply Rmult_lt_reg_r with s; lra).
  split.
  - apply Zfloor_imp. rewrite plus_IZR. lra.
  - apply Zceil_imp. rewrite minus_IZR, plus_IZR. lra.
Qed.
Lemma clear_gap : forall r s eta, 0 < s -> clear r s eta -> eta < s.
Proof.
  intros r s eta S C. pose proof (C (Zfloor (r / s))) as H. pose proof (Zfloor_lb (r / s)) as L1. pose proof (Zfloor_ub (r / s)) as L2.
  assert (M1 : IZR (Zfloor (r / s)) * s <= r). { replace r with (r / s * s) at 2 by (field; lra). apply Rmult_le_compat_r; lra. }
  assert (M2 : r < (IZR (Zfloor (r / s)) + 1) * s). { replace r with (r / s * s) at 1 by (field; lra). apply Rmult_lt_compat_r; lra. }
  rewrite Rabs_pos_eq in H by lra. lra.
Qed.
