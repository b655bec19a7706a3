(** Lemmas about uniform sampling on binary64. *)
From Coq Require Import Reals ZArith List Bool Lia Lra Psatz Arith.
From Flocq Require Import Core BinarySingleNaN.
From Verif Require Import Base Float_model Float_proofs F64_model F64_proofs F64_props Hex64_proofs K64_model K64_spec K64_proofs Sample64_model Sample64_spec.
Import ListNotations.
Local Open Scope R_scope.

Lemma fle_ok : forall a b, fin a -> fin b -> fle a b = true <-> V a <= V b.
Proof.
  intros a b Fa Fb. unfold fle. rewrite (Bleb_correct 53 1024 a b Fa Fb). unfold V. destruct (Rle_bool_spec (B2R a) (B2R b)) as [H|H]; split; intro G; try reflexivity; try assumption; try discriminate; lra.
Qed.
Lemma fle_nan : forall a b, fle a b = true -> is_nan a = false /\ is_nan b = false.
Proof. intros [| | |] [| | |]; cbn; auto; discriminate. Qed.

(** ** Uniform numbers *)
Lemma unit_ok : forall k, (0 <= k < 2 ^ 53)%Z -> fin (unit64 k) /\ V (unit64 k) = IZR k * u /\ 0 <= V (unit64 k) <= 1 - u.
Proof.
  intros k K. assert (KU : 0 <= IZR k * u <= 1 - u).
  { pose proof u_ge as U. split; [apply Rmult_le_pos; [apply IZR_le; lia|lra]|]. assert (E : 1 - u = IZR (2 ^ 53 - 1) * u) by (rewrite u_small; cbn; lra). rewrite E. apply Rmult_le_compat_r; [lra|apply IZR_le; lia]. }
  destruct (fdyadic_ok k (-53)) as [A B].
  { fold u. rewrite Rabs_pos_eq by lra. pose proof u_ge. apply Rle_trans with (bpow radix2 0); [change (bpow radix2 0) with 1; lra|apply bpow_le; lia]. }
  rewrite (rnd_id (IZR k * bpow radix2 (-53))) in B by (apply float_dyadic; lia). fold u in B. unfold unit64. rewrite B. auto.
Qed.
(** A float above 2^-1022, reduced by 2^-53 of itself, is rounded to a smaller one. *)
Lemma rnd_down : forall d, isfloat d -> bpow radix2 (-1022) < d -> rnd (d * (1 - u)) <= pred radix2 fexp64 d.
Proof.
  intros d F N. assert (P0 : 0 < d) by (pose proof (bpow_gt_0 radix2 (-1022)); lra). set (p := pred radix2 fexp64 d).
  assert (Fp : isfloat p) by (apply generic_format_pred; auto with typeclass_instances).
  assert (LP : bpow radix2 (-1022) <= p). { apply pred_ge_gt; auto with typeclass_instances. apply generic_format_bpow. unfold fexp64, FLT_exp. lia. }
  assert (PE : p + ulp radix2 fexp64 p = d) by (apply pred_plus_ulp; auto with typeclass_instances).
  assert (SP : succ radix2 fexp64 p = d) by (apply succ_pred; auto with typeclass_instances).
  assert (UL : ulp radix2 fexp64 p <= p * bpow radix2 (1 - 53)).
  { rewrite <- (Rabs_pos_eq p) at 2 by (pose proof (bpow_gt_0 radix2 (-1022)); lra). apply ulp_FLT_le; auto with typeclass_instances. rewrite Rabs_pos_eq by (pose proof (bpow_gt_0 radix2 (-1022)); lra). exact LP. }
  assert (PL : p < d) by (apply pred_lt_id; lra).
  assert (UE : bpow radix2 (1 - 53) = 2 * u) by (change (1 - 53)%Z with (1 + -53)%Z; rewrite bpow_plus; reflexivity). rewrite UE in UL.
  unfold rnd. apply round_N_le_midp; auto with typeclass_instances. rewrite SP. pose proof u_ge. nra.
Qed.
Lemma uniform_core : forall a b v, isfloat a -> isfloat b -> a <= b -> 0 <= v <= 1 - u ->
  0 <= rnd (b - a) /\ 0 <= rnd (rnd (b - a) * v) <= rnd (b - a) /\ a <= a + rnd (rnd (b - a) * v) <= b.
Proof.
  intros a b v Fa Fb AB Hv. set (d := rnd (b - a)). assert (D0 : 0 <= d) by (apply rnd_nonneg; lra). pose proof u_ge as U.
  assert (DV : 0 <= d * v) by (apply Rmult_le_pos; lra). set (p := rnd (d * v)). assert (P0 : 0 <= p) by (apply rnd_nonneg; exact DV).
  assert (Fd : isfloat d) by apply rnd_float.
  assert (PD : p <= d). { rewrite <- (rnd_id d Fd). apply rnd_le. nra. } split; [exact D0|]. split; [split; assumption|]. split; [lra|].
  destruct (Rle_lt_dec d (b - a)) as [L|L]; [lra|].
  assert (PR : pred radix2 fexp64 d <= b - a) by (apply pred_round_le_id; auto with typeclass_instances).
  assert (BIG : bpow radix2 (-1022) < d).
  { apply Rnot_le_lt. intro C. destruct (float_multiple a Fa) as [i I]. destruct (float_multiple b Fb) as [j J].
    assert (E : b - a = IZR (j - i) * bpow radix2 (-1074)) by (rewrite I, J, minus_IZR; ring).
    assert (F : isfloat (b - a)).
    { rewrite E. apply float_mult_emin. assert (H : IZR (j - i) < IZR (2 ^ 52)).
      { apply Rmult_lt_reg_r with (bpow radix2 (-1074)); [apply bpow_gt_0|]. rewrite <- E, (IZR_pow2 52) by lia. rewrite <- bpow_plus. change (52 + -1074)%Z with (-1022)%Z. lra. }
      assert (H0 : IZR 0 <= IZR (j - i)).
      { apply Rmult_le_reg_r with (bpow radix2 (-1074)); [apply bpow_gt_0|]. rewrite <- E. lra. }
      apply lt_IZR in H. apply le_IZR in H0. lia. }
    unfold d in L. rewrite (rnd_id _ F) in L. lra. }
  assert (PP : p <= pred radix2 fexp64 d). { eapply Rle_trans; [|apply (rnd_down d Fd BIG)]. apply rnd_le. apply Rmult_le_compat_l; lra. } lra.
Qed.
Lemma uniform_value : forall a b k, interval a b -> (0 <= k < 2 ^ 53)%Z ->
  fin (uniform64 a b k) /\ V (uniform64 a b k) = rnd (V a + rnd (rnd (V b - V a) * (IZR k * u))) /\ V a <= V (uniform64 a b k) <= V b.
Proof.
  intros a b k (Fa & Fb & AB & Ba & Bb) K. destruct (unit_ok k K) as (U1 & U2 & U3).
  destruct (uniform_core (V a) (V b) (V (unit64 k)) (V_float _) (V_float _) AB U3) as (C1 & C2 & C3). apply Rabs_le_inv in Ba, Bb.
  assert (B2 : 2 * bpow radix2 1022 = bpow radix2 1023) by (change 2 with (bpow radix2 1); rewrite <- bpow_plus; reflexivity).
  assert (F23 : isfloat (bpow radix2 1023)) by (apply generic_format_bpow; unfold fexp64, FLT_exp; lia).
  destruct (fsub_ok b a Fb Fa) as [S1 S2]; [rewrite Rabs_pos_eq; lra|].
  assert (DB : rnd (V b - V a) <= bpow radix2 1023). { rewrite <- (rnd_id _ F23). apply rnd_le. lra. }
  assert (DV : 0 <= rnd (V b - V a) * V (unit64 k)) by (apply Rmult_le_pos; lra). pose proof u_ge as U.
  destruct (fmul_ok (fsub b a) (unit64 k) S1 U1) as [M1 M2]; [rewrite S2, Rabs_pos_eq by exact DV; nra|]. rewrite S2 in M2.
  destruct (fadd_ok a (fmul (fsub b a) (unit64 k)) Fa M1) as [A1 A2]; [rewrite M2; apply Rabs_le; lra|]. rewrite M2, U2 in A2. rewrite U2 in C3.
  split; [exact A1|]. unfold uniform64. split; [exact A2|]. rewrite A2.
  split; [apply Rle_trans with (rnd (V a)); [rewrite rnd_id by apply V_float; lra|apply rnd_le; lra]|apply Rle_trans with (rnd (V b)); [apply rnd_le; lra|rewrite rnd_id by apply V_float; lra]].
Qed.

(** ** Rejection *)
Lemma contains_ok : forall b p, proper b -> fin (fst p) -> fin (snd p) -> contains64 b p = true <-> inside b p.
Proof.
  intros b p [(A1 & A2 & _) (B1 & B2 & _)] F G. unfold contains64, inside. rewrite !andb_true_iff, !fle_ok; auto. tauto.
Qed.
Lemma candidate_ok : forall b k l, proper b -> (0 <= k < 2 ^ 53)%Z -> (0 <= l < 2 ^ 53)%Z -> inside b (candidate64 b k l).
Proof.
  intros b k l [Px Py] K L. destruct (uniform_value _ _ k Px K) as (A1 & _ & A2). destruct (uniform_value _ _ l Py L) as (B1 & _ & B2). unfold inside, candidate64. cbn [fst snd]. auto.
Qed.
Lemma draws_skip : forall us n, draws us -> draws (skipn n us).
Proof. intros us n. revert us. induction n as [|n IH]; intros us D; [exact D|]. destruct us as [|k us]; [exact D|]. inversion D; subst. apply IH. assumption. Qed.
Lemma reject_ok : forall b ok m us need ps rest, (length us <= m)%nat -> proper b -> draws us -> reject64 b ok us need = Some (ps, rest) ->
  length ps = need /\ Forall (fun p => ok p = true /\ inside b p) ps /\ draws rest /\ exists used, us = used ++ rest.
Proof.
  intros b ok m. induction m as [|m IH]; intros us need ps rest L P D H.
  - destruct us; [|cbn in L; lia]. destruct need; [|discriminate]. inversion H; subst. split; [reflexivity|]. split; [constructor|]. split; [exact D|]. exists []. reflexivity.
  - destruct need as [|need]; [destruct us; cbn in H; inversion H; subst; (split; [reflexivity|]; split; [constructor|]; split; [exact D|]; exists []; reflexivity)|].
    destruct us as [|k [|l us]]; [discriminate|discriminate|]. cbn [reject64] in H. inversion D as [|? ? K D1]; subst. inversion D1 as [|? ? K' D2]; subst. cbn in L.
    destruct (ok (candidate64 b k l)) eqn:E.
    + destruct (reject64 b ok us need) as [[qs r]|] eqn:Q; [|discriminate]. inversion H; subst. destruct (IH us need qs rest ltac:(lia) P D2 Q) as (I1 & I2 & I3 & [used I4]).
      split; [cbn; lia|]. split; [constructor; [split; [exact E|apply candidate_ok; assumption]|exact I2]|]. split; [exact I3|]. exists (k :: l :: used). rewrite I4. reflexivity.
    + destruct (IH us (S need) ps rest ltac:(lia) P D2 H) as (I1 & I2 & I3 & [used I4]). split; [exact I1|]. split; [exact I2|]. split; [exact I3|]. exists (k :: l :: used). rewrite I4. reflexivity.
Qed.
Lemma reject_box : forall b need us, proper b -> draws us -> (2 * need <= length us)%nat ->
  reject64 b (contains64 b) us need = Some (map (fun kl => candidate64 b (fst kl) (snd kl)) (in_pairs need us), skipn (2 * need) us).
Proof.
  intros b need. induction need as [|need IH]; intros us P D L; [destruct us; reflexivity|].
  destruct us as [|k [|l us]]; [cbn in L; lia|cbn in L; lia|]. inversion D as [|? ? K D1]; subst. inversion D1 as [|? ? K' D2]; subst. cbn in L.
  replace (2 * S need)%nat with (S (S (2 * need))) by lia. cbn [reject64 in_pairs map fst snd skipn].
  pose proof (candidate_ok b k l P K K') as C. destruct C as (F & G & C'). assert (E : contains64 b (candidate64 b k l) = true) by (apply contains_ok; [exact P|exact F|exact G|]; split; [exact F|split; [exact G|exact C']]).
  rewrite E, IH by (auto; lia). reflexivity.
Qed.
Lemma reject_never : forall b ok m us need, (length us <= m)%nat -> (forall p, ok p = false) -> (0 < need)%nat -> reject64 b ok us need = None.
Proof.
  intros b ok m. induction m as [|m IH]; intros us need L N P; destruct need as [|need]; try lia.
  - destruct us; [reflexivity|cbn in L; lia].
  - destruct us as [|k [|l us]]; [reflexivity|reflexivity|]. cbn [reject64]. rewrite N. apply IH; [cbn in L; lia|exact N|lia].
Qed.

(** ** Discs *)
Lemma fneg_ok : forall r, fin r -> fin (fneg r) /\ V (fneg r) = - V r.
Proof. intros r F. unfold fin, fneg, V in *. split; [rewrite is_finite_Bopp; exact F|apply B2R_Bopp]. Qed.
Lemma root_triangle : forall x y a b, sqrt ((x + a) ^ 2 + (y + b) ^ 2) <= sqrt (x ^ 2 + y ^ 2) + Rabs a + Rabs b.
Proof.
  intros x y a b. set (s := sqrt (x ^ 2 + y ^ 2)). assert (S0 : 0 <= s) by apply sqrt_pos. assert (SS : s * s = x ^ 2 + y ^ 2) by (apply sqrt_sqrt; nra).
  pose proof (Rabs_pos a) as A0. pose proof (Rabs_pos b) as B0. rewrite <- (sqrt_square (s + Rabs a + Rabs b)) by lra. apply sqrt_le_1_alt.
  assert (X : Rabs x <= s) by (apply Rabs_le; split; nra). assert (Y : Rabs y <= s) by (apply Rabs_le; split; nra).
  assert (XA : x * a <= s * Rabs a). { eapply Rle_trans; [apply Rle_abs|]. rewrite Rabs_mult. apply Rmult_le_compat_r; assumption. }
  assert (YB : y * b <= s * Rabs b). { eapply Rle_trans; [apply Rle_abs|]. rewrite Rabs_mult. apply Rmult_le_compat_r; assumption. }
  assert (AA : a ^ 2 = Rabs a * Rabs a) by (rewrite <- Rabs_mult, Rabs_pos_eq; [ring|nra]). assert (BB : b ^ 2 = Rabs b * Rabs b) by (rewrite <- Rabs_mult, Rabs_pos_eq; [ring|nra]). nra.
Qed.
(** The test x*x + y*y <= r*r on floats bounds the exact distance. *)
Lemma disc_ok : forall r p, fin r -> 0 <= V r <= bpow radix2 500 -> fin (fst p) -> fin (snd p) -> Rabs (V (fst p)) <= V r -> Rabs (V (snd p)) <= V r -> in_disc64 r p = true ->
  sqrt (V (fst p) ^ 2 + V (snd p) ^ 2) <= V r * (1 + 2 * u) + bpow radix2 (-536).
Proof.
  intros r [x y] Fr R0 Fx Fy Bx By H. cbn [fst snd] in *. unfold in_disc64 in H. cbn [fst snd] in H. pose proof u_ge as U. pose proof tiny_gt as T. assert (US : u <= / 1000) by (rewrite u_small; lra).
  set (b := bpow radix2 500) in *. assert (BB : b * b = bpow radix2 1000) by (unfold b; rewrite <- bpow_plus; reflexivity).
  assert (B3 : 8 * bpow radix2 1000 <= bpow radix2 1023) by (change 8 with (bpow radix2 3); rewrite <- bpow_plus; apply bpow_le; lia). assert (B0 : 0 < bpow radix2 1000) by apply bpow_gt_0.
  apply Rabs_le_inv in Bx, By. set (X := V x) in *. set (Y := V y) in *. set (R := V r) in *.
  assert (X2 : 0 <= X * X <= R * R) by nra. assert (Y2 : 0 <= Y * Y <= R * R) by nra. assert (R2 : 0 <= R * R <= bpow radix2 1000) by (rewrite <- BB; nra).
  destruct (fmul_ok x x Fx Fx) as [M1 M2]; [fold X; rewrite Rabs_pos_eq; lra|]. destruct (fmul_ok y y Fy Fy) as [N1 N2]; [fold Y; rewrite Rabs_pos_eq; lra|]. destruct (fmul_ok r r Fr Fr) as [O1 O2]; [fold R; rewrite Rabs_pos_eq; lra|].
  fold X in M2. fold Y in N2. fold R in O2. pose proof (rnd_error (X * X)) as EX. pose proof (rnd_error (Y * Y)) as EY. pose proof (rnd_error (R * R)) as ER. rewrite (Rabs_pos_eq (X * X)) in EX by lra. rewrite (Rabs_pos_eq (Y * Y)) in EY by lra. rewrite (Rabs_pos_eq (R * R)) in ER by lra.
  assert (F1000 : isfloat (bpow radix2 1000)) by (apply generic_format_bpow; unfold fexp64, FLT_exp; lia).
  assert (RX : 0 <= rnd (X * X) <= bpow radix2 1000) by (split; [apply rnd_nonneg; lra|rewrite <- (rnd_id _ F1000); apply rnd_le; lra]).
  assert (RY : 0 <= rnd (Y * Y) <= bpow radix2 1000) by (split; [apply rnd_nonneg; lra|rewrite <- (rnd_id _ F1000); apply rnd_le; lra]).
  destruct (fadd_ok _ _ M1 N1) as [S1 S2]; [rewrite M2, N2, Rabs_pos_eq; lra|]. rewrite M2, N2 in S2.
  apply fle_ok in H; auto. rewrite S2, O2 in H. assert (ES : Rabs (rnd (rnd (X * X) + rnd (Y * Y)) - (rnd (X * X) + rnd (Y * Y))) <= u * Rabs (rnd (X * X) + rnd (Y * Y))) by (apply rnd_plus_error; apply rnd_float).
  rewrite (Rabs_pos_eq (rnd (X * X) + rnd (Y * Y))) in ES by lra. apply Rabs_le_inv in EX, EY, ER, ES.
  set (q := X * X + Y * Y). assert (Q0 : 0 <= q) by (unfold q; lra).
  assert (L1 : (1 - u) * q - 2 * tiny <= rnd (X * X) + rnd (Y * Y)) by (unfold q; lra).
  assert (L2 : (1 - u) * (rnd (X * X) + rnd (Y * Y)) <= (1 + u) * (R * R) + tiny) by lra.
  assert (L3 : (1 - u) * ((1 - u) * q - 2 * tiny) <= (1 + u) * (R * R) + tiny) by (eapply Rle_trans; [apply Rmult_le_compat_l; [lra|exact L1]|exact L2]).
  assert (QL : q <= (1 + 4 * u) * (R * R) + 4 * tiny).
  { apply Rmult_le_reg_l with ((1 - u) * (1 - u)); [nra|]. assert (L4 : (1 - u) * (1 - u) * q <= (1 + u) * (R * R) + 3 * tiny) by nra. eapply Rle_trans; [exact L4|].
    assert (K1 : 1 + u <= (1 - u) * (1 - u) * (1 + 4 * u)) by nra. assert (K2 : 3 <= (1 - u) * (1 - u) * 4) by nra.
    assert (K3 : (1 + u) * (R * R) <= (1 - u) * (1 - u) * (1 + 4 * u) * (R * R)) by (apply Rmult_le_compat_r; lra). assert (3 * tiny <= (1 - u) * (1 - u) * 4 * tiny) by (apply Rmult_le_compat_r; lra). lra. }
  set (h := bpow radix2 (-536)). assert (HH : h * h = 8 * tiny) by (unfold h, tiny; change 8 with (bpow radix2 3); rewrite <- !bpow_plus; reflexivity). assert (h0 : 0 < h) by apply bpow_gt_0.
  rewrite <- (sqrt_square (R * (1 + 2 * u) + h)) by nra. apply sqrt_le_1_alt. replace (X ^ 2 + Y ^ 2) with q by (unfold q; ring). eapply Rle_trans; [exact QL|].
  assert (0 <= R * (1 + 2 * u) * h) by (apply Rmult_le_pos; [apply Rmult_le_pos; lra|lra]). nra.
Qed.
