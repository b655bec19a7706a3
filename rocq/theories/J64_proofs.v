(** Rounding of the J function. *)
From Coq Require Import Reals ZArith List Bool Lia Lra Psatz.
From Flocq Require Import Core BinarySingleNaN.
From Verif Require Import Base Float_model Float_proofs F64_model F64_proofs F64_props K64_proofs Chi64_model Chi64_props G64_model G64_spec G64_proofs J64_model.
Import ListNotations.
Local Open Scope R_scope.

(** ** Specification: J from c of n distances of points and k of p distances of
    empty-space points below the distance. *)
Definition J_of (c n k p : nat) : R := (1 - INR c / INR n) / (1 - INR k / INR p).
Definition frac64 (c n : nat) : f64 := fdiv (fint (Z.of_nat c)) (fint (Z.of_nat n)).

Lemma int_ok : forall n, (Z.of_nat n <= 2 ^ 26)%Z -> fin (fint (Z.of_nat n)) /\ V (fint (Z.of_nat n)) = INR n.
Proof. intros n N. destruct (fint_ok (Z.of_nat n)) as [A B]; [lia|]. split; [exact A|]. rewrite B, INR_IZR_INZ. reflexivity. Qed.
Lemma one_ok : fin (fint 1) /\ V (fint 1) = 1.
Proof. apply (int_ok 1). lia. Qed.
Lemma big : 1 <= bpow radix2 1023.
Proof. change 1 with (bpow radix2 0). apply bpow_le. lia. Qed.
Lemma INR_bound : forall n k, (Z.of_nat n <= 2 ^ k)%Z -> (0 <= k)%Z -> INR n <= bpow radix2 k.
Proof. intros n k N K. rewrite INR_IZR_INZ. rewrite <- IZR_Zpower by exact K. apply IZR_le. exact N. Qed.

Section Fraction.
Variables c n : nat.
Hypotheses (N1 : (1 <= n)%nat) (N2 : (Z.of_nat n <= 2 ^ 26)%Z) (C : (c <= n)%nat).
Let x : R := INR c / INR n.
Lemma n_pos : 1 <= INR n. Proof using N1. apply (le_INR 1). exact N1. Qed.
Lemma x_range : 0 <= x <= 1.
Proof using N1 C.
  pose proof n_pos. pose proof (pos_INR c). pose proof (le_INR _ _ C). unfold x. split.
  - apply Rmult_le_pos; [lra|]. apply Rlt_le, Rinv_0_lt_compat. lra.
  - apply Rmult_le_reg_r with (INR n); [lra|]. unfold Rdiv. rewrite Rmult_assoc, Rinv_l by lra. lra.
Qed.
Lemma frac_ok : fin (frac64 c n) /\ V (frac64 c n) = rnd x /\ Rabs (V (frac64 c n) - x) <= u * x.
Proof using N1 N2 C.
  pose proof n_pos. pose proof x_range as X. destruct (int_ok n N2) as [A1 A2]. destruct (int_ok c) as [B1 B2]; [lia|].
  destruct (fdiv_ok (fint (Z.of_nat c)) (fint (Z.of_nat n)) B1) as [D1 D2].
  - rewrite A2. lra.
  - rewrite A2, B2. fold x. rewrite Rabs_pos_eq by lra. pose proof big. lra.
  - fold (frac64 c n) in *. rewrite A2, B2 in D2. fold x in D2. split; [exact D1|]. split; [exact D2|]. rewrite D2.
    destruct c as [|c']; [unfold x; cbn [INR]; unfold Rdiv; rewrite Rmult_0_l, rnd_0, Rminus_0_r, Rabs_R0; lra|].
    destruct (rnd_rel x) as (e & E & R0).
    + rewrite Rabs_pos_eq by lra. apply Rle_trans with (bpow radix2 (-26)); [apply bpow_le; lia|].
      change (bpow radix2 (-26)) with (/ bpow radix2 26). unfold x. apply Rle_trans with (/ INR n).
      * apply Rinv_le; [lra|]. apply INR_bound; [exact N2|lia].
      * rewrite <- (Rmult_1_l (/ INR n)) at 1. apply Rmult_le_compat_r; [apply Rlt_le, Rinv_0_lt_compat; lra|]. apply (le_INR 1). lia.
    + rewrite R0. replace (x * (1 + e) - x) with (e * x) by ring. rewrite Rabs_mult, (Rabs_pos_eq x) by lra. apply Rmult_le_compat_r; lra.
Qed.
Lemma frac_range : 0 <= V (frac64 c n) <= 1.
Proof using N1 N2 C.
  destruct frac_ok as (_ & E & _). pose proof x_range as X. rewrite E. split.
  - rewrite <- rnd_0. apply rnd_le. lra.
  - assert (R1 : rnd 1 = 1) by (change 1 with (IZR 1); apply rnd_id, float_int; lia). rewrite <- R1. apply rnd_le. lra.
Qed.
Lemma rest_eq : 1 - x = INR (n - c) / INR n.
Proof using N1 C. pose proof n_pos. unfold x. rewrite minus_INR by exact C. field. lra. Qed.
Lemma rest_low : (c < n)%nat -> / INR n <= 1 - x.
Proof using N1 C.
  intro L. pose proof n_pos. rewrite rest_eq. rewrite <- (Rmult_1_l (/ INR n)). apply Rmult_le_compat_r; [apply Rlt_le, Rinv_0_lt_compat; lra|].
  apply (le_INR 1). lia.
Qed.
Lemma un_small : INR n * u <= bpow radix2 (-27).
Proof using N1 N2 C.
  unfold u. replace (bpow radix2 (-27)) with (bpow radix2 26 * bpow radix2 (-53)) by (rewrite <- bpow_plus; reflexivity).
  apply Rmult_le_compat_r; [apply bpow_ge_0|]. apply INR_bound; [exact N2|lia].
Qed.
(** The error of the fraction in terms of what is left to 1. *)
Lemma frac_rest : (c < n)%nat -> Rabs (V (frac64 c n) - x) <= (INR n - 1) * u * (1 - x).
Proof using N1 N2 C.
  intro L. destruct frac_ok as (_ & _ & E). eapply Rle_trans; [exact E|]. pose proof n_pos as NP. pose proof x_range as X. pose proof u_ge as U.
  assert (K : x <= (INR n - 1) * (1 - x)).
  { pose proof (rest_low L) as RL. assert (1 <= INR n * (1 - x)).
    { apply Rmult_le_reg_l with (/ INR n); [apply Rinv_0_lt_compat; lra|]. rewrite <- Rmult_assoc, Rinv_l by lra. lra. }
    lra. }
  replace ((INR n - 1) * u * (1 - x)) with (u * ((INR n - 1) * (1 - x))) by ring. apply Rmult_le_compat_l; lra.
Qed.
Lemma frac_one : is_one (frac64 c n) = Nat.eqb c n.
Proof using N1 N2 C.
  destruct frac_ok as (F & E & _). destruct one_ok as [F1 V1]. unfold is_one. rewrite Beqb_correct by assumption.
  change (B2R (frac64 c n)) with (V (frac64 c n)). change (B2R (fint 1)) with (V (fint 1)). rewrite V1.
  destruct (Nat.eqb_spec c n) as [Q|Q].
  - apply Req_bool_true. rewrite E. unfold x. rewrite Q. pose proof n_pos. unfold Rdiv. rewrite Rinv_r by lra.
    change 1 with (IZR 1). apply rnd_id, float_int. lia.
  - apply Req_bool_false. assert (L : (c < n)%nat) by lia. pose proof (frac_rest L) as FR. pose proof un_small as US. pose proof x_range as X. pose proof n_pos.
    pose proof (rest_low L) as RL. assert (0 < / INR n) by (apply Rinv_0_lt_compat; lra). apply Rabs_le_inv in FR.
    assert (S1 : bpow radix2 (-27) <= / 2) by (change (/ 2) with (bpow radix2 (-1)); apply bpow_le; lia).
    pose proof u_ge as U. assert ((INR n - 1) * u <= / 2) by lra. nra.
Qed.
(** What is left: [1 - fraction]. *)
Lemma rest_ok : fin (fsub (fint 1) (frac64 c n)) /\ V (fsub (fint 1) (frac64 c n)) = rnd (1 - V (frac64 c n)) /\
  Rabs (V (fsub (fint 1) (frac64 c n)) - (1 - x)) <= (INR n + 1) * u * (1 - x).
Proof using N1 N2 C.
  destruct frac_ok as (F & E & ER). pose proof frac_range as FR. destruct one_ok as [F1 V1]. pose proof big as BG.
  destruct (fsub_ok (fint 1) (frac64 c n) F1 F) as [A B]; [rewrite V1, Rabs_pos_eq; lra|]. rewrite V1 in B. split; [exact A|]. split; [exact B|].
  rewrite B. pose proof u_ge as U. pose proof n_pos as NP. pose proof x_range as X.
  destruct (Nat.eq_dec c n) as [Q|Q].
  - assert (X1 : x = 1) by (unfold x; rewrite Q; unfold Rdiv; apply Rinv_r; lra).
    assert (W1 : V (frac64 c n) = 1). { rewrite E, X1. change 1 with (IZR 1). apply rnd_id, float_int. lia. }
    rewrite W1, X1. replace (1 - 1) with 0 by ring. rewrite rnd_0, Rminus_0_r, Rabs_R0. lra.
  - assert (L : (c < n)%nat) by lia. pose proof (frac_rest L) as ER2. pose proof un_small as US.
    assert (FL1 : isfloat 1) by (change 1 with (IZR 1); apply float_int; lia).
    assert (FLg : isfloat (V (frac64 c n))) by (apply generic_format_B2R).
    pose proof (rnd_minus_error 1 (V (frac64 c n)) FL1 FLg) as RE. rewrite (Rabs_pos_eq (1 - V (frac64 c n))) in RE by lra.
    set (g := V (frac64 c n)) in *. set (y := 1 - x) in *. assert (Y0 : 0 <= y) by (unfold y; lra).
    apply Rabs_le_inv in ER2. apply Rabs_le_inv in RE. set (d := (INR n - 1) * u) in *.
    assert (D0 : 0 <= d) by (unfold d; nra). assert (G1 : y - d * y <= 1 - g <= y + d * y) by (unfold y in *; lra).
    assert (DU : u * (d * y) <= u * y).
    { apply Rmult_le_compat_l; [lra|]. rewrite <- (Rmult_1_l y) at 2. apply Rmult_le_compat_r; [lra|].
      assert (bpow radix2 (-27) <= 1) by (change 1 with (bpow radix2 0); apply bpow_le; lia). unfold d. lra. }
    assert (UG : u * (1 - g) <= u * y + u * (d * y)) by (rewrite <- Rmult_plus_distr_l; apply Rmult_le_compat_l; lra).
    assert (Q2 : (INR n + 1) * u * y = d * y + 2 * (u * y)) by (unfold d; ring). apply Rabs_le. rewrite Q2. lra.
Qed.
Lemma rest_zero : c = n -> V (fsub (fint 1) (frac64 c n)) = 0.
Proof using N1 N2 C.
  intro Q. destruct rest_ok as (_ & _ & E). assert (X1 : x = 1) by (unfold x; rewrite Q; pose proof n_pos; unfold Rdiv; apply Rinv_r; lra).
  rewrite X1 in E. replace (1 - 1) with 0 in E by ring. rewrite Rmult_0_r, Rminus_0_r in E. pose proof (Rabs_pos (V (fsub (fint 1) (frac64 c n)))).
  destruct (Req_dec (V (fsub (fint 1) (frac64 c n))) 0) as [Z0|Z0]; [exact Z0|]. apply Rabs_pos_lt in Z0. lra.
Qed.
End Fraction.

(** ** One value of J *)
Section Ratio.
Variables c n k p : nat.
Hypotheses (N1 : (1 <= n)%nat) (N2 : (Z.of_nat n <= 2 ^ 26)%Z) (C : (c <= n)%nat)
           (P1 : (1 <= p)%nat) (P2 : (Z.of_nat p <= 2 ^ 26)%Z) (K : (k <= p)%nat).
Let a : R := 1 - INR c / INR n.
Let b : R := 1 - INR k / INR p.
Lemma hazard_ok : (k < p)%nat -> fin (hazard64 (frac64 c n) (frac64 k p)) /\
  Rabs (V (hazard64 (frac64 c n) (frac64 k p)) - J_of c n k p) <= (INR n + INR p + 6) * u * J_of c n k p.
Proof using N1 N2 C P1 P2 K.
  intro L. unfold hazard64. rewrite (frac_one k p P1 P2 K). replace (Nat.eqb k p) with false by (symmetry; apply Nat.eqb_neq; lia).
  rewrite andb_false_r.
  destruct (rest_ok c n N1 N2 C) as (FA & _ & EA). destruct (rest_ok k p P1 P2 K) as (FB & _ & EB). fold a in EA. fold b in EB.
  set (A := V (fsub (fint 1) (frac64 c n))) in *. set (B := V (fsub (fint 1) (frac64 k p))) in *.
  pose proof (rest_low k p P1 K L) as BL. fold b in BL. pose proof (n_pos p P1) as PP. pose proof (n_pos n N1) as NP. pose proof u_ge as U.
  pose proof (x_range c n N1 C) as XA. pose proof (x_range k p P1 K) as XB. assert (A0 : 0 <= a) by (unfold a; lra). assert (A1 : a <= 1) by (unfold a; lra).
  assert (IP : 0 < / INR p) by (apply Rinv_0_lt_compat; lra).
  pose proof (un_small c n N1 N2 C) as UN. pose proof (un_small k p P1 P2 K) as UP.
  assert (S27 : bpow radix2 (-27) <= / 64) by (change (/ 64) with (bpow radix2 (-6)); apply bpow_le; lia).
  assert (Us : u <= / 1024) by (change (/ 1024) with (bpow radix2 (-10)); apply bpow_le; lia).
  set (ea := (INR n + 1) * u) in *. set (eb := (INR p + 1) * u) in *.
  assert (Ea : 0 <= ea <= / 32) by (unfold ea; nra). assert (Eb : 0 <= eb <= / 32) by (unfold eb; nra).
  assert (Eb64 : eb <= 2 * bpow radix2 (-27)) by (unfold eb; nra).
  assert (Ea64 : ea <= 2 * bpow radix2 (-27)) by (unfold ea; nra).
  apply Rabs_le_inv in EA. apply Rabs_le_inv in EB.
  assert (Bp : 0 < B) by nra. assert (Ap : 0 <= A) by nra. assert (A2 : A <= 2) by nra.
  assert (BI : / B <= bpow radix2 27).
  { rewrite <- (Rinv_involutive (bpow radix2 27)) by (apply Rgt_not_eq, bpow_gt_0). change (/ bpow radix2 27) with (bpow radix2 (-27)).
    apply Rinv_le; [apply bpow_gt_0|]. apply Rle_trans with (b / 2); [|nra]. apply Rle_trans with (/ INR p / 2); [|lra].
    replace (bpow radix2 (-27)) with (/ bpow radix2 26 / 2) by (change (/ bpow radix2 26) with (bpow radix2 (-26)); unfold Rdiv; change (/ 2) with (bpow radix2 (-1)); rewrite <- bpow_plus; reflexivity).
    apply Rmult_le_compat_r; [lra|]. apply Rinv_le; [lra|]. apply INR_bound; [exact P2|lia]. }
  assert (IB : 0 < / B) by (apply Rinv_0_lt_compat; lra).
  assert (AB : 0 <= A / B <= bpow radix2 28).
  { split; [apply Rmult_le_pos; lra|]. change (bpow radix2 28) with (bpow radix2 (1 + 27)). rewrite bpow_plus. change (bpow radix2 1) with 2.
    apply Rmult_le_compat; lra. }
  destruct (fdiv_ok (fsub (fint 1) (frac64 c n)) (fsub (fint 1) (frac64 k p)) FA) as [D1 D2].
  - fold B. lra.
  - fold A B. rewrite Rabs_pos_eq by lra. apply Rle_trans with (bpow radix2 28); [lra|apply bpow_le; lia].
  - fold A B in D2. split; [exact D1|]. rewrite D2. unfold J_of. fold a b.
    assert (b0 : 0 < b) by lra. assert (Ib : 0 < / b) by (apply Rinv_0_lt_compat; lra).
    set (j := a / b). assert (J0 : 0 <= j) by (apply Rmult_le_pos; lra).
    destruct (Nat.eq_dec c n) as [CN|CN].
    + assert (a0 : a = 0) by (unfold a; rewrite CN; unfold Rdiv; rewrite Rinv_r by lra; ring).
      assert (A00 : A = 0) by (unfold A; apply rest_zero; assumption).
      unfold j. rewrite a0, A00. unfold Rdiv. rewrite !Rmult_0_l, rnd_0, Rminus_0_r, Rabs_R0, Rmult_0_r. lra.
    + pose proof (rest_low c n N1 C) as AL. fold a in AL. assert (AL' : / INR n <= a) by (apply AL; lia). clear AL.
      assert (IN : bpow radix2 (-26) <= / INR n).
      { change (bpow radix2 (-26)) with (/ bpow radix2 26). apply Rinv_le; [lra|]. apply INR_bound; [exact N2|lia]. }
      assert (b1 : b <= 1) by (unfold b; lra).
      assert (AJ : (1 - ea) * j <= A * / b <= (1 + ea) * j).
      { unfold j, Rdiv. split; [replace ((1 - ea) * (a * / b)) with ((a - ea * a) * / b) by ring|replace ((1 + ea) * (a * / b)) with ((a + ea * a) * / b) by ring]; apply Rmult_le_compat_r; lra. }
      assert (BB : A / B = A * / b * (b / B)) by (field; lra).
      assert (RB : / (1 + eb) <= b / B <= / (1 - eb)).
      { split.
        - apply Rmult_le_reg_r with ((1 + eb) * B); [nra|]. replace (/ (1 + eb) * ((1 + eb) * B)) with B by (field; lra). replace (b / B * ((1 + eb) * B)) with (b + eb * b) by (field; lra). lra.
        - apply Rmult_le_reg_r with ((1 - eb) * B); [nra|]. replace (/ (1 - eb) * ((1 - eb) * B)) with B by (field; lra). replace (b / B * ((1 - eb) * B)) with (b - eb * b) by (field; lra). lra. }
      assert (L1 : 1 - eb <= / (1 + eb)).
      { apply Rmult_le_reg_r with (1 + eb); [lra|]. rewrite Rinv_l by lra. nra. }
      assert (L2 : / (1 - eb) <= 1 + eb + 2 * (eb * eb)).
      { apply Rmult_le_reg_r with (1 - eb); [lra|]. rewrite Rinv_l by lra. assert (0 <= eb * eb * (1 - 2 * eb)) by (apply Rmult_le_pos; nra). lra. }
      assert (QL : bpow radix2 (-1022) <= Rabs (A / B)).
      { rewrite Rabs_pos_eq by lra. apply Rle_trans with (bpow radix2 (-28)); [apply bpow_le; lia|].
        assert (B2 : B <= 2) by nra. assert (/ 2 <= / B) by (apply Rinv_le; lra).
        change (bpow radix2 (-28)) with (bpow radix2 (-27 + -1)). rewrite bpow_plus. change (bpow radix2 (-1)) with (/ 2).
        apply Rmult_le_compat; [apply bpow_ge_0|lra| |lra]. apply Rle_trans with (a / 2); [|nra].
        change (bpow radix2 (-26)) with (bpow radix2 (-27 + 1)) in IN. rewrite bpow_plus in IN. change (bpow radix2 1) with 2 in IN. lra. }
      destruct (rnd_rel (A / B) QL) as (e & E & ->). rewrite BB. set (w := A * / b) in *. set (v := b / B) in *. apply Rabs_le_inv in E.
      assert (S30 : bpow radix2 (-27) <= / 1024) by (change (/ 1024) with (bpow radix2 (-10)); apply bpow_le; lia).
      set (z := bpow radix2 (-27)) in *. assert (ZZ : z * z = u / 2).
      { unfold z, u, Rdiv. change (/ 2) with (bpow radix2 (-1)). rewrite <- !bpow_plus. reflexivity. }
      assert (Z0 : 0 < z) by apply bpow_gt_0. assert (UZ : u <= z / 512) by nra.
      assert (EaZ : ea <= z * (513 / 512)) by (unfold ea; lra). assert (EbZ : eb <= z * (513 / 512)) by (unfold eb; lra).
      assert (SQ1 : ea * eb <= 3 / 5 * u).
      { apply Rle_trans with (z * (513 / 512) * (z * (513 / 512))); [apply Rmult_le_compat; lra|]. replace (z * (513 / 512) * (z * (513 / 512))) with (z * z * (513 / 512 * (513 / 512))) by ring. rewrite ZZ. lra. }
      assert (SQ2 : eb * eb <= 3 / 5 * u).
      { apply Rle_trans with (z * (513 / 512) * (z * (513 / 512))); [apply Rmult_le_compat; lra|]. replace (z * (513 / 512) * (z * (513 / 512))) with (z * z * (513 / 512 * (513 / 512))) by ring. rewrite ZZ. lra. }
      assert (W0 : 0 <= w) by (unfold w; apply Rmult_le_pos; lra).
      assert (Hi : (1 + ea) * (1 + eb + 2 * (eb * eb)) * (1 + u) <= 1 + (INR n + INR p + 6) * u).
      { replace ((INR n + INR p + 6) * u) with (ea + eb + 4 * u) by (unfold ea, eb; ring).
        assert (M1 : (1 + ea) * (1 + eb + 2 * (eb * eb)) <= 1 + ea + eb + 5 / 2 * u).
        { replace ((1 + ea) * (1 + eb + 2 * (eb * eb))) with (1 + ea + eb + ea * eb + 2 * (eb * eb) + 2 * ea * (eb * eb)) by ring.
          assert (2 * ea * (eb * eb) <= / 16 * (3 / 5 * u)) by (apply Rmult_le_compat; nra). lra. }
        apply Rle_trans with ((1 + ea + eb + 5 / 2 * u) * (1 + u)); [apply Rmult_le_compat_r; lra|]. assert ((ea + eb + 5 / 2 * u) * u <= / 4 * u) by (apply Rmult_le_compat_r; lra). lra. }
      assert (Lo : 1 - (INR n + INR p + 6) * u <= (1 - ea) * (1 - eb) * (1 - u)).
      { replace ((INR n + INR p + 6) * u) with (ea + eb + 4 * u) by (unfold ea, eb; ring).
        assert (M1 : 1 - ea - eb <= (1 - ea) * (1 - eb)) by (assert (0 <= ea * eb) by (apply Rmult_le_pos; lra); lra).
        apply Rle_trans with ((1 - ea - eb) * (1 - u)); [|apply Rmult_le_compat_r; lra]. assert (0 <= (ea + eb) * u) by (apply Rmult_le_pos; lra). lra. }
      assert (V1 : 1 - eb <= v <= 1 + eb + 2 * (eb * eb)) by lra. assert (V0 : 0 <= v) by lra.
      assert (WV : (1 - ea) * (1 - eb) * j <= w * v <= (1 + ea) * (1 + eb + 2 * (eb * eb)) * j).
      { split.
        - replace ((1 - ea) * (1 - eb) * j) with ((1 - ea) * j * (1 - eb)) by ring. apply Rmult_le_compat; try lra. apply Rmult_le_pos; lra.
        - replace ((1 + ea) * (1 + eb + 2 * (eb * eb)) * j) with ((1 + ea) * j * (1 + eb + 2 * (eb * eb))) by ring. apply Rmult_le_compat; lra. }
      assert (WVE : (1 - ea) * (1 - eb) * j * (1 - u) <= w * v * (1 + e) <= (1 + ea) * (1 + eb + 2 * (eb * eb)) * j * (1 + u)).
      { assert (0 <= w * v) by (apply Rmult_le_pos; lra). split; apply Rmult_le_compat; try lra. apply Rmult_le_pos; [|lra]. apply Rmult_le_pos; lra. }
      set (d := (INR n + INR p + 6) * u) in *. apply Rabs_le. split.
      * apply Rle_trans with ((1 - d) * j - j); [lra|]. apply Rplus_le_compat_r. apply Rle_trans with ((1 - ea) * (1 - eb) * (1 - u) * j); [apply Rmult_le_compat_r; lra|lra].
      * apply Rle_trans with ((1 + d) * j - j); [|lra]. apply Rplus_le_compat_r. apply Rle_trans with ((1 + ea) * (1 + eb + 2 * (eb * eb)) * (1 + u) * j); [lra|apply Rmult_le_compat_r; lra].
Qed.
Lemma hazard_nan : k = p -> c = n -> hazard64 (frac64 c n) (frac64 k p) = B754_nan.
Proof using N1 N2 C P1 P2 K.
  intros -> ->. unfold hazard64. rewrite !frac_one by (auto; lia). rewrite !Nat.eqb_refl. reflexivity.
Qed.
Lemma rest_nonzero : (c < n)%nat -> V (fsub (fint 1) (frac64 c n)) <> 0.
Proof using N1 N2 C.
  clear P1 P2 K. intro L. destruct (rest_ok c n N1 N2 C) as (_ & _ & EA).
  fold a in EA. pose proof (rest_low c n N1 C L) as AL. fold a in AL. pose proof (n_pos n N1). pose proof (un_small c n N1 N2 C) as UN. pose proof u_ge as U.
  assert (0 < / INR n) by (apply Rinv_0_lt_compat; lra). assert (S27 : bpow radix2 (-27) <= / 4) by (change (/ 4) with (bpow radix2 (-2)); apply bpow_le; lia).
  assert (Us : u <= / 4) by (change (/ 4) with (bpow radix2 (-2)); apply bpow_le; lia). apply Rabs_le_inv in EA. assert ((INR n + 1) * u <= / 2) by lra. nra.
Qed.
Lemma hazard_inf : k = p -> (c < n)%nat -> is_finite (hazard64 (frac64 c n) (frac64 k p)) = false.
Proof using N1 N2 C P1 P2 K.
  intros KP L. unfold hazard64. rewrite (frac_one c n N1 N2 C). replace (Nat.eqb c n) with false by (symmetry; apply Nat.eqb_neq; lia). cbn [andb].
  pose proof (rest_zero k p P1 P2 K KP) as Z0. destruct (rest_ok k p P1 P2 K) as (FB & _ & _). destruct (rest_ok c n N1 N2 C) as (FA & _ & _).
  pose proof (rest_nonzero L) as NZ.
  destruct (fsub (fint 1) (frac64 k p)) as [s|s| |s m e Be]; try discriminate FB.
  - destruct (fsub (fint 1) (frac64 c n)) as [s'|s'| |s' m' e' Be']; try discriminate FA; [exfalso; apply NZ; reflexivity|reflexivity].
  - exfalso. unfold V, B2R in Z0. revert Z0. apply F2R_neq_0. destruct s; discriminate.
Qed.
End Ratio.
