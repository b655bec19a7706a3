(** Rounding errors of distances on binary64. *)
From Coq Require Import Reals ZArith List Bool Permutation Lia Lra Psatz.
From Flocq Require Import Core BinarySingleNaN.
From Verif Require Import Base BaseLemmas Float_model Float_proofs F64_model F64_proofs Hex64_model Hex64_proofs K64_model K64_spec.
Import ListNotations.
Local Open Scope R_scope.

Lemma fsqrt_ok : forall x, fin x -> 0 <= V x -> fin (fsqrt x) /\ V (fsqrt x) = rnd (sqrt (V x)).
Proof.
  intros r F P. pose proof (Bsqrt_correct 53 1024 eq_refl eq_refl mode_NE r) as (A & B & _). unfold fin, V, fsqrt in *.
  destruct r as [s|s| |s m e H]; try discriminate.
  - split; [exact B|exact A].
  - cbn [B2R] in *. destruct s; [|split; [exact B|exact A]]. exfalso. revert P. apply Rlt_not_le. apply F2R_lt_0. reflexivity.
Qed.
Lemma rnd_opp : forall x, rnd (- x) = - rnd x.
Proof. intro x. apply round_NE_opp. Qed.
Lemma rnd_minus_error : forall x y, isfloat x -> isfloat y -> Rabs (rnd (x - y) - (x - y)) <= u * Rabs (x - y).
Proof. intros x y A B. apply (rnd_plus_error x (- y) A). apply generic_format_opp. exact B. Qed.
(** Roots of floats have no underflow error. *)
Lemma rnd_sqrt_error : forall x, isfloat x -> 0 <= x -> Rabs (rnd (sqrt x) - sqrt x) <= u * sqrt x.
Proof.
  intros x F P. destruct (Req_dec x 0) as [->|N].
  - rewrite sqrt_0, rnd_0, Rminus_0_r, Rabs_R0. lra.
  - assert (S : bpow radix2 (-1022) <= sqrt x).
    { destruct (float_multiple x F) as [k K]. assert (1 <= IZR k).
      { apply IZR_le. assert (0 < k)%Z; [|lia]. apply lt_IZR. apply Rmult_lt_reg_r with (bpow radix2 (-1074)); [apply bpow_gt_0|]. lra. }
      apply Rle_trans with (bpow radix2 (-537)); [apply bpow_le; lia|].
      rewrite <- (sqrt_square (bpow radix2 (-537))) by apply bpow_ge_0. apply sqrt_le_1_alt. rewrite <- bpow_plus. change (-537 + -537)%Z with (-1074)%Z.
      rewrite K. pose proof (bpow_gt_0 radix2 (-1074)). nra. }
    pose proof (sqrt_pos x) as Q. destruct (rnd_rel (sqrt x)) as (e & E & ->); [rewrite Rabs_pos_eq; auto|].
    replace (sqrt x * (1 + e) - sqrt x) with (e * sqrt x) by ring. rewrite Rabs_mult, (Rabs_pos_eq (sqrt x)) by auto. apply Rmult_le_compat_r; auto.
Qed.

(** ** One distance *)
Lemma bp : forall a b, bpow radix2 (a + b) = bpow radix2 a * bpow radix2 b.
Proof. intros. apply bpow_plus. Qed.
Lemma diff_ok : forall x y, fin x -> fin y -> Rabs (V x) <= bpow radix2 500 -> Rabs (V y) <= bpow radix2 500 ->
  fin (fsub x y) /\ V (fsub x y) = rnd (V x - V y) /\ Rabs (V (fsub x y)) <= bpow radix2 501 /\ Rabs (V x - V y) <= bpow radix2 501.
Proof.
  intros x y Fx Fy Bx By. assert (B : Rabs (V x - V y) <= bpow radix2 501).
  { change 501%Z with (1 + 500)%Z. rewrite bp. change (bpow radix2 1) with 2. pose proof (Rabs_triang (V x) (- V y)) as T. rewrite Rabs_Ropp in T. unfold Rminus. lra. }
  destruct (fsub_ok x y Fx Fy) as [A1 A2]; [eapply Rle_trans; [exact B|apply bpow_le; lia]|]. split; [exact A1|]. split; [exact A2|]. split; [|exact B].
  rewrite A2. apply rnd_abs_le; [|exact B]. apply generic_format_bpow. unfold fexp64, FLT_exp. lia.
Qed.
Lemma sq_le : forall x b, Rabs x <= b -> x * x <= b * b.
Proof. intros x b H. rewrite <- (Rabs_pos_eq (x * x)), Rabs_mult by (apply Rle_0_sqr). pose proof (Rabs_pos x). nra. Qed.
Lemma square_ok : forall x, fin x -> Rabs (V x) <= bpow radix2 501 -> fin (fmul x x) /\ V (fmul x x) = rnd (V x * V x) /\ 0 <= V (fmul x x) <= bpow radix2 1002.
Proof.
  intros x F B. assert (S : V x * V x <= bpow radix2 1002) by (change 1002%Z with (501 + 501)%Z; rewrite bp; apply sq_le; exact B).
  assert (P : 0 <= V x * V x) by apply Rle_0_sqr.
  destruct (fmul_ok x x F F) as [A1 A2]; [rewrite Rabs_pos_eq by exact P; eapply Rle_trans; [exact S|apply bpow_le; lia]|].
  split; [exact A1|]. split; [exact A2|]. rewrite A2. split; [apply rnd_nonneg; exact P|].
  apply Rle_trans with (Rabs (rnd (V x * V x))); [apply Rle_abs|]. apply rnd_abs_le; [apply generic_format_bpow; unfold fexp64, FLT_exp; lia|].
  rewrite Rabs_pos_eq by exact P. exact S.
Qed.
(** The value computed, before any estimate. *)
Definition sqv (p q : fpt) : R :=
  rnd (rnd (rnd (V (fst p) - V (fst q)) * rnd (V (fst p) - V (fst q))) + rnd (rnd (V (snd p) - V (snd q)) * rnd (V (snd p) - V (snd q)))).
Lemma sq64_ok : forall p q, usable p -> usable q -> fin (sq64 p q) /\ V (sq64 p q) = sqv p q /\ 0 <= sqv p q.
Proof.
  intros p q [[P1 P2] [P3 P4]] [[Q1 Q2] [Q3 Q4]]. unfold sq64. cbv zeta.
  destruct (diff_ok (fst p) (fst q)) as (A1 & A2 & A3 & _); auto. destruct (diff_ok (snd p) (snd q)) as (B1 & B2 & B3 & _); auto.
  destruct (square_ok _ A1 A3) as (C1 & C2 & C3). destruct (square_ok _ B1 B3) as (E1 & E2 & E3).
  destruct (fadd_ok _ _ C1 E1) as [G1 G2].
  { rewrite Rabs_pos_eq by lra. apply Rle_trans with (bpow radix2 1003); [|apply bpow_le; lia]. change 1003%Z with (1 + 1002)%Z. rewrite bp. change (bpow radix2 1) with 2. lra. }
  split; [exact G1|]. split.
  - rewrite G2, C2, E2, A2, B2. reflexivity.
  - unfold sqv. rewrite <- A2, <- B2, <- C2, <- E2. apply rnd_nonneg. lra.
Qed.
Lemma dist64_ok : forall p q, usable p -> usable q -> fin (dist64 p q) /\ V (dist64 p q) = rnd (sqrt (sqv p q)) /\ 0 <= V (dist64 p q).
Proof.
  intros p q P Q. destruct (sq64_ok p q P Q) as (A & B & C). unfold dist64. destruct (fsqrt_ok _ A) as [E F]; [rewrite B; exact C|].
  split; [exact E|]. rewrite F, B. split; [reflexivity|]. apply rnd_nonneg, sqrt_pos.
Qed.
Lemma rel_bounds : forall a A, Rabs (A - a) <= u * Rabs a -> (1 - u) ^ 2 * (a * a) <= A * A <= (1 + u) ^ 2 * (a * a).
Proof.
  intros a A H. pose proof u_ge as U. pose proof u_le as U1. assert (T : Rabs A <= (1 + u) * Rabs a).
  { replace A with ((A - a) + a) by ring. eapply Rle_trans; [apply Rabs_triang|]. lra. }
  assert (L : (1 - u) * Rabs a <= Rabs A).
  { pose proof (Rabs_triang (a - A) A) as X. replace (a - A + A) with a in X by ring. rewrite Rabs_minus_sym in X. lra. }
  replace (a * a) with (Rabs a * Rabs a) by (rewrite <- Rabs_mult, Rabs_pos_eq; [reflexivity|apply Rle_0_sqr]).
  replace (A * A) with (Rabs A * Rabs A) by (rewrite <- Rabs_mult, Rabs_pos_eq; [reflexivity|apply Rle_0_sqr]).
  pose proof (Rabs_pos a). pose proof (Rabs_pos A). assert (0 <= (1 - u) * Rabs a) by nra.
  split; [replace ((1 - u) ^ 2 * (Rabs a * Rabs a)) with ((1 - u) * Rabs a * ((1 - u) * Rabs a)) by ring|
          replace ((1 + u) ^ 2 * (Rabs a * Rabs a)) with ((1 + u) * Rabs a * ((1 + u) * Rabs a)) by ring]; apply Rmult_le_compat; auto.
Qed.
Lemma sqv_bounds : forall p q, (1 - u) ^ 4 * (D p q * D p q) - 2 * tiny <= sqv p q <= (1 + u) ^ 4 * (D p q * D p q) + 4 * tiny.
Proof.
  intros p q. unfold sqv. set (a := V (fst p) - V (fst q)). set (b := V (snd p) - V (snd q)).
  assert (DD : D p q * D p q = a * a + b * b).
  { unfold D. fold a b. rewrite sqrt_sqrt; [ring|]. pose proof (Rle_0_sqr a). pose proof (Rle_0_sqr b). unfold Rsqr in *. nra. }
  rewrite DD. pose proof (rel_bounds a (rnd a) (rnd_minus_error _ _ (V_float _) (V_float _))) as RA.
  pose proof (rel_bounds b (rnd b) (rnd_minus_error _ _ (V_float _) (V_float _))) as RB.
  pose proof (rnd_error (rnd a * rnd a)) as EA. pose proof (rnd_error (rnd b * rnd b)) as EB.
  rewrite (Rabs_pos_eq (rnd a * rnd a)) in EA by apply Rle_0_sqr. rewrite (Rabs_pos_eq (rnd b * rnd b)) in EB by apply Rle_0_sqr.
  pose proof (rnd_plus_error (rnd (rnd a * rnd a)) (rnd (rnd b * rnd b)) (rnd_float _) (rnd_float _)) as ES.
  assert (PA : 0 <= rnd (rnd a * rnd a)) by apply rnd_nonneg, Rle_0_sqr. assert (PB : 0 <= rnd (rnd b * rnd b)) by apply rnd_nonneg, Rle_0_sqr.
  rewrite (Rabs_pos_eq (_ + _)) in ES by lra.
  set (x := rnd (rnd a * rnd a)) in *. set (y := rnd (rnd b * rnd b)) in *. set (z := rnd (x + y)) in *.
  set (A2 := rnd a * rnd a) in *. set (B2 := rnd b * rnd b) in *. set (a2 := a * a) in *. set (b2 := b * b) in *.
  apply Rabs_le_inv in EA. apply Rabs_le_inv in EB. apply Rabs_le_inv in ES.
  pose proof u_ge as U. pose proof u_le as U1. pose proof tiny_gt as T0.
  assert (S : (1 - u) ^ 3 * (a2 + b2) - 2 * tiny <= x + y <= (1 + u) ^ 3 * (a2 + b2) + 2 * tiny).
  { replace ((1 - u) ^ 3 * (a2 + b2)) with ((1 - u) * ((1 - u) ^ 2 * a2) + (1 - u) * ((1 - u) ^ 2 * b2)) by ring.
    replace ((1 + u) ^ 3 * (a2 + b2)) with ((1 + u) * ((1 + u) ^ 2 * a2) + (1 + u) * ((1 + u) ^ 2 * b2)) by ring.
    destruct RA as [RA1 RA2]. destruct RB as [RB1 RB2].
    assert ((1 - u) * ((1 - u) ^ 2 * a2) <= (1 - u) * A2) by (apply Rmult_le_compat_l; lra).
    assert ((1 - u) * ((1 - u) ^ 2 * b2) <= (1 - u) * B2) by (apply Rmult_le_compat_l; lra).
    assert ((1 + u) * A2 <= (1 + u) * ((1 + u) ^ 2 * a2)) by (apply Rmult_le_compat_l; lra).
    assert ((1 + u) * B2 <= (1 + u) * ((1 + u) ^ 2 * b2)) by (apply Rmult_le_compat_l; lra). lra. }
  destruct S as [S1 S2].
  assert ((1 - u) * ((1 - u) ^ 3 * (a2 + b2) - 2 * tiny) <= (1 - u) * (x + y)) by (apply Rmult_le_compat_l; lra).
  assert ((1 + u) * (x + y) <= (1 + u) * ((1 + u) ^ 3 * (a2 + b2) + 2 * tiny)) by (apply Rmult_le_compat_l; lra).
  replace ((1 - u) ^ 4) with ((1 - u) * (1 - u) ^ 3) by ring. replace ((1 + u) ^ 4) with ((1 + u) * (1 + u) ^ 3) by ring. split; nra.
Qed.
Lemma D_nonneg : forall p q, 0 <= D p q.
Proof. intros. apply sqrt_pos. Qed.
Lemma sqrt_plus : forall a b, 0 <= a -> 0 <= b -> sqrt (a + b) <= sqrt a + sqrt b.
Proof.
  intros a b A B. pose proof (sqrt_pos a). pose proof (sqrt_pos b). rewrite <- (sqrt_square (sqrt a + sqrt b)) by lra.
  apply sqrt_le_1_alt. pose proof (sqrt_sqrt a A). pose proof (sqrt_sqrt b B). nra.
Qed.
Lemma dist_error : forall p q, usable p -> usable q ->
  Rabs (V (dist64 p q) - D p q) <= bpow radix2 (-51) * D p q + bpow radix2 (-535).
Proof.
  intros p q P Q. destruct (dist64_ok p q P Q) as (_ & E & _). destruct (sq64_ok p q P Q) as (_ & E2 & N). rewrite E.
  pose proof (sqv_bounds p q) as [B1 B2]. pose proof (D_nonneg p q) as DN.
  assert (F : isfloat (sqv p q)) by (rewrite <- E2; apply V_float).
  pose proof (rnd_sqrt_error _ F N) as R. apply Rabs_le_inv in R.
  pose proof u_ge as U. pose proof u_le as U1. pose proof tiny_gt as T0. set (d := D p q) in *. set (s := sqrt (sqv p q)) in *.
  assert (TE : sqrt (4 * tiny) <= bpow radix2 (-536)).
  { rewrite <- (sqrt_square (bpow radix2 (-536))) by apply bpow_ge_0. apply sqrt_le_1_alt. rewrite <- bpow_plus. change 4 with (bpow radix2 2). unfold tiny.
    rewrite <- bpow_plus. apply bpow_le. lia. }
  assert (S2 : s <= (1 + u) ^ 2 * d + bpow radix2 (-536)).
  { unfold s. eapply Rle_trans; [apply sqrt_le_1_alt, B2|]. eapply Rle_trans; [apply sqrt_plus; [|lra]|].
    - apply Rmult_le_pos; [|apply Rle_0_sqr]. apply pow_le. lra.
    - apply Rplus_le_compat; [|exact TE]. replace ((1 + u) ^ 4 * (d * d)) with (((1 + u) ^ 2 * d) * ((1 + u) ^ 2 * d)) by ring. rewrite sqrt_square; [lra|].
      apply Rmult_le_pos; [apply pow_le; lra|exact DN]. }
  assert (S1 : (1 - u) ^ 2 * d <= s + bpow radix2 (-536)).
  { apply Rle_trans with (sqrt (sqv p q + 4 * tiny)).
    - replace ((1 - u) ^ 2 * d) with (sqrt (((1 - u) ^ 2 * d) * ((1 - u) ^ 2 * d))) by (apply sqrt_square, Rmult_le_pos; [apply pow_le; lra|exact DN]).
      apply sqrt_le_1_alt. replace (((1 - u) ^ 2 * d) * ((1 - u) ^ 2 * d)) with ((1 - u) ^ 4 * (d * d)) by ring. lra.
    - eapply Rle_trans; [apply sqrt_plus; lra|]. unfold s. lra. }
  assert (U4 : bpow radix2 (-51) = 4 * u). { unfold u. change 4 with (bpow radix2 2). rewrite <- bpow_plus. reflexivity. }
  assert (T2 : bpow radix2 (-535) = 2 * bpow radix2 (-536)). { change (-535)%Z with (1 + -536)%Z. rewrite bpow_plus. reflexivity. }
  rewrite U4, T2. set (t := bpow radix2 (-536)) in *. assert (T1 : 0 < t) by apply bpow_gt_0. assert (SP : 0 <= s) by apply sqrt_pos.
  set (r := rnd s) in *. apply Rabs_le.
  assert (Hu : u <= / 64). { change (/ 64) with (bpow radix2 (-6)). apply bpow_le. lia. }
  assert (K2 : (1 + u) * ((1 + u) ^ 2 * d + t) <= (1 + 4 * u) * d + 2 * t) by (assert ((1 + u) ^ 3 <= 1 + 4 * u) by nra; nra).
  assert (K1 : (1 - 4 * u) * d - 2 * t <= (1 - u) * ((1 - u) ^ 2 * d - t)) by (assert (1 - 4 * u <= (1 - u) ^ 3) by nra; nra).
  split; [|nra].
  assert ((1 - u) * ((1 - u) ^ 2 * d - t) <= (1 - u) * s) by (apply Rmult_le_compat_l; lra). lra.
Qed.

(** ** Counting pairs *)
Lemma pdist_pairs : forall l, pdist64 l = map (fun pq => dist64 (fst pq) (snd pq)) (pairs l).
Proof. induction l as [|p t IH]; [reflexivity|]. cbn [pdist64 pairs]. rewrite map_app, map_map, IH. reflexivity. Qed.
Lemma filter_map : forall (A B : Type) (f : A -> B) (c : B -> bool) l, filter c (map f l) = map f (filter (fun a => c (f a)) l).
Proof. intros A B f c l. induction l as [|a l IH]; [reflexivity|]. cbn. destruct (c (f a)); cbn; rewrite IH; reflexivity. Qed.
Lemma closer_pairs : forall l d, closer64 l d = List.length (filter (fun pq => flt (dist64 (fst pq) (snd pq)) d) (pairs l)).
Proof. intros l d. unfold closer64. rewrite pdist_pairs, filter_map, map_length. reflexivity. Qed.
Lemma in_pairs : forall l p q, In (p, q) (pairs l) -> In p l /\ In q l.
Proof.
  induction l as [|r t IH]; intros p q H; [contradiction|]. cbn [pairs] in H. apply in_app_or in H. destruct H as [H|H].
  - apply in_map_iff in H. destruct H as [x [E X]]. injection E as <- <-. split; [left; reflexivity|right; exact X].
  - destruct (IH p q H) as [A B]. split; right; auto.
Qed.
Lemma filter_length_le : forall (A : Type) (f g : A -> bool) l, (forall a, In a l -> f a = true -> g a = true) ->
  (List.length (filter f l) <= List.length (filter g l))%nat.
Proof.
  intros A f g l. induction l as [|a l IH]; intro H; [reflexivity|]. cbn. specialize (IH (fun b B => H b (or_intror B))). specialize (H a (or_introl eq_refl)).
  destruct (f a); [rewrite (H eq_refl); cbn; lia|]. destruct (g a); cbn; lia.
Qed.
Lemma pairs_length : forall l, (2 * List.length (pairs l) = List.length l * (List.length l - 1))%nat.
Proof.
  induction l as [|p t IH]; [reflexivity|]. cbn [pairs List.length]. rewrite app_length, map_length. destruct t; [reflexivity|]. cbn [List.length] in *. nia.
Qed.
Lemma closer_le : forall l d, (2 * closer64 l d <= List.length l * List.length l)%nat.
Proof.
  intros l d. rewrite closer_pairs. pose proof (filter_length_le _ (fun pq => flt (dist64 (fst pq) (snd pq)) d) (fun _ => true) (pairs l) (fun _ _ _ => eq_refl)) as H.
  assert (E : forall m : list (fpt * fpt), filter (fun _ => true) m = m) by (induction m as [|x m IM]; cbn; congruence).
  rewrite E in H. pose proof (pairs_length l). nia.
Qed.
Lemma count_perm : forall (A : Type) (f : A -> bool) l l', Permutation l l' -> List.length (filter f l) = List.length (filter f l').
Proof. intros A f l l' P. induction P; cbn; auto; try congruence; repeat destruct (f _); cbn; lia. Qed.
Lemma pairs_perm : forall (f : fpt -> fpt -> bool) l l', Permutation l l' -> (forall p q, In p l -> In q l -> f p q = f q p) ->
  List.length (filter (fun pq => f (fst pq) (snd pq)) (pairs l)) = List.length (filter (fun pq => f (fst pq) (snd pq)) (pairs l')).
Proof.
  intros f l l' P.
  assert (H : forall p t, List.length (filter (fun pq => f (fst pq) (snd pq)) (map (pair p) t)) = List.length (filter (f p) t)).
  { intros p t. rewrite filter_map, map_length. reflexivity. }
  induction P as [|x l l' P IH|x y l|l l' l'' P1 IH1 P2 IH2]; intro S.
  - reflexivity.
  - cbn [pairs]. rewrite !filter_app, !app_length, !H. f_equal; [apply count_perm; exact P|]. apply IH. intros; apply S; right; auto.
  - cbn [pairs map app filter fst snd]. rewrite !filter_app, (S x y) by (cbn; auto).
    destruct (f y x); cbn [List.length]; rewrite !app_length, !H; cbn [List.length]; lia.
  - rewrite IH1 by exact S. apply IH2. intros p q Hp Hq. apply S; apply (Permutation_in _ (Permutation_sym P1)); assumption.
Qed.
Lemma sqv_sym : forall p q, sqv p q = sqv q p.
Proof.
  intros p q. unfold sqv. rewrite <- (Ropp_minus_distr (V (fst q))), <- (Ropp_minus_distr (V (snd q))), !rnd_opp, !Rmult_opp_opp. reflexivity.
Qed.
Lemma flt_dist_sym : forall p q d, usable p -> usable q -> fin d -> flt (dist64 p q) d = flt (dist64 q p) d.
Proof.
  intros p q d P Q F. destruct (dist64_ok p q P Q) as (A & B & _). destruct (dist64_ok q p Q P) as (A' & B' & _). rewrite sqv_sym in B. rewrite <- B' in B.
  destruct (flt (dist64 q p) d) eqn:E.
  - apply flt_ok; auto. rewrite B. apply flt_ok; auto.
  - apply flt_false; auto. rewrite B. apply flt_false; auto.
Qed.

(** ** Bounding boxes *)
Lemma fmin_ok : forall a b, fin a -> fin b -> fin (fmin a b) /\ V (fmin a b) = Rmin (V a) (V b).
Proof.
  intros a b A B. unfold fmin. destruct (flt b a) eqn:E.
  - apply flt_ok in E; auto. split; [exact B|]. rewrite Rmin_right; lra.
  - apply flt_false in E; auto. split; [exact A|]. rewrite Rmin_left; lra.
Qed.
Lemma fmax_ok : forall a b, fin a -> fin b -> fin (fmax a b) /\ V (fmax a b) = Rmax (V a) (V b).
Proof.
  intros a b A B. unfold fmax. destruct (flt a b) eqn:E.
  - apply flt_ok in E; auto. split; [exact B|]. rewrite Rmax_right; lra.
  - apply flt_false in E; auto. split; [exact A|]. rewrite Rmax_left; lra.
Qed.
Lemma col_min_ok : forall (c : fpt -> f64) l p, (forall q, In q (p :: l) -> fin (c q)) ->
  exists q, In q (p :: l) /\ col_min c p l = c q /\ forall r, In r (p :: l) -> V (c q) <= V (c r).
Proof.
  intros c l p. unfold col_min.
  assert (G : forall l q0, fin (c q0) -> (forall q, In q l -> fin (c q)) ->
    exists q, In q (q0 :: l) /\ fold_left (fun m q => fmin m (c q)) l (c q0) = c q /\ forall r, In r (q0 :: l) -> V (c q) <= V (c r)).
  { clear. induction l as [|a l IH]; intros q0 F0 F.
    - exists q0. split; [left; reflexivity|]. split; [reflexivity|]. intros r [<-|[]]. lra.
    - cbn [fold_left]. assert (Fa : fin (c a)) by (apply F; left; reflexivity).
      unfold fmin at 2. destruct (flt (c a) (c q0)) eqn:E.
      + destruct (IH a Fa) as (q & A & B & C); [intros; apply F; right; auto|]. exists q. split; [destruct A; [right; left; auto|right; right; auto]|]. split; [exact B|].
        apply flt_ok in E; auto. intros r [<-|[<-|R]]; [specialize (C a (or_introl eq_refl)); lra|apply C; left; auto|apply C; right; auto].
      + destruct (IH q0 F0) as (q & A & B & C); [intros; apply F; right; auto|]. exists q. split; [destruct A; [left; auto|right; right; auto]|]. split; [exact B|].
        apply flt_false in E; auto. intros r [<-|[<-|R]]; [apply C; left; auto|specialize (C q0 (or_introl eq_refl)); lra|apply C; right; auto]. }
  intro F. apply G; [apply F; left; reflexivity|]. intros; apply F; right; auto.
Qed.
Lemma col_max_ok : forall (c : fpt -> f64) l p, (forall q, In q (p :: l) -> fin (c q)) ->
  exists q, In q (p :: l) /\ col_max c p l = c q /\ forall r, In r (p :: l) -> V (c r) <= V (c q).
Proof.
  intros c l p. unfold col_max.
  assert (G : forall l q0, fin (c q0) -> (forall q, In q l -> fin (c q)) ->
    exists q, In q (q0 :: l) /\ fold_left (fun m q => fmax m (c q)) l (c q0) = c q /\ forall r, In r (q0 :: l) -> V (c r) <= V (c q)).
  { clear. induction l as [|a l IH]; intros q0 F0 F.
    - exists q0. split; [left; reflexivity|]. split; [reflexivity|]. intros r [<-|[]]. lra.
    - cbn [fold_left]. assert (Fa : fin (c a)) by (apply F; left; reflexivity).
      unfold fmax at 2. destruct (flt (c q0) (c a)) eqn:E.
      + destruct (IH a Fa) as (q & A & B & C); [intros; apply F; right; auto|]. exists q. split; [destruct A; [right; left; auto|right; right; auto]|]. split; [exact B|].
        apply flt_ok in E; auto. intros r [<-|[<-|R]]; [specialize (C a (or_introl eq_refl)); lra|apply C; left; auto|apply C; right; auto].
      + destruct (IH q0 F0) as (q & A & B & C); [intros; apply F; right; auto|]. exists q. split; [destruct A; [left; auto|right; right; auto]|]. split; [exact B|].
        apply flt_false in E; auto. intros r [<-|[<-|R]]; [apply C; left; auto|specialize (C q0 (or_introl eq_refl)); lra|apply C; right; auto]. }
  intro F. apply G; [apply F; left; reflexivity|]. intros; apply F; right; auto.
Qed.
Lemma extent_unique : forall c l w w', Extent c l w -> Extent c l w' -> w = w'.
Proof.
  intros c l w w' (p & q & P & Q & -> & B) (p' & q' & P' & Q' & -> & B'). pose proof (B p' P'). pose proof (B q' Q'). pose proof (B' p P). pose proof (B' q Q). lra.
Qed.
Lemma extent_nonneg : forall c l w, Extent c l w -> 0 <= w.
Proof. intros c l w (p & q & P & Q & -> & B). specialize (B p P). lra. Qed.
Lemma extent_in : forall c l l' w, (forall p, In p l <-> In p l') -> Extent c l w -> Extent c l' w.
Proof. intros c l l' w I (p & q & P & Q & E & B). exists p, q. split; [apply I; auto|]. split; [apply I; auto|]. split; [exact E|]. intros r R. apply B, I, R. Qed.
(** The sides of the box and the area of a list that is not empty. *)
Lemma side_ok : forall (c : fpt -> f64) p l, (forall q, In q (p :: l) -> fin (c q) /\ Rabs (V (c q)) <= bpow radix2 500) ->
  exists w, Extent c (p :: l) w /\ fin (fsub (col_max c p l) (col_min c p l)) /\ V (fsub (col_max c p l) (col_min c p l)) = rnd w /\
    0 <= rnd w <= bpow radix2 501 /\ isfloat (rnd w) /\ Rabs (rnd w - w) <= u * Rabs w.
Proof.
  intros c p l H. destruct (col_max_ok c l p) as (b & Ib & -> & Mb); [intros; apply H; auto|]. destruct (col_min_ok c l p) as (a & Ia & -> & Ma); [intros; apply H; auto|].
  exists (V (c b) - V (c a)). destruct (diff_ok (c b) (c a)) as (F & E & B & _); try apply H; auto.
  split; [exists a, b; repeat split; auto|]. split; [exact F|]. split; [exact E|]. rewrite <- E.
  assert (0 <= V (fsub (c b) (c a))) by (rewrite E; apply rnd_nonneg; specialize (Mb a Ia); lra).
  rewrite (Rabs_pos_eq (V (fsub _ _))) in B by auto. split; [lra|]. split; [apply V_float|]. rewrite E. apply rnd_minus_error; apply V_float.
Qed.
Lemma fabs_ok : forall x, fin x -> fin (fabs x) /\ V (fabs x) = Rabs (V x).
Proof. intros x F. unfold fabs, fin, V in *. rewrite is_finite_Babs, B2R_Babs. auto. Qed.
Lemma area_ok : forall l, l <> [] -> Forall usable l -> exists w h, Extent fst l w /\ Extent snd l h /\
  fin (area64 l) /\ V (area64 l) = rnd (rnd w * rnd h) /\ 0 <= V (area64 l) /\ Rabs (rnd w - w) <= u * Rabs w /\ Rabs (rnd h - h) <= u * Rabs h.
Proof.
  intros [|p l] N U; [congruence|]. rewrite Forall_forall in U.
  destruct (side_ok fst p l) as (w & W1 & W2 & W3 & W4 & W5 & W6); [intros q Q; apply (U q Q)|].
  destruct (side_ok snd p l) as (h & H1 & H2 & H3 & H4 & H5 & H6); [intros q Q; apply (U q Q)|].
  exists w, h. split; [exact W1|]. split; [exact H1|]. cbn [area64].
  set (X := fsub (col_max fst p l) (col_min fst p l)) in *. set (Y := fsub (col_max snd p l) (col_min snd p l)) in *.
  assert (P : 0 <= rnd w * rnd h) by (apply Rmult_le_pos; lra).
  destruct (fmul_ok X Y W2 H2) as [A B].
  { rewrite W3, H3, Rabs_pos_eq by exact P. apply Rle_trans with (bpow radix2 501 * bpow radix2 501); [apply Rmult_le_compat; lra|]. rewrite <- bpow_plus. apply bpow_le. lia. }
  destruct (fabs_ok _ A) as [C E]. rewrite W3, H3 in B.
  assert (V (fabs (fmul X Y)) = rnd (rnd w * rnd h)) by (rewrite E, B; apply Rabs_pos_eq, rnd_nonneg; exact P).
  split; [exact C|]. split; [assumption|]. split; [rewrite H; apply rnd_nonneg; exact P|]. split; auto.
Qed.
