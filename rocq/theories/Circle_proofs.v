(** Proofs about the minimum bounding circle. *)
From Coq Require Import Reals Ratan List Bool Arith Lra Lia Psatz.
From Verif Require Import Base CenterR_model CenterR_spec Circle_geom Circle_spec Circle_model.
Import ListNotations.
Local Open Scope R_scope.

(** * Angles *)
Lemma norm_sq : forall p q : rpt, norm (fst p - fst q) (snd p - snd q) = sqrt (sq p q).
Proof. reflexivity. Qed.
Lemma rdist_sq : forall p q, rdist p q = sqrt (sq p q).
Proof. reflexivity. Qed.
Lemma acos_range : forall x, 0 <= acos x <= PI.
Proof. intro x. pose proof (acos_bound x). lra. Qed.
Lemma angle_acos : forall p q r, angle p q r = acos (dot p q r / (sqrt (sq p q) * sqrt (sq r q))).
Proof.
  intros. unfold angle. rewrite !norm_sq. rewrite Rabs_pos_eq; [reflexivity|]. apply acos_range.
Qed.
Lemma angle_range : forall p q r, 0 <= angle p q r <= PI.
Proof. intros. rewrite angle_acos. apply acos_range. Qed.

Lemma sq_zero : forall p q, sq p q = 0 -> p = q.
Proof.
  intros [a b] [c d] H. unfold sq in H. cbn in H.
  assert (Z : a - c = 0 /\ b - d = 0) by (apply Rplus_sqr_eq_0; unfold Rsqr; lra). f_equal; lra.
Qed.
Lemma sq_pos : forall p q, p <> q -> 0 < sq p q.
Proof. intros p q N. pose proof (sq_nonneg p q). destruct (Req_dec (sq p q) 0) as [E|E]; [apply sq_zero in E; contradiction|lra]. Qed.

(** The cosine is in [-1, 1] (Cauchy-Schwarz). *)
Lemma cosine_range : forall p q r, p <> q -> r <> q -> -1 <= dot p q r / (sqrt (sq p q) * sqrt (sq r q)) <= 1.
Proof.
  intros p q r P R. apply sq_pos in P. apply sq_pos in R.
  rewrite <- sqrt_mult by lra. set (s := sqrt (sq p q * sq r q)).
  assert (S0 : 0 < s) by (apply sqrt_lt_R0; apply Rmult_lt_0_compat; auto).
  assert (S2 : s * s = dot p q r ^ 2 + turn p q r ^ 2).
  { unfold s. rewrite sqrt_sqrt; [|left; apply Rmult_lt_0_compat; auto]. apply lagrange. }
  assert (T0 : 0 <= turn p q r ^ 2) by apply pow2_ge_0.
  assert (B : - s <= dot p q r <= s) by (split; nra).
  assert (E : dot p q r / s * s = dot p q r) by (field; lra).
  split; apply Rmult_le_reg_r with s; lra.
Qed.
Lemma is_angle : forall p q r, p <> q -> r <> q -> IsAngle (angle p q r) p q r.
Proof.
  intros p q r P R. split; [apply angle_range|]. rewrite angle_acos, cos_acos by (apply cosine_range; auto).
  rewrite !rdist_sq. apply sq_pos in P. apply sq_pos in R. apply sqrt_lt_R0 in P. apply sqrt_lt_R0 in R. field. lra.
Qed.
Lemma is_angle_unique : forall p q r a, p <> q -> r <> q -> IsAngle a p q r -> a = angle p q r.
Proof.
  intros p q r a P R [B E]. destruct (is_angle p q r P R) as [B2 E2].
  assert (C : cos a = cos (angle p q r)).
  { rewrite E in E2. apply Rmult_eq_reg_l in E2; auto. rewrite !rdist_sq.
    apply sq_pos in P. apply sq_pos in R. apply sqrt_lt_R0 in P. apply sqrt_lt_R0 in R. nra. }
  rewrite <- (acos_cos a) by auto. rewrite C. apply acos_cos. auto.
Qed.

(** For a clockwise triple the angle is a decreasing function of the cotangent. *)
Lemma angle_atan : forall p q r, 0 < turn p q r -> angle p q r = PI / 2 - atan (cot p q r).
Proof.
  intros p q r T. rewrite angle_acos.
  rewrite <- (acos_cos (PI / 2 - atan (cot p q r))).
  2: { pose proof (atan_bound (cot p q r)). lra. }
  f_equal. rewrite cos_shift, sin_atan. rewrite <- sqrt_mult by apply sq_nonneg.
  rewrite lagrange. replace (dot p q r ^ 2 + turn p q r ^ 2) with (turn p q r ^ 2 * (1 + (cot p q r)²)).
  2: { unfold cot, Rsqr. field. lra. }
  rewrite sqrt_mult; [|apply pow2_ge_0|]. 2: { pose proof (Rle_0_sqr (cot p q r)). lra. }
  rewrite sqrt_pow2 by lra. unfold cot at 2. unfold Rdiv.
  assert (0 < sqrt (1 + (cot p q r)²)) by (apply sqrt_lt_R0; pose proof (Rle_0_sqr (cot p q r)); lra).
  field. lra.
Qed.
Lemma angle_right : forall p q r, p <> q -> r <> q -> (angle p q r <= PI / 2 <-> 0 <= dot p q r).
Proof.
  intros p q r P R. destruct (is_angle p q r P R) as [B E].
  apply sq_pos in P. apply sq_pos in R. apply sqrt_lt_R0 in P. apply sqrt_lt_R0 in R. rewrite <- rdist_sq in P, R.
  rewrite E. pose proof PI_RGT_0. assert (W : 0 < rdist p q * rdist r q) by (apply Rmult_lt_0_compat; auto). split; intro H1.
  - apply Rmult_le_pos; [lra|]. apply cos_ge_0; lra.
  - destruct (Rle_dec (angle p q r) (PI / 2)); auto. exfalso.
    assert (cos (angle p q r) < 0) by (apply cos_lt_0; lra). nra.
Qed.
Lemma angle_order : forall p q r p' q' r', 0 < turn p q r -> 0 < turn p' q' r' ->
  angle p q r <= angle p' q' r' -> cot p' q' r' <= cot p q r.
Proof.
  intros p q r p' q' r' T T' H. rewrite !angle_atan in H by auto.
  destruct (Rle_dec (cot p' q' r') (cot p q r)) as [L|L]; auto. apply Rnot_le_lt in L. apply atan_increasing in L. lra.
Qed.
Lemma turn_distinct : forall p q r, turn p q r <> 0 -> p <> q /\ q <> r /\ p <> r.
Proof.
  intros p q r T. repeat split; intro E; subst; apply T; unfold turn; ring.
Qed.

(** * The circle of a triple *)
Lemma circle_regular : forall p q r, turn p q r <> 0 -> / 100000 <= angle p q r <= PI - / 100000 ->
  circle p q r = (sqrt (R2 p q r), fst (cc p q r), snd (cc p q r)).
Proof.
  intros [px py] [qx qy] [rx ry] T A. unfold circle.
  assert (I : 0 < / 100000) by lra.
  rewrite (Rabs_pos_eq (angle _ _ _)) by (apply angle_range).
  destruct (Rlt_dec _ tiny) as [L|_].
  { exfalso. unfold tiny in L. rewrite Rabs_left1 in L by lra. lra. }
  rewrite Rabs_pos_eq by (apply angle_range).
  destruct (Rlt_dec _ tiny) as [L|_]; [unfold tiny in L; lra|].
  rewrite <- cc_p by exact T.
  assert (D : 2 * (px * (qy - ry) + qx * (ry - py) + rx * (py - qy)) = - 2 * turn (px, py) (qx, qy) (rx, ry))
    by (unfold turn; cbn [fst snd]; ring).
  rewrite D. unfold cc, ccx, ccy, euclidean_distance, sq. cbn [fst snd]. f_equal. f_equal. f_equal. ring.
Qed.
Lemma circle_flat : forall p q r, PI - / 100000 < angle p q r ->
  circle p q r = (rdist p r / 2, (fst p + fst r) / 2, (snd p + snd r) / 2).
Proof.
  intros [px py] [qx qy] [rx ry] A. unfold circle. pose proof (angle_range (px, py) (qx, qy) (rx, ry)) as B.
  rewrite (Rabs_pos_eq (angle _ _ _)) by (apply angle_range).
  destruct (Rlt_dec _ tiny) as [_|L]; [reflexivity|].
  exfalso. apply L. unfold tiny. rewrite Rabs_left1 by lra. lra.
Qed.
Lemma circle_sharp : forall p q r, angle p q r < / 100000 ->
  circle p q r = (rdist p q / 2, (fst p + fst q) / 2, (snd p + snd q) / 2).
Proof.
  intros [px py] [qx qy] [rx ry] A. unfold circle. pose proof (angle_range (px, py) (qx, qy) (rx, ry)) as B.
  pose proof PI2_1 as P.
  rewrite (Rabs_pos_eq (angle _ _ _)) by (apply angle_range).
  destruct (Rlt_dec _ tiny) as [L|_].
  { exfalso. unfold tiny in L. rewrite Rabs_left1 in L by lra. lra. }
  rewrite Rabs_pos_eq by (apply angle_range).
  destruct (Rlt_dec _ tiny) as [_|L]; [reflexivity|]. exfalso. apply L. exact A.
Qed.

(** * The choice of the triple *)
Definition key (keys : list (R * R)) (i : nat) : R * R := nth i keys (0, 0).
Definition lexle (a b : R * R) : Prop := fst a < fst b \/ (fst a = fst b /\ snd a <= snd b).
Definition LexMax (keys : list (R * R)) (m : nat) : Prop :=
  (m < length keys)%nat /\ forall i, (i < length keys)%nat -> lexle (key keys i) (key keys m).

Lemma lex_le_iff : forall a b, lex_le a b = true <-> lexle a b.
Proof.
  intros a b. unfold lex_le, lexle. destruct (Rlt_dec (fst a) (fst b)); [tauto|].
  destruct (Req_EM_T (fst a) (fst b)); [|split; [discriminate|tauto]].
  destruct (Rle_dec (snd a) (snd b)); split; auto; [discriminate|intros [?|[? ?]]; contradiction].
Qed.
Lemma lexle_trans : forall a b c, lexle a b -> lexle b c -> lexle a c.
Proof. unfold lexle. intros a b c. lra. Qed.
Lemma lexle_total : forall a b, lexle a b \/ lexle b a.
Proof. unfold lexle. intros a b. lra. Qed.

Lemma lex_last_max : forall rest before best,
  let keys := (before ++ rest)%list in
  (best < length before)%nat -> (forall i, (i < length before)%nat -> lexle (key keys i) (key keys best)) ->
  LexMax keys (lex_last best (key keys best) (length before) rest).
Proof.
  induction rest as [|k rest IH]; intros before best keys B H.
  - cbn. unfold LexMax, keys in *. rewrite app_nil_r in *. split; auto.
  - cbn [lex_last].
    assert (K : key keys (length before) = k) by (unfold key, keys; rewrite app_nth2, Nat.sub_diag by lia; reflexivity).
    assert (E : keys = (before ++ [k]) ++ rest) by (unfold keys; rewrite <- app_assoc; reflexivity).
    assert (LB : length (before ++ [k]) = S (length before)) by (rewrite app_length; cbn; lia).
    destruct (lex_le (key keys best) k) eqn:L.
    + apply lex_le_iff in L. rewrite <- K.
      pose proof (IH (before ++ [k])%list (length before)) as I. cbn zeta in I. rewrite <- E, LB in I. apply I; [lia|].
      intros i Hi. destruct (Nat.eq_dec i (length before)) as [->|N]; [unfold lexle; lra|].
      eapply lexle_trans; [apply H; lia|]. rewrite K. exact L.
    + pose proof (IH (before ++ [k])%list best) as I. cbn zeta in I. rewrite <- E, LB in I. apply I; [lia|].
      intros i Hi. destruct (Nat.eq_dec i (length before)) as [->|N]; [|apply H; lia].
      rewrite K. destruct (lexle_total (key keys best) k) as [X|X]; auto. apply lex_le_iff in X. congruence.
Qed.
Lemma pick_lists_max : forall keys, keys <> [] -> LexMax keys (pick_lists keys).
Proof.
  intros [|k t] H; [contradiction|]. cbn [pick_lists].
  apply (lex_last_max t [k] 0); [cbn; lia|]. intros i Hi. cbn in Hi. replace i with 0%nat by lia. unfold lexle. lra.
Qed.

Lemma argmax_from_spec : forall rest before best,
  let l := (before ++ rest)%list in
  (best < length before)%nat -> (forall i, (i < length before)%nat -> nth i l 0 <= nth best l 0) ->
  let m := argmax_from best (nth best l 0) (length before) rest in
  (m < length l)%nat /\ forall i, (i < length l)%nat -> nth i l 0 <= nth m l 0.
Proof.
  induction rest as [|k rest IH]; intros before best l B H.
  - cbn. unfold l in *. rewrite app_nil_r in *. split; auto.
  - cbn [argmax_from].
    assert (K : nth (length before) l 0 = k) by (unfold l; rewrite app_nth2, Nat.sub_diag by lia; reflexivity).
    assert (E : l = (before ++ [k]) ++ rest) by (unfold l; rewrite <- app_assoc; reflexivity).
    assert (LB : length (before ++ [k]) = S (length before)) by (rewrite app_length; cbn; lia).
    destruct (Rlt_dec (nth best l 0) k) as [L|L].
    + pose proof (IH (before ++ [k])%list (length before)) as I. cbn zeta in I. rewrite <- E, LB, K in I. apply I; [lia|].
      intros i Hi. destruct (Nat.eq_dec i (length before)) as [->|N]; [lra|].
      specialize (H i ltac:(lia)). lra.
    + pose proof (IH (before ++ [k])%list best) as I. cbn zeta in I. rewrite <- E, LB in I. apply I; [lia|].
      intros i Hi. destruct (Nat.eq_dec i (length before)) as [->|N]; [lra|apply H; lia].
Qed.
Lemma argmax_spec : forall l, l <> [] ->
  (argmax l < length l)%nat /\ forall i, (i < length l)%nat -> nth i l 0 <= nth (argmax l) l 0.
Proof.
  intros [|x t] H; [contradiction|]. cbn [argmax].
  apply (argmax_from_spec t [x] 0); [cbn; lia|]. intros i Hi. cbn in Hi. replace i with 0%nat by lia. lra.
Qed.

Lemma pick_numba_lt : forall keys, keys <> [] -> (pick_numba keys < length keys)%nat.
Proof.
  intros keys H. unfold pick_numba. cbn zeta.
  match goal with |- (argmax ?x < _)%nat => destruct (argmax_spec x) as [A _] end.
  - destruct keys; [contradiction|discriminate].
  - rewrite map_length in A. exact A.
Qed.
Lemma pick_numba_max : forall keys, keys <> [] ->
  (forall k, In k keys -> 0 < snd k) \/ (exists r a, 0 <= a /\ forall k, In k keys -> k = (r, a)) ->
  LexMax keys (pick_numba keys).
Proof.
  intros keys H P. split; [apply pick_numba_lt; auto|]. unfold pick_numba. cbn zeta.
  set (radii := map fst keys). set (rmax := nth (argmax radii) radii 0).
  set (vals := map (fun k => if Req_EM_T (fst k) rmax then snd k else 0) keys).
  assert (NR : radii <> []) by (unfold radii; destruct keys; [contradiction|discriminate]).
  assert (NV : vals <> []) by (unfold vals; destruct keys; [contradiction|discriminate]).
  destruct (argmax_spec radii NR) as [A1 A2]. destruct (argmax_spec vals NV) as [B1 B2].
  assert (LR : length radii = length keys) by (unfold radii; apply map_length).
  assert (LV : length vals = length keys) by (unfold vals; apply map_length).
  assert (RI : forall i, nth i radii 0 = fst (key keys i)).
  { intro i. unfold radii, key. change 0 with (fst (0, 0)). rewrite map_nth. reflexivity. }
  assert (VI : forall i, (i < length keys)%nat -> nth i vals 0 = if Req_EM_T (fst (key keys i)) rmax then snd (key keys i) else 0).
  { intros i Hi. unfold vals. set (g := fun k : R * R => if Req_EM_T (fst k) rmax then snd k else 0).
    rewrite (nth_indep _ 0 (g (0, 0))) by (rewrite map_length; exact Hi). rewrite map_nth. reflexivity. }
  rewrite LR in A1, A2. rewrite LV in B1, B2.
  assert (RM : rmax = fst (key keys (argmax radii))) by (unfold rmax; apply RI).
  intros i Hi. set (m := argmax vals) in *. unfold lexle.
  assert (IK : forall j, (j < length keys)%nat -> In (key keys j) keys) by (intros; apply nth_In; auto).
  destruct P as [P|(r & a & A0 & P)].
  - assert (FM : fst (key keys m) = rmax).
    { specialize (B2 (argmax radii) A1). rewrite !VI in B2 by auto. rewrite <- RM in B2.
      destruct (Req_EM_T rmax rmax) as [_|N]; [|contradiction].
      destruct (Req_EM_T (fst (key keys m)) rmax) as [E|N]; auto.
      specialize (P _ (IK _ A1)). lra. }
    specialize (A2 i Hi). rewrite !RI, <- RM in A2. rewrite FM.
    destruct (Req_dec (fst (key keys i)) rmax) as [E|N]; [right|left; lra].
    split; auto. specialize (B2 i Hi). rewrite !VI in B2 by auto. rewrite E, FM in B2.
    destruct (Req_EM_T rmax rmax); [auto|contradiction].
  - rewrite (P (key keys i) (IK i Hi)), (P (key keys m) (IK m B1)). cbn. lra.
Qed.

(** * Cyclic neighbours *)
Definition cyc (l : list rpt) (i : nat) : rpt := nth (i mod length l) l o.

Lemma rpt_eqb_iff : forall p q, rpt_eqb p q = true <-> p = q.
Proof.
  intros [a b] [c d]. unfold rpt_eqb. cbn. destruct (Req_EM_T a c); [|split; [discriminate|intro E; congruence]].
  destruct (Req_EM_T b d); [subst; tauto|]. split; [discriminate|intro E; congruence].
Qed.
Lemma index_nth : forall l i, NoDup l -> (i < length l)%nat -> index (nth i l o) l = i.
Proof.
  induction l as [|q t IH]; intros i N H; [cbn in H; lia|]. inversion N; subst.
  destruct i as [|i]; cbn [nth index].
  - destruct (rpt_eqb q q) eqn:E; auto. assert (rpt_eqb q q = true) by (apply rpt_eqb_iff; auto). congruence.
  - cbn in H. destruct (rpt_eqb q (nth i t o)) eqn:E.
    + apply rpt_eqb_iff in E. exfalso. apply H2. rewrite E. apply nth_In. lia.
    + rewrite IH; auto. lia.
Qed.
Lemma last_nth : forall (l : list rpt) d, l <> [] -> last l d = nth (length l - 1) l o.
Proof.
  induction l as [|a t IH]; intros d H; [contradiction|]. destruct t as [|b t]; [reflexivity|].
  change (last (a :: b :: t) d) with (last (b :: t) d). rewrite IH by discriminate. cbn [length nth].
  replace (S (S (length t)) - 1)%nat with (S (S (length t) - 1))%nat by lia. reflexivity.
Qed.
Definition ring_triple (l : list rpt) (i : nat) : triple := (cyc l (i + length l - 1), cyc l i, cyc l (i + 1)).
Lemma triple_numba_ring : forall l i, triple_numba l i = ring_triple l i.
Proof. reflexivity. Qed.
Lemma triple_lists_ring : forall l i, NoDup l -> (i < length l)%nat -> triple_lists l i = ring_triple l i.
Proof.
  intros l i N H. unfold triple_lists, ring_triple, cyc, prec, succ. rewrite index_nth by auto.
  assert (L : l <> []) by (intro E; subst; cbn in H; lia).
  rewrite (Nat.mod_small i) by auto. f_equal; [f_equal|].
  - destruct (Nat.eqb_spec i 0) as [->|E].
    + rewrite last_nth by auto. f_equal. rewrite Nat.mod_small; lia.
    + replace (i + length l - 1)%nat with ((i - 1) + 1 * length l)%nat by lia. rewrite Nat.mod_add by lia.
      rewrite Nat.mod_small by lia. apply nth_indep. lia.
  - destruct (Nat.leb_spec (length l) (i + 1)) as [G|G].
    + replace (i + 1)%nat with (length l) by lia. rewrite Nat.mod_same by lia. destruct l; [contradiction|reflexivity].
    + rewrite Nat.mod_small by lia. apply nth_indep. lia.
Qed.

Lemma cyc_per : forall l i, l <> [] -> cyc l (i + length l) = cyc l i.
Proof.
  intros l i H. unfold cyc. replace (i + length l)%nat with (i + 1 * length l)%nat by lia.
  rewrite Nat.mod_add; auto. destruct l; [contradiction|discriminate].
Qed.
Lemma cyc_in : forall l i, l <> [] -> In (cyc l i) l.
Proof. intros l i H. apply nth_In. apply Nat.mod_upper_bound. destruct l; [contradiction|discriminate]. Qed.
Lemma in_cyc : forall l p, In p l -> exists i, (i < length l)%nat /\ cyc l i = p.
Proof.
  intros l p H. apply (In_nth l p o) in H. destruct H as (i & L & E). exists i. split; auto.
  unfold cyc. rewrite Nat.mod_small; auto.
Qed.
Lemma cyc_convex : forall l, ConvexCw l -> forall i j k, (i < j)%nat -> (j < k)%nat -> (k < i + length l)%nat ->
  0 < turn (cyc l i) (cyc l j) (cyc l k).
Proof.
  intros l C i j k IJ JK KN. set (n := length l) in *.
  assert (N0 : n <> 0%nat) by lia.
  set (a := (i mod n)%nat). assert (A : (a < n)%nat) by (apply Nat.mod_upper_bound; auto).
  set (d := (j - i)%nat). set (e := (k - i)%nat).
  assert (M : forall x, ((i + x) mod n = (a + x) mod n)%nat).
  { intro x. unfold a. rewrite Nat.add_mod_idemp_l; auto. }
  assert (EI : (i mod n = a)%nat) by reflexivity.
  assert (EJ : (j mod n = (a + d) mod n)%nat) by (rewrite <- M; f_equal; lia).
  assert (EK : (k mod n = (a + e) mod n)%nat) by (rewrite <- M; f_equal; lia).
  unfold cyc. fold n. rewrite EI, EJ, EK.
  assert (W : forall x, (n <= x < n + n)%nat -> (x mod n = x - n)%nat).
  { intros x Hx. replace x with ((x - n) + 1 * n)%nat at 1 by lia. rewrite Nat.mod_add by auto. apply Nat.mod_small. lia. }
  destruct (lt_dec (a + e) n) as [L1|L1].
  - rewrite !Nat.mod_small by lia. apply C; lia.
  - destruct (lt_dec (a + d) n) as [L2|L2].
    + rewrite (Nat.mod_small (a + d)) by lia. rewrite (W (a + e)%nat) by lia. rewrite <- turn_cycle2. apply C; lia.
    + rewrite (W (a + d)%nat), (W (a + e)%nat) by lia. rewrite <- turn_cycle. apply C; lia.
Qed.
Lemma delete_length : forall i l, (i < length l)%nat -> length (delete i l) = (length l - 1)%nat.
Proof. intros i l H. unfold delete. rewrite app_length, firstn_length, skipn_length. lia. Qed.
Lemma delete_nth : forall i l j, (i < length l)%nat -> nth j (delete i l) o = nth (if (j <? i)%nat then j else S j) l o.
Proof.
  intros i l j H. unfold delete. destruct (Nat.ltb_spec j i) as [L|L].
  - rewrite app_nth1 by (rewrite firstn_length; lia). rewrite <- (firstn_skipn i l) at 2.
    rewrite app_nth1 by (rewrite firstn_length; lia). reflexivity.
  - rewrite app_nth2 by (rewrite firstn_length; lia). rewrite firstn_length, Nat.min_l by lia.
    rewrite <- (firstn_skipn (S i) l) at 2. rewrite app_nth2 by (rewrite firstn_length; lia).
    rewrite firstn_length, Nat.min_l by lia. f_equal. 
Qed.
Lemma skipn_nth : forall (l : list rpt) i, (i < length l)%nat -> skipn i l = nth i l o :: skipn (S i) l.
Proof.
  intros l i. revert l. induction i as [|i IH]; intros [|a t] H; cbn in H; try lia; [reflexivity|]. cbn [skipn nth].
  apply IH. lia.
Qed.
Lemma delete_in : forall i l p, In p (delete i l) -> In p l.
Proof.
  intros i l p H. unfold delete in H. apply in_app_or in H. rewrite <- (firstn_skipn i l). apply in_or_app.
  destruct H as [H|H]; auto. right. destruct (lt_dec i (length l)) as [L|L].
  - rewrite skipn_nth by auto. right. exact H.
  - rewrite skipn_all2 in H by lia. destruct H.
Qed.
Lemma in_delete : forall i l p, (i < length l)%nat -> In p l -> p = nth i l o \/ In p (delete i l).
Proof.
  intros i l p H I. rewrite <- (firstn_skipn i l) in I. apply in_app_or in I.
  destruct I as [I|I]; [right; apply in_or_app; auto|].
  rewrite skipn_nth in I by auto. destruct I as [I|I]; [left; auto|right; apply in_or_app; auto].
Qed.
Lemma delete_NoDup : forall i l, NoDup l -> NoDup (delete i l).
Proof.
  intros i l H. unfold delete. destruct (lt_dec i (length l)) as [L|L].
  - rewrite <- (firstn_skipn i l) in H. rewrite skipn_nth in H by auto. apply NoDup_remove_1 in H. exact H.
  - rewrite skipn_all2 by lia. rewrite app_nil_r, firstn_all2 by lia. exact H.
Qed.
Lemma delete_convex : forall i l, (i < length l)%nat -> ConvexCw l -> ConvexCw (delete i l).
Proof.
  intros x l X C i j k IJ JK KL. rewrite delete_length in KL by auto. unfold at_. change (0, 0) with o. rewrite !delete_nth by auto.
  destruct (Nat.ltb_spec i x), (Nat.ltb_spec j x), (Nat.ltb_spec k x); try lia; apply C; lia.
Qed.
Lemma wide_sub : forall l l', (forall p, In p l' -> In p l) -> WideAngles l -> WideAngles l'.
Proof. intros l l' S W p q r a P Q R. apply W; auto. Qed.

(** * The loop *)
Definition ring_keys (l : list rpt) : list (R * R) :=
  map (fun t => (radius (circle3 t), angle3 t)) (map (ring_triple l) (seq 0 (length l))).
Lemma ring_keys_length : forall l, length (ring_keys l) = length l.
Proof. intro l. unfold ring_keys. rewrite !map_length, seq_length. reflexivity. Qed.
Lemma nth_triples : forall l i, (i < length l)%nat -> nth i (map (ring_triple l) (seq 0 (length l))) (o, o, o) = ring_triple l i.
Proof.
  intros l i H. rewrite (nth_indep _ _ (ring_triple l 0)) by (rewrite map_length, seq_length; exact H).
  rewrite map_nth, seq_nth by exact H. reflexivity.
Qed.
Lemma ring_keys_nth : forall l i, (i < length l)%nat ->
  key (ring_keys l) i = (radius (circle3 (ring_triple l i)), angle3 (ring_triple l i)).
Proof.
  intros l i H. unfold key, ring_keys. set (g := fun t => (radius (circle3 t), angle3 t)).
  rewrite (nth_indep _ _ (g (o, o, o))) by (rewrite !map_length, seq_length; exact H).
  rewrite map_nth, nth_triples by exact H. reflexivity.
Qed.

Definition GoodLoop (triple_at : list rpt -> nat -> triple) (pick : list (R * R) -> nat) : Prop :=
  (forall l i, NoDup l -> (i < length l)%nat -> triple_at l i = ring_triple l i) /\
  (forall keys, keys <> [] -> (pick keys < length keys)%nat).

Lemma skyum_step : forall em ta pick f l rem, GoodLoop ta pick -> NoDup l -> (2 <= length l)%nat ->
  let m := pick (ring_keys l) in
  (m < length l)%nat /\
  skyum em ta pick (S f) l rem =
    if Rle_dec (angle3 (ring_triple l m)) (PI / 2) then Some (Ok (circle3 (ring_triple l m), l, rem, ring_triple l m))
    else skyum em ta pick f (delete m l) (rem ++ [nth m l o]).
Proof.
  intros em ta pick f l rem [G1 G2] N L m.
  assert (NE : ring_keys l <> []) by (intro E; pose proof (ring_keys_length l) as X; rewrite E in X; cbn in X; lia).
  assert (M : (m < length l)%nat) by (rewrite <- ring_keys_length; apply G2; auto). split; auto.
  destruct l as [|a [|b t]]; [cbn in L; lia|cbn in L; lia|]. set (l := a :: b :: t) in *.
  assert (EM : map (ta l) (seq 0 (length l)) = map (ring_triple l) (seq 0 (length l))).
  { apply map_ext_in. intros i Hi. apply in_seq in Hi. apply G1; auto. lia. }
  assert (U : skyum em ta pick (S f) l rem =
     let triples := map (ta l) (seq 0 (length l)) in
     let keys := map (fun t => (radius (circle3 t), angle3 t)) triples in
     let lexmax := pick keys in
     let candidate := nth lexmax triples (o, o, o) in
     if Rle_dec (angle3 candidate) (PI / 2) then Some (Ok (circle3 candidate, l, rem, candidate))
     else skyum em ta pick f (delete lexmax l) (rem ++ [nth lexmax l o])) by reflexivity.
  rewrite U. cbn zeta. rewrite EM. fold (ring_keys l). fold m. rewrite nth_triples by exact M. reflexivity.
Qed.

Lemma good_lists : GoodLoop triple_lists pick_lists.
Proof. split; [apply triple_lists_ring|]. intros keys H. apply (pick_lists_max keys H). Qed.
Lemma good_numba : GoodLoop triple_numba pick_numba.
Proof. split; [intros; apply triple_numba_ring|]. apply pick_numba_lt. Qed.

(** Subsequence. *)
Inductive Subseq : list rpt -> list rpt -> Prop :=
| sub_nil : Subseq [] []
| sub_keep : forall p l l', Subseq l l' -> Subseq (p :: l) (p :: l')
| sub_drop : forall p l l', Subseq l l' -> Subseq l (p :: l').
Lemma Subseq_refl : forall l, Subseq l l.
Proof. induction l; constructor; auto. Qed.
Lemma Subseq_trans : forall b c, Subseq b c -> forall a, Subseq a b -> Subseq a c.
Proof.
  intros b c H. induction H as [|p b c H IH|p b c H IH]; intros a A; auto.
  - inversion A; subst; [constructor; auto|apply sub_drop; auto].
  - apply sub_drop; auto.
Qed.
Lemma Subseq_delete : forall i l, Subseq (delete i l) l.
Proof.
  unfold delete. induction i as [|i IH]; intros [|a t]; cbn [firstn skipn app].
  - constructor.
  - apply sub_drop. apply Subseq_refl.
  - constructor.
  - apply sub_keep. apply IH.
Qed.

Lemma cyc_neighbours_distinct : forall l i, NoDup l -> (2 <= length l)%nat -> (i < length l)%nat ->
  cyc l (i + length l - 1) <> cyc l i /\ cyc l (i + 1) <> cyc l i.
Proof.
  intros l i N L I. unfold cyc. set (n := length l) in *.
  assert (X : forall a b, (a < n)%nat -> (b < n)%nat -> a <> b -> nth a l o <> nth b l o).
  { intros a b A B D E. apply D. apply (NoDup_nth l o); auto. }
  rewrite (Nat.mod_small i) by auto. split.
  - destruct (Nat.eq_dec i 0) as [->|E].
    + rewrite Nat.mod_small by lia. apply X; lia.
    + replace (i + n - 1)%nat with ((i - 1) + 1 * n)%nat by lia. rewrite Nat.mod_add by lia.
      rewrite Nat.mod_small by lia. apply X; lia.
  - destruct (Nat.eq_dec (i + 1) n) as [E|E].
    + rewrite E, Nat.mod_same by lia. apply X; lia.
    + rewrite Nat.mod_small by lia. apply X; lia.
Qed.
Lemma ring_triple_two : forall l i, length l = 2%nat -> (i < 2)%nat ->
  ring_triple l i = (cyc l (i + 1), cyc l i, cyc l (i + 1)).
Proof.
  intros l i L I. unfold ring_triple. replace (i + length l - 1)%nat with (i + 1)%nat by lia. reflexivity.
Qed.
Lemma dot_same : forall p q, dot p q p = sq p q.
Proof. intros. unfold dot, sq. ring. Qed.

Lemma skyum_terminates : forall em ta pick, GoodLoop ta pick -> forall f l rem, NoDup l -> (2 <= length l)%nat -> (length l <= S f)%nat ->
  exists l' rem' i, skyum em ta pick f l rem = Some (Ok (circle3 (ring_triple l' i), l', rem ++ rem', ring_triple l' i)) /\
    Subseq l' l /\ NoDup l' /\ (2 <= length l')%nat /\ (length rem' + length l' = length l)%nat /\
    (forall p, In p l <-> In p rem' \/ In p l') /\
    (i < length l')%nat /\ angle3 (ring_triple l' i) <= PI / 2.
Proof.
  intros em ta pick G. induction f as [|f IH]; intros l rem N L F; [lia|].
  destruct (skyum_step em ta pick f l rem G N L) as [M E]. set (m := pick (ring_keys l)) in *. rewrite E. clear E.
  destruct (Rle_dec (angle3 (ring_triple l m)) (PI / 2)) as [A|A].
  - exists l, [], m. rewrite app_nil_r. repeat split; auto using Subseq_refl.
    intros [[]|H]; auto.
  - assert (L3 : (3 <= length l)%nat).
    { destruct (Nat.eq_dec (length l) 2) as [E2|]; [|lia]. exfalso. apply A.
      destruct (cyc_neighbours_distinct l m N L M) as [_ D].
      rewrite ring_triple_two by lia. unfold angle3. cbn [fst snd]. apply angle_right; auto.
      rewrite dot_same. apply sq_nonneg. }
    destruct (IH (delete m l) (rem ++ [nth m l o])) as (l' & rem' & i & E & S & N' & L' & C & P & I & A').
    + apply delete_NoDup; auto.
    + rewrite delete_length; lia.
    + rewrite delete_length; lia.
    + exists l', (nth m l o :: rem'), i. rewrite <- app_assoc in E. split; [exact E|].
      split; [eapply Subseq_trans; [apply Subseq_delete|exact S]|].
      split; [exact N'|]. split; [exact L'|]. split; [rewrite delete_length in C by auto; cbn [length]; lia|].
      split; [|split; [exact I|exact A']].
      intro p. split; intro H.
      * destruct (in_delete m l p M H) as [->|H']; [left; left; reflexivity|].
        apply P in H'. destruct H' as [H'|H']; [left; right; exact H'|right; exact H'].
      * destruct H as [[<-|H]|H].
        -- apply nth_In; auto.
        -- apply (delete_in m). apply P. auto.
        -- apply (delete_in m). apply P. auto.
Qed.

Definition GoodPick (pick : list (R * R) -> nat) : Prop :=
  forall keys, keys <> [] ->
    (forall k, In k keys -> 0 < snd k) \/ (exists r a, 0 <= a /\ forall k, In k keys -> k = (r, a)) ->
    LexMax keys (pick keys).

(** Two points: the circle over the segment. *)
Lemma angle_two : forall p q, p <> q -> angle p q p = 0.
Proof.
  intros p q N. rewrite angle_acos, dot_same. rewrite sqrt_sqrt by apply sq_nonneg.
  replace (sq p q / sq p q) with 1 by (field; apply sq_pos in N; lra). apply acos_1.
Qed.
Lemma circle_two : forall p q, p <> q ->
  circle p q p = (rdist p q / 2, (fst p + fst q) / 2, (snd p + snd q) / 2).
Proof. intros p q N. apply circle_sharp. rewrite angle_two by auto. lra. Qed.

(** Exact description of the result, in squared distances. *)
Definition SqMinimum (r cx cy : R) (l : list rpt) : Prop :=
  0 <= r /\ (forall p, In p l -> sq p (cx, cy) <= r ^ 2) /\
  (forall c rho, (forall p, In p l -> sq p c <= rho) -> r ^ 2 + sq (cx, cy) c <= rho).

Lemma ring_two : forall l, length l = 2%nat -> forall p, In p l <-> p = cyc l 0 \/ p = cyc l 1.
Proof.
  intros [|a [|b [|c t]]] L p; try (cbn in L; lia). unfold cyc. cbn. intuition.
Qed.
Lemma cyc_two : forall l i, length l = 2%nat -> (i < 2)%nat ->
  (cyc l i = cyc l 0 /\ cyc l (i + 1) = cyc l 1) \/ (cyc l i = cyc l 1 /\ cyc l (i + 1) = cyc l 0).
Proof.
  intros l i L I. destruct i as [|[|i]]; [left|right|lia].
  - split; reflexivity.
  - split; [reflexivity|]. unfold cyc. rewrite L. reflexivity.
Qed.
Lemma two_minimum : forall l i, length l = 2%nat -> NoDup l -> (i < 2)%nat ->
  angle3 (ring_triple l i) = 0 /\
  exists r cx cy, circle3 (ring_triple l i) = (r, cx, cy) /\ SqMinimum r cx cy l.
Proof.
  intros l i L N I. rewrite ring_triple_two by auto. unfold angle3, circle3. cbn [fst snd].
  destruct (cyc_neighbours_distinct l i N) as [_ D]; try lia.
  set (p := cyc l (i + 1)) in *. set (q := cyc l i) in *.
  assert (IN : forall x, In x l <-> x = p \/ x = q).
  { intro x. rewrite (ring_two l L). destruct (cyc_two l i L I) as [[E1 E2]|[E1 E2]]; unfold p, q; rewrite E1, E2; tauto. }
  split; [apply angle_two; auto|].
  exists (rdist p q / 2), ((fst p + fst q) / 2), ((snd p + snd q) / 2). split; [apply circle_two; auto|].
  assert (R2 : (rdist p q / 2) ^ 2 = sq p q / 4).
  { replace ((rdist p q / 2) ^ 2) with (rdist p q * rdist p q / 4) by field. rewrite rdist_sq, sqrt_sqrt by apply sq_nonneg. reflexivity. }
  split; [|split].
  - assert (0 <= rdist p q) by apply sqrt_pos. lra.
  - intros x X. rewrite R2. apply IN in X. destruct X as [-> | ->]; right; unfold sq; cbn [fst snd]; field.
  - intros c rho H. rewrite R2. apply two_points_minimal; apply H; apply IN; auto.
Qed.

(** Three or more points. *)
Section Ring.
Variable l : list rpt.
Hypothesis L3 : (3 <= length l)%nat.
Hypothesis CV : ConvexCw l.
Hypothesis WA : WideAngles l.
Let n := length l.
Let ne : l <> [].
Proof. intro E. rewrite E in L3. cbn in L3. lia. Qed.

(** Position [i] of the list is the middle of the triple starting at i - 1. *)
Definition start (i : nat) : nat := (i + n - 1)%nat.
Lemma start1 : forall i, cyc l (start i + 1) = cyc l i.
Proof. intro i. unfold start. replace (i + n - 1 + 1)%nat with (i + n)%nat by (unfold n; lia). apply cyc_per. exact ne. Qed.
Lemma start2 : forall i, cyc l (start i + 2) = cyc l (i + 1).
Proof. intro i. unfold start. replace (i + n - 1 + 2)%nat with (i + 1 + n)%nat by (unfold n; lia). apply cyc_per. exact ne. Qed.
Lemma start_all : forall l0, exists i, (i < n)%nat /\
  R2c (cyc l) l0 = R2c (cyc l) (start i) /\ cotc (cyc l) l0 = cotc (cyc l) (start i).
Proof.
  intro k. assert (N0 : n <> 0%nat) by (unfold n; lia).
  exists ((k + 1) mod n)%nat. split; [apply Nat.mod_upper_bound; auto|].
  assert (E : forall x, cyc l (start ((k + 1) mod n) + x) = cyc l (k + x)).
  { intro x. unfold cyc, start. fold n. f_equal.
    replace ((k + 1) mod n + n - 1 + x)%nat with ((k + 1) mod n + (n - 1 + x))%nat by lia.
    rewrite Nat.add_mod_idemp_l by auto. replace (k + 1 + (n - 1 + x))%nat with ((k + x) + 1 * n)%nat by lia.
    apply Nat.mod_add. auto. }
  unfold R2c, cotc. rewrite !E. replace (cyc l (start ((k + 1) mod n))) with (cyc l (start ((k + 1) mod n) + 0)) by (f_equal; lia).
  rewrite E. replace (k + 0)%nat with k by lia. auto.
Qed.
Lemma start_turn : forall i, 0 < turn (cyc l (start i)) (cyc l i) (cyc l (i + 1)).
Proof.
  intro i. rewrite <- (start1 i), <- (start2 i). apply cyc_convex; auto; lia.
Qed.
Lemma start_wide : forall i, / 100000 <= angle (cyc l (start i)) (cyc l i) (cyc l (i + 1)) <= PI - / 100000.
Proof.
  intro i. pose proof (start_turn i) as T. destruct (turn_distinct (cyc l (start i)) (cyc l i) (cyc l (i + 1))) as (D1 & D2 & D3); [lra|].
  apply (WA (cyc l (start i)) (cyc l i) (cyc l (i + 1))); auto using cyc_in. apply is_angle; auto.
Qed.
Lemma start_circle : forall i, circle3 (ring_triple l i) =
  (sqrt (R2c (cyc l) (start i)), fst (cc (cyc l (start i)) (cyc l i) (cyc l (i + 1))), snd (cc (cyc l (start i)) (cyc l i) (cyc l (i + 1)))).
Proof.
  intro i. unfold circle3, ring_triple. cbn [fst snd]. fold n. fold (start i). unfold R2c. rewrite start1, start2.
  apply circle_regular; [pose proof (start_turn i); lra|apply start_wide].
Qed.
Lemma ring_key : forall i, (i < n)%nat ->
  key (ring_keys l) i = (sqrt (R2c (cyc l) (start i)), angle (cyc l (start i)) (cyc l i) (cyc l (i + 1))).
Proof. intros i H. rewrite ring_keys_nth by exact H. rewrite start_circle. reflexivity. Qed.
Lemma R2c_pos : forall i, 0 < R2c (cyc l) (start i).
Proof. intro i. unfold R2c. rewrite start1, start2. apply R2_pos. pose proof (start_turn i). lra. Qed.

Lemma lexmax_geometry : forall m, LexMax (ring_keys l) m ->
  (forall k, R2c (cyc l) k <= R2c (cyc l) (start m)) /\
  (forall k, R2c (cyc l) k = R2c (cyc l) (start m) -> cotc (cyc l) (start m) <= cotc (cyc l) k).
Proof.
  intros m [M H]. rewrite ring_keys_length in M, H.
  assert (X : forall k, exists i, (i < n)%nat /\ R2c (cyc l) k = R2c (cyc l) (start i) /\ cotc (cyc l) k = cotc (cyc l) (start i)
                       /\ lexle (key (ring_keys l) i) (key (ring_keys l) m)).
  { intro k. destruct (start_all k) as (i & I & E1 & E2). exists i. auto. }
  split; intro k; destruct (X k) as (i & I & E1 & E2 & LE); rewrite !ring_key in LE by auto; rewrite ?E1, ?E2; unfold lexle in LE; cbn [fst snd] in LE.
  - pose proof (R2c_pos i). pose proof (R2c_pos m). destruct LE as [LE|[LE _]].
    + left. apply sqrt_lt_0_alt. exact LE.
    + right. apply sqrt_inj; lra.
  - intro E. assert (A : angle (cyc l (start i)) (cyc l i) (cyc l (i + 1)) <= angle (cyc l (start m)) (cyc l m) (cyc l (m + 1))).
    { rewrite E in LE. lra. }
    apply angle_order in A; [|apply start_turn|apply start_turn]. unfold cotc. rewrite !start1, !start2. exact A.
Qed.

Lemma pw_sq : forall i p, pw (cyc l (start i)) (cyc l (start i + 1)) (cyc l (start i + 2)) p <= 0 ->
  sq p (cc (cyc l (start i)) (cyc l i) (cyc l (i + 1))) <= R2c (cyc l) (start i).
Proof.
  intros i p H. unfold R2c. rewrite start1, start2 in *. rewrite pw_value in H by (pose proof (start_turn i); lra). lra.
Qed.
Lemma per_l : forall i, cyc l (i + n) = cyc l i.
Proof. intro i. apply cyc_per. exact ne. Qed.

Lemma lexmax_encloses : forall m, LexMax (ring_keys l) m -> forall p, In p l ->
  sq p (cc (cyc l (start m)) (cyc l m) (cyc l (m + 1))) <= R2c (cyc l) (start m).
Proof.
  intros m M p P. destruct (lexmax_geometry m M) as [G _]. destruct (in_cyc l p P) as (k & _ & <-).
  apply pw_sq. apply (largest_encloses n (cyc l)); auto.
  - apply per_l.
  - apply cyc_convex. exact CV.
Qed.

Lemma lexmax_stop : forall m, LexMax (ring_keys l) m -> angle3 (ring_triple l m) <= PI / 2 ->
  exists r cx cy, circle3 (ring_triple l m) = (r, cx, cy) /\ SqMinimum r cx cy l.
Proof.
  intros m M A. destruct (lexmax_geometry m M) as [G1 G2].
  set (p := cyc l (start m)). set (q := cyc l m). set (r := cyc l (m + 1)).
  assert (T : 0 < turn p q r) by apply start_turn.
  destruct (turn_distinct p q r) as (D1 & D2 & D3); [lra|].
  assert (Q : 0 <= dot p q r).
  { unfold angle3, ring_triple in A. cbn [fst snd] in A. fold n in A. fold (start m) in A. fold p q r in A.
    apply angle_right in A; auto. }
  destruct (largest_not_obtuse n (cyc l) per_l (cyc_convex l CV) L3 (start m) G1 G2) as [P1 P2].
  { unfold cotc. rewrite start1, start2. fold p q r. unfold cot. apply Rmult_le_pos; auto. left. apply Rinv_0_lt_compat. auto. }
  rewrite start1, start2 in P1, P2. fold p q r in P1, P2.
  rewrite start_circle. fold p q r. do 3 eexists. split; [reflexivity|].
  assert (E2 : sqrt (R2c (cyc l) (start m)) ^ 2 = R2c (cyc l) (start m)) by (apply pow2_sqrt; left; apply R2c_pos).
  assert (EC : (fst (cc p q r), snd (cc p q r)) = cc p q r) by reflexivity.
  split; [apply sqrt_pos|]. rewrite EC, E2. split.
  - intros x X. apply lexmax_encloses; auto.
  - intros c rho H. unfold R2c. rewrite start1, start2. fold p q r.
    apply circumscribed_minimal; auto; try (apply H; apply cyc_in; exact ne). lra.
Qed.

Lemma lexmax_remove : forall m c rho, LexMax (ring_keys l) m -> ~ angle3 (ring_triple l m) <= PI / 2 ->
  (forall p, In p (delete m l) -> sq p c <= rho) -> rho <= R2c (cyc l) (start m) ->
  forall p, In p l -> sq p c <= rho.
Proof.
  intros m c rho M A H R x X. pose proof M as [M1 _]. rewrite ring_keys_length in M1.
  set (p := cyc l (start m)). set (q := cyc l m). set (r := cyc l (m + 1)).
  assert (T : 0 < turn p q r) by apply start_turn.
  destruct (turn_distinct p q r) as (D1 & D2 & D3); [lra|].
  assert (Q : dot p q r <= 0).
  { unfold angle3, ring_triple in A. cbn [fst snd] in A. fold n in A. fold (start m) in A. fold p q r in A.
    destruct (Rle_dec 0 (dot p q r)) as [Y|Y]; [|lra]. exfalso. apply A. apply angle_right; auto. }
  assert (NQ : nth m l o = q) by (unfold q, cyc; rewrite Nat.mod_small; auto).
  destruct (in_delete m l x M1 X) as [->|D]; [|auto]. rewrite NQ.
  assert (OTHER : forall y, In y l -> y <> q -> sq y c <= rho).
  { intros y Y N. destruct (in_delete m l y M1 Y) as [E|E]; [congruence|auto]. }
  apply (obtuse_inside p q r); auto.
  - apply OTHER; auto. apply cyc_in. exact ne.
  - apply OTHER; auto. apply cyc_in. exact ne.
  - unfold R2c in R. rewrite start1, start2 in R. exact R.
Qed.
Lemma ring_keys_positive : forall k, In k (ring_keys l) -> 0 < snd k.
Proof.
  intros k K. apply (In_nth _ _ (0, 0)) in K. destruct K as (i & I & <-). rewrite ring_keys_length in I.
  change (nth i (ring_keys l) (0, 0)) with (key (ring_keys l) i). rewrite ring_key by exact I. cbn [snd].
  pose proof (start_wide i). lra.
Qed.
End Ring.

Lemma two_keys : forall l, length l = 2%nat -> NoDup l -> exists r a, 0 <= a /\ forall k, In k (ring_keys l) -> k = (r, a).
Proof.
  intros l L N. exists (rdist (cyc l 0) (cyc l 1) / 2), 0. split; [lra|].
  intros k K. apply (In_nth _ _ (0, 0)) in K. destruct K as (i & I & <-). rewrite ring_keys_length in I.
  change (nth i (ring_keys l) (0, 0)) with (key (ring_keys l) i). rewrite ring_keys_nth by exact I.
  destruct (two_minimum l i L N ltac:(lia)) as [A _]. rewrite A.
  destruct (cyc_neighbours_distinct l i N) as [_ D]; try lia.
  rewrite ring_triple_two by lia. unfold circle3. cbn [fst snd]. rewrite circle_two by exact D. unfold radius. cbn [fst].
  f_equal. f_equal. destruct (cyc_two l i L ltac:(lia)) as [[-> ->]|[-> ->]]; [|reflexivity].
  rewrite !rdist_sq, sq_sym. reflexivity.
Qed.

Lemma skyum_minimum : forall em ta pick, GoodLoop ta pick -> GoodPick pick ->
  forall f l rem, NoDup l -> (2 <= length l)%nat -> (length l <= S f)%nat -> ConvexCw l -> WideAngles l ->
  exists r cx cy l' rem' t, skyum em ta pick f l rem = Some (Ok (r, cx, cy, l', rem', t)) /\ SqMinimum r cx cy l.
Proof.
  intros em ta pick G GP. induction f as [|f IH]; intros l rem N L F CV WA; [lia|].
  destruct (skyum_step em ta pick f l rem G N L) as [M E]. set (m := pick (ring_keys l)) in *. rewrite E. clear E.
  assert (NE : ring_keys l <> []) by (intro E; pose proof (ring_keys_length l) as X; rewrite E in X; cbn in X; lia).
  destruct (Nat.eq_dec (length l) 2) as [L2|L2].
  - destruct (two_minimum l m L2 N ltac:(lia)) as (A & r & cx & cy & EC & S). rewrite A.
    destruct (Rle_dec 0 (PI / 2)) as [_|X]; [|exfalso; pose proof PI_RGT_0; lra].
    rewrite EC. do 6 eexists. split; [reflexivity|exact S].
  - assert (L3 : (3 <= length l)%nat) by lia.
    assert (LM : LexMax (ring_keys l) m).
    { apply GP; auto. left. apply ring_keys_positive; auto. }
    destruct (Rle_dec (angle3 (ring_triple l m)) (PI / 2)) as [A|A].
    + destruct (lexmax_stop l L3 CV WA m LM A) as (r & cx & cy & EC & S). rewrite EC.
      do 6 eexists. split; [reflexivity|exact S].
    + destruct (IH (delete m l) (rem ++ [nth m l o])) as (r & cx & cy & l' & rem' & t & E & S0 & S1 & S2).
      * apply delete_NoDup; auto.
      * rewrite delete_length; lia.
      * rewrite delete_length; lia.
      * apply delete_convex; auto.
      * apply (wide_sub l); auto. apply delete_in.
      * rewrite E. do 6 eexists. split; [reflexivity|].
        assert (B : r ^ 2 <= R2c (cyc l) (start l m)).
        { assert (B2 : r ^ 2 + sq (cx, cy) (cc (cyc l (start l m)) (cyc l m) (cyc l (m + 1))) <= R2c (cyc l) (start l m)).
          { apply S2. intros p P. apply lexmax_encloses; auto. apply delete_in in P. exact P. }
          pose proof (sq_nonneg (cx, cy) (cc (cyc l (start l m)) (cyc l m) (cyc l (m + 1)))). lra. }
        split; [exact S0|]. split.
        -- apply (lexmax_remove l L3 CV m (cx, cy) (r ^ 2)); auto.
        -- intros c rho H. apply S2. intros p P. apply H. apply delete_in in P. exact P.
Qed.

(** * From the ring to the public function *)
Lemma good_pick_lists : GoodPick pick_lists.
Proof. intros keys H _. apply pick_lists_max. exact H. Qed.
Lemma good_pick_numba : GoodPick pick_numba.
Proof. intros keys H P. apply pick_numba_max; auto. Qed.

Lemma enclosed_hull : forall c rho l p, (forall q, In q l -> sq q c <= rho) -> InHull l p -> sq p c <= rho.
Proof.
  intros c rho l p H I. induction I as [p P|p q t P IP Q IQ [T0 T1]]; [auto|].
  assert (E : sq ((1 - t) * fst p + t * fst q, (1 - t) * snd p + t * snd q) c =
              (1 - t) * sq p c + t * sq q c - t * (1 - t) * sq p q) by (unfold sq; cbn [fst snd]; ring).
  rewrite E. pose proof (sq_nonneg p q). assert (0 <= t * (1 - t)) by (apply Rmult_le_pos; lra).
  assert (0 <= t * (1 - t) * sq p q) by (apply Rmult_le_pos; auto).
  assert ((1 - t) * sq p c <= (1 - t) * rho) by (apply Rmult_le_compat_l; lra).
  assert (t * sq q c <= t * rho) by (apply Rmult_le_compat_l; lra). lra.
Qed.
Lemma rdist_le : forall p q r, 0 <= r -> (rdist p q <= r <-> sq p q <= r ^ 2).
Proof.
  intros p q r H. rewrite rdist_sq. pose proof (sq_nonneg p q) as S. split; intro X.
  - rewrite <- (pow2_sqrt (sq p q)) by auto. apply pow_incr. split; [apply sqrt_pos|auto].
  - rewrite <- (sqrt_pow2 r) by auto. apply sqrt_le_1_alt. exact X.
Qed.
Lemma sq_minimum_circle : forall r cx cy l pts, l <> [] -> SqMinimum r cx cy l ->
  (forall p, In p pts -> InHull l p) -> (forall p, In p l -> In p pts) -> MinimumCircle (cx, cy) r pts.
Proof.
  intros r cx cy l pts NE (S0 & S1 & S2) H1 H2. split.
  - intros p P. apply rdist_le; auto. apply (enclosed_hull (cx, cy) (r ^ 2) l); auto.
  - intros c rho E. assert (R0 : 0 <= rho).
    { destruct l as [|a t]; [contradiction|]. specialize (E a (H2 a (or_introl eq_refl))).
      assert (0 <= rdist a c) by apply sqrt_pos. lra. }
    assert (X : r ^ 2 + sq (cx, cy) c <= rho ^ 2).
    { apply S2. intros p P. apply rdist_le; auto. }
    pose proof (sq_nonneg (cx, cy) c) as Q. split.
    + apply Rsqr_incr_0_var; auto. unfold Rsqr. lra.
    + intro EQ. subst rho. assert (Z : sq (cx, cy) c = 0) by lra. symmetry. apply sq_zero. exact Z.
Qed.

(** The shoelace sum of a clockwise convex ring is negative. *)
Fixpoint fan (p : rpt) (t : list rpt) : R :=
  match t with
  | a :: (b :: _) as t' => turn p a b + fan p t'
  | _ => 0
  end.
Lemma shoelace_fan : forall t p a, cross p a + path_area (a :: t) + cross (last (a :: t) a) p = - fan p (a :: t).
Proof.
  induction t as [|b t IH]; intros p a.
  - cbn. unfold cross. ring.
  - specialize (IH p b).
    change (path_area (a :: b :: t)) with (cross a b + path_area (b :: t)).
    change (fan p (a :: b :: t)) with (turn p a b + fan p (b :: t)).
    replace (last (a :: b :: t) a) with (last (b :: t) b).
    2: { rewrite !last_nth by discriminate. cbn [length]. replace (S (S (length t)) - 1)%nat with (S (S (length t) - 1))%nat by lia. reflexivity. }
    assert (cross p a + cross a b = cross p b - turn p a b) by (unfold cross, turn; ring). lra.
Qed.
Lemma fan_pos : forall t p, (forall i j, (i < j)%nat -> (j < length t)%nat -> 0 < turn p (nth i t o) (nth j t o)) ->
  (2 <= length t)%nat -> 0 < fan p t.
Proof.
  induction t as [|a t IH]; intros p H L; [cbn in L; lia|]. destruct t as [|b t]; [cbn in L; lia|].
  change (fan p (a :: b :: t)) with (turn p a b + fan p (b :: t)).
  assert (T : 0 < turn p a b) by (apply (H 0%nat 1%nat); cbn; lia).
  destruct t as [|c t]; [cbn [fan]; lra|].
  assert (0 < fan p (b :: c :: t)).
  { apply IH; [|cbn; lia]. intros i j I J. apply (H (S i) (S j)); cbn in *; lia. }
  lra.
Qed.
Lemma shoelace_convex : forall p a b t, ConvexCw (p :: a :: b :: t) ->
  path_area (p :: a :: b :: t) + cross (last (p :: a :: b :: t) p) p < 0.
Proof.
  intros p a b t C. pose proof (shoelace_fan (b :: t) p a) as SF.
  change (path_area (p :: a :: b :: t)) with (cross p a + path_area (a :: b :: t)).
  replace (last (p :: a :: b :: t) p) with (last (a :: b :: t) a).
  2: { rewrite !last_nth by discriminate. cbn [length]. replace (S (S (S (length t))) - 1)%nat with (S (S (S (length t)) - 1))%nat by lia. reflexivity. }
  rewrite SF. assert (0 < fan p (a :: b :: t)); [|lra]. apply fan_pos; [|cbn; lia].
  intros i j I J. apply (C 0%nat (S i) (S j)); cbn in *; lia.
Qed.
Lemma is_clockwise_convex : forall l, ConvexCw l -> is_clockwise l = true.
Proof.
  intros [|p [|a [|b t]]] C; try reflexivity. unfold is_clockwise.
  destruct (Rlt_dec _ 0) as [_|N]; auto. exfalso. apply N. apply shoelace_convex. exact C.
Qed.

(** Reversal changes the sign. *)
Lemma path_area_app : forall l p q, path_area (l ++ [p; q]) = path_area (l ++ [p]) + cross p q.
Proof.
  induction l as [|a l IH]; intros p q; [cbn; ring|]. destruct l as [|b l].
  - cbn. ring.
  - change ((a :: b :: l) ++ [p; q]) with (a :: b :: (l ++ [p; q])). change ((a :: b :: l) ++ [p]) with (a :: b :: (l ++ [p])).
    change (path_area (a :: b :: l ++ [p; q])) with (cross a b + path_area ((b :: l) ++ [p; q])).
    change (path_area (a :: b :: l ++ [p])) with (cross a b + path_area ((b :: l) ++ [p])).
    rewrite IH. ring.
Qed.
Lemma path_area_rev : forall l, path_area (rev l) = - path_area l.
Proof.
  induction l as [|a l IH]; [cbn; ring|]. destruct l as [|b l]; [cbn; ring|].
  cbn [rev] in *. rewrite <- app_assoc. cbn [app]. rewrite path_area_app, IH.
  change (path_area (a :: b :: l)) with (cross a b + path_area (b :: l)). unfold cross. ring.
Qed.
Lemma last_rev : forall (l : list rpt) p d, last (rev (p :: l)) d = p.
Proof. intros l p d. cbn [rev]. apply last_last. Qed.
Lemma is_clockwise_rev : forall l, (3 <= length l)%nat -> ConvexCw (rev l) -> is_clockwise l = false.
Proof.
  intros l L C. pose proof (is_clockwise_convex _ C) as K.
  destruct l as [|p [|a [|b t]]]; try (cbn in L; lia). set (l := p :: a :: b :: t) in *.
  assert (LR : length (rev l) = length l) by apply rev_length.
  destruct (rev l) as [|x [|y [|z s]]] eqn:E; try (unfold l in LR; cbn in LR; lia).
  pose proof (shoelace_convex x y z s C) as S. rewrite <- E in S.
  assert (LX : last (rev l) x = p) by (unfold l; apply last_rev).
  assert (PX : last l p = x).
  { rewrite <- (rev_involutive l), E. apply last_rev. }
  rewrite LX, path_area_rev in S.
  unfold is_clockwise. unfold l at 1. destruct (Rlt_dec _ 0) as [H|H]; auto. exfalso. fold l in H. rewrite PX in H. unfold cross in *. lra.
Qed.

Lemma hull_mono : forall l l', (forall q, In q l -> In q l') -> forall p, InHull l p -> InHull l' p.
Proof. intros l l' H p I. induction I as [p P|p q t P IP Q IQ T]; [constructor 1; auto|constructor 2; auto]. Qed.
Lemma NoDup_rev_rpt : forall l : list rpt, NoDup l -> NoDup (rev l).
Proof. intros. apply NoDup_rev. auto. Qed.

Lemma loop_minimum : forall (numba : bool) l, NoDup l -> (2 <= length l)%nat -> ConvexCw l -> WideAngles l ->
  exists r cx cy l' rem' t,
    (if numba then skyum_numba else skyum_lists) (length l) l [] = Some (Ok (r, cx, cy, l', rem', t)) /\ SqMinimum r cx cy l.
Proof.
  intros numba l N L C W. destruct numba.
  - apply skyum_minimum; auto using good_numba, good_pick_numba.
  - apply skyum_minimum; auto using good_lists, good_pick_lists.
Qed.

Lemma mbc_minimum : forall (numba : bool) hull pts,
  let h := hull pts in
  NoDup h -> (2 <= length h)%nat -> ConvexCw h \/ ConvexCw (rev h) -> WideAngles h ->
  (forall p, In p pts -> InHull h p) -> (forall p, In p h -> In p pts) ->
  exists c r, minimum_bounding_circle numba hull pts = Some (Ok (c, r)) /\ MinimumCircle c r pts.
Proof.
  intros numba hull pts h N L C W H1 H2.
  assert (NE : h <> []) by (intro E; rewrite E in L; cbn in L; lia).
  unfold minimum_bounding_circle. fold h.
  assert (GO : ConvexCw h -> is_clockwise h = true -> exists c r,
    (if is_clockwise h then match (if numba then skyum_numba else skyum_lists) (length h) h [] with
                            | None => None | Some (Raise e) => Some (Raise e)
                            | Some (Ok (r, cx, cy, _, _, _)) => Some (Ok ((cx, cy), r)) end
     else if is_clockwise (rev h) then match (if numba then skyum_numba else skyum_lists) (length (rev h)) (rev h) [] with
                            | None => None | Some (Raise e) => Some (Raise e)
                            | Some (Ok (r, cx, cy, _, _, _)) => Some (Ok ((cx, cy), r)) end
     else Some (Raise PlainException)) = Some (Ok (c, r)) /\ MinimumCircle c r pts).
  { intros CV K. rewrite K. destruct (loop_minimum numba h N L CV W) as (r & cx & cy & l' & rem' & t & E & S).
    rewrite E. exists (cx, cy), r. split; auto. apply (sq_minimum_circle r cx cy h); auto. }
  destruct C as [C|C].
  - apply GO; auto. apply is_clockwise_convex. exact C.
  - destruct (Nat.eq_dec (length h) 2) as [L2|L2].
    + apply GO.
      * intros i j k I J K. lia.
      * destruct h as [|a [|b [|c t]]]; try reflexivity. cbn in L2. lia.
    + rewrite is_clockwise_rev by (auto; lia). rewrite (is_clockwise_convex _ C).
      destruct (loop_minimum numba (rev h)) as (r & cx & cy & l' & rem' & t & E & S).
      * apply NoDup_rev_rpt; auto.
      * rewrite rev_length; auto.
      * exact C.
      * apply (wide_sub h); auto. intros p P. apply in_rev. exact P.
      * rewrite E. exists (cx, cy), r. split; auto. apply (sq_minimum_circle r cx cy (rev h)); auto.
        -- intro X. apply (f_equal (@length rpt)) in X. rewrite rev_length in X. cbn in X. lia.
        -- intros p P. apply (hull_mono h); auto. intros q Q. apply in_rev in Q. exact Q.
        -- intros p P. apply H2. apply in_rev. exact P.
Qed.

(** * Bounds for angles near 0 and pi *)
Lemma tan_tiny : 9 / 1000000 < tan (/ 100000) < 11 / 1000000.
Proof.
  pose proof (pre_sin_bound (/ 100000) 0 ltac:(lra) ltac:(lra)) as S.
  pose proof (pre_cos_bound (/ 100000) 0 ltac:(lra) ltac:(lra)) as C.
  unfold sin_approx, cos_approx, sin_term, cos_term in S, C. cbn in S, C.
  unfold tan. set (s := sin (/ 100000)) in *. set (c := cos (/ 100000)) in *.
  assert (S1 : 99 / 10000000 < s < 101 / 10000000) by lra.
  assert (C1 : 99 / 100 < c <= 1) by (pose proof (COS_bound (/ 100000)); split; [lra|unfold c; lra]).
  assert (E : s / c * c = s) by (field; lra).
  split; apply Rmult_lt_reg_r with c; lra.
Qed.
Lemma atan_tiny_lt : forall y, y < 9 / 1000000 -> atan y < / 100000.
Proof.
  intros y Y. pose proof tan_tiny as T. pose proof PI2_1.
  rewrite <- (atan_tan (/ 100000)) by lra. apply atan_increasing. lra.
Qed.
Lemma atan_tiny_gt : forall y, 11 / 1000000 < y -> / 100000 < atan y.
Proof.
  intros y Y. pose proof tan_tiny as T. pose proof PI2_1.
  rewrite <- (atan_tan (/ 100000)) by lra. apply atan_increasing. lra.
Qed.
Lemma inv_bounds : forall a b, 0 < a -> 0 < b -> / b < a -> / a < b.
Proof.
  intros a b A B H. apply Rmult_lt_reg_l with a; auto. rewrite Rinv_r by lra.
  apply Rmult_lt_compat_r with (r := b) in H; auto. rewrite Rinv_l in H by lra. lra.
Qed.
Lemma flat_angle : forall p q r, 0 < turn p q r -> cot p q r < - 120000 -> PI - / 100000 < angle p q r.
Proof.
  intros p q r T C. rewrite angle_atan by auto. replace (cot p q r) with (- - cot p q r) by ring. rewrite atan_opp.
  set (c := - cot p q r) in *. assert (Cp : 120000 < c) by (unfold c; lra).
  pose proof (atan_inv c ltac:(lra)) as I.
  assert (atan (/ c) < / 100000); [|lra]. apply atan_tiny_lt. apply inv_bounds; lra.
Qed.
Lemma wide_angle : forall p q r, 0 < turn p q r -> -90000 < cot p q r < 90000 ->
  / 100000 <= angle p q r <= PI - / 100000.
Proof.
  intros p q r T C. rewrite angle_atan by auto.
  assert (K : forall c, c < 90000 -> atan c <= PI / 2 - / 100000).
  { intros c Hc. destruct (Rle_dec c 0) as [L|L].
    - assert (atan c <= 0). { destruct (Req_dec c 0) as [->|N]; [rewrite atan_0; lra|]. pose proof (atan_increasing c 0 ltac:(lra)). rewrite atan_0 in *. lra. }
      pose proof PI2_1. lra.
    - pose proof (atan_inv c ltac:(lra)) as I.
      assert (/ 100000 < atan (/ c)); [|lra]. apply atan_tiny_gt.
      apply Rlt_trans with (/ 90000); [lra|]. apply Rinv_lt_contravar; [apply Rmult_lt_0_compat; lra|lra]. }
  pose proof (K (cot p q r) ltac:(lra)) as K1. pose proof (K (- cot p q r) ltac:(lra)) as K2. rewrite atan_opp in K2. lra.
Qed.
Lemma angle_sym : forall p q r, angle r q p = angle p q r.
Proof. intros. rewrite !angle_acos, dot_sym, (Rmult_comm (sqrt (sq r q))). reflexivity. Qed.
Lemma wide_any : forall p q r, turn p q r <> 0 ->
  -90000 * Rabs (turn p q r) < dot p q r < 90000 * Rabs (turn p q r) -> / 100000 <= angle p q r <= PI - / 100000.
Proof.
  assert (K : forall p q r, 0 < turn p q r -> -90000 * Rabs (turn p q r) < dot p q r < 90000 * Rabs (turn p q r) ->
     / 100000 <= angle p q r <= PI - / 100000).
  { intros p q r T H. rewrite Rabs_pos_eq in H by lra. apply wide_angle; auto. unfold cot.
    assert (E : dot p q r / turn p q r * turn p q r = dot p q r) by (field; lra).
    split; apply Rmult_lt_reg_r with (turn p q r); auto; lra. }
  intros p q r T H. destruct (Rlt_dec 0 (turn p q r)) as [L|L]; [auto|].
  rewrite <- angle_sym. apply K; rewrite turn_rev; [lra|]. rewrite Rabs_Ropp, dot_sym. exact H.
Qed.
Lemma wide_check : forall l,
  (forall p q r, In p l -> In q l -> In r l -> p <> q -> q <> r -> p <> r ->
     turn p q r <> 0 /\ -90000 * Rabs (turn p q r) < dot p q r < 90000 * Rabs (turn p q r)) -> WideAngles l.
Proof.
  intros l H p q r a P Q R PQ QR PR A. rewrite (is_angle_unique p q r a) by auto.
  destruct (H p q r) as [T B]; auto. apply wide_any; auto.
Qed.
(** An angle away from 0 and pi means that the points are not on a line. *)
Lemma angle_turn : forall p q r, p <> q -> r <> q -> 0 < angle p q r < PI -> turn p q r <> 0.
Proof.
  intros p q r P R A T. destruct (is_angle p q r P R) as [_ E]. pose proof (lagrange p q r) as L. rewrite T, E in L.
  assert (PD : 0 < rdist p q) by (rewrite rdist_sq; apply sqrt_lt_R0; apply sq_pos; auto).
  assert (RD : 0 < rdist r q) by (rewrite rdist_sq; apply sqrt_lt_R0; apply sq_pos; auto).
  assert (E1 : sq p q = rdist p q * rdist p q) by (rewrite rdist_sq, sqrt_sqrt; auto using sq_nonneg).
  assert (E2 : sq r q = rdist r q * rdist r q) by (rewrite rdist_sq, sqrt_sqrt; auto using sq_nonneg).
  rewrite E1, E2 in L. set (w := rdist p q * rdist r q) in *.
  assert (W : 0 < w) by (apply Rmult_lt_0_compat; auto).
  assert (X : w * w * (1 - cos (angle p q r) * cos (angle p q r)) = 0) by (unfold w in *; lra).
  assert (Y : 1 - cos (angle p q r) * cos (angle p q r) = 0).
  { apply Rmult_integral in X. destruct X as [X|X]; auto. exfalso. nra. }
  assert (S : 0 < sin (angle p q r)) by (apply sin_gt_0; lra).
  pose proof (sin2_cos2 (angle p q r)) as SC. unfold Rsqr in SC. nra.
Qed.
Lemma rdist_R2 : forall p c x, 0 <= x -> sq p c = x -> rdist p c = sqrt x.
Proof. intros p c x _ E. rewrite rdist_sq, E. reflexivity. Qed.

(** * A nearly flat hull vertex *)
Definition nfA : rpt := (0, 0).
Definition nfP : rpt := (1, - / 1000000).
Definition nfB : rpt := (10, 0).
Definition nfC : rpt := (8, 20).
Definition nf : list rpt := [nfC; nfB; nfP; nfA].
Ltac nfc := unfold turn, dot, sq, nfA, nfP, nfB, nfC; cbn [fst snd]; lra.
Lemma nf_convex : ConvexCw nf.
Proof.
  intros i j k I J K. cbn [nf length] in K.
  destruct i as [|[|i]]; destruct j as [|[|[|j]]]; destruct k as [|[|[|[|k]]]]; try lia; unfold at_, nf; cbn [nth]; nfc.
Qed.
Lemma nf_nodup : NoDup nf.
Proof.
  unfold nf, nfA, nfP, nfB, nfC. repeat constructor; cbn; intro H;
    repeat (destruct H as [H|H]; [inversion H; lra|]); auto.
Qed.
Lemma nf_R2 : R2 nfA nfC nfB < 118 /\ R2 nfC nfB nfP < 114 /\ 130 < R2 nfP nfA nfC < 131.
Proof.
  assert (D : forall a b x y, 0 < b -> x * (4 * b ^ 2) < a -> a < y * (4 * b ^ 2) -> x < a / (4 * b ^ 2) < y).
  { intros a b x y B X Y. assert (P : 0 < 4 * b ^ 2) by (assert (0 < b * b) by (apply Rmult_lt_0_compat; auto); lra).
    assert (E : a / (4 * b ^ 2) * (4 * b ^ 2) = a) by (field; lra). split; apply Rmult_lt_reg_r with (4 * b ^ 2); lra. }
  split; [|split]; unfold R2; [apply (D _ _ 0)|apply (D _ _ 0)|apply D]; nfc.
Qed.
Lemma nf_triples : ring_triple nf 0 = (nfA, nfC, nfB) /\ ring_triple nf 1 = (nfC, nfB, nfP) /\
  ring_triple nf 2 = (nfB, nfP, nfA) /\ ring_triple nf 3 = (nfP, nfA, nfC).
Proof. repeat split; reflexivity. Qed.
Lemma nf_regular : forall p q r, 0 < turn p q r -> -90000 * turn p q r < dot p q r < 90000 * turn p q r ->
  circle p q r = (sqrt (R2 p q r), fst (cc p q r), snd (cc p q r)) /\ 0 < angle p q r.
Proof.
  intros p q r T D. assert (W : / 100000 <= angle p q r <= PI - / 100000).
  { apply wide_any; [lra|]. rewrite Rabs_pos_eq; lra. }
  split; [|lra]. apply circle_regular; auto. lra.
Qed.
Lemma nf_c0 : circle nfA nfC nfB = (sqrt (R2 nfA nfC nfB), fst (cc nfA nfC nfB), snd (cc nfA nfC nfB)) /\ 0 < angle nfA nfC nfB.
Proof. apply nf_regular; [nfc|split; nfc]. Qed.
Lemma nf_c1 : circle nfC nfB nfP = (sqrt (R2 nfC nfB nfP), fst (cc nfC nfB nfP), snd (cc nfC nfB nfP)) /\ 0 < angle nfC nfB nfP.
Proof. apply nf_regular; [nfc|split; nfc]. Qed.
Lemma nf_c3 : circle nfP nfA nfC = (sqrt (R2 nfP nfA nfC), fst (cc nfP nfA nfC), snd (cc nfP nfA nfC)) /\ 0 < angle nfP nfA nfC.
Proof. apply nf_regular; [nfc|split; nfc]. Qed.
Lemma nf_c2 : radius (circle nfB nfP nfA) = 5 /\ 0 < angle nfB nfP nfA.
Proof.
  assert (F : PI - / 100000 < angle nfB nfP nfA).
  { assert (T : 0 < turn nfB nfP nfA) by nfc. apply flat_angle; [exact T|]. unfold cot.
    assert (E : dot nfB nfP nfA / turn nfB nfP nfA * turn nfB nfP nfA = dot nfB nfP nfA) by (field; lra).
    apply Rmult_lt_reg_r with (turn nfB nfP nfA); auto. rewrite E. nfc. }
  split; [|pose proof PI2_1; lra]. rewrite circle_flat by exact F. unfold radius. cbn [fst].
  assert (E : rdist nfB nfA = 10); [|lra]. unfold rdist, nfA, nfB. cbn [fst snd].
  replace ((10 - 0) ^ 2 + (0 - 0) ^ 2) with (10 ^ 2) by ring. apply sqrt_pow2. lra.
Qed.
Lemma nf_positive : forall k, In k (ring_keys nf) -> 0 < snd k.
Proof.
  intros k K. apply (In_nth _ _ (0, 0)) in K. destruct K as (i & I & <-). rewrite ring_keys_length in I.
  change (nth i (ring_keys nf) (0, 0)) with (key (ring_keys nf) i). rewrite ring_keys_nth by exact I. cbn [snd].
  destruct nf_triples as (T0 & T1 & T2 & T3). cbn [nf length] in I.
  destruct i as [|[|[|[|i]]]]; [rewrite T0|rewrite T1|rewrite T2|rewrite T3|lia]; unfold angle3; cbn [fst snd].
  - apply nf_c0.
  - apply nf_c1.
  - apply nf_c2.
  - apply nf_c3.
Qed.
Lemma nf_pick : forall m, LexMax (ring_keys nf) m -> m = 3%nat.
Proof.
  intros m [M H]. rewrite ring_keys_length in M, H. specialize (H 3%nat ltac:(cbn; lia)).
  rewrite !ring_keys_nth in H by (auto; cbn; lia). unfold lexle in H. cbn [fst snd] in H.
  destruct nf_triples as (T0 & T1 & T2 & T3). rewrite T3 in H. destruct nf_R2 as (R0 & R1 & R3 & R3').
  assert (K : forall x, fst (fst x) < sqrt (R2 nfP nfA nfC) -> forall a b,
             ~ (radius (circle3 (nfP, nfA, nfC)) < radius x \/ radius (circle3 (nfP, nfA, nfC)) = radius x /\ a <= b)).
  { intros x X a b. unfold circle3. cbn [fst snd]. destruct nf_c3 as [-> _]. unfold radius. cbn [fst]. lra. }
  assert (S3 : 11 < sqrt (R2 nfP nfA nfC)).
  { rewrite <- (sqrt_pow2 11) by lra. apply sqrt_lt_1_alt. lra. }
  cbn [nf length] in M. destruct m as [|[|[|[|m]]]]; [exfalso|exfalso|exfalso|reflexivity|lia].
  - rewrite T0 in H. apply K in H; auto. unfold circle3. cbn [fst snd]. destruct nf_c0 as [-> _]. cbn [fst].
    apply Rlt_le_trans with 11; [|lra]. rewrite <- (sqrt_pow2 11) by lra. apply sqrt_lt_1_alt.
    assert (0 < R2 nfA nfC nfB) by (apply R2_pos; assert (0 < turn nfA nfC nfB) by nfc; lra). lra.
  - rewrite T1 in H. apply K in H; auto. unfold circle3. cbn [fst snd]. destruct nf_c1 as [-> _]. cbn [fst].
    apply Rlt_le_trans with 11; [|lra]. rewrite <- (sqrt_pow2 11) by lra. apply sqrt_lt_1_alt.
    assert (0 < R2 nfC nfB nfP) by (apply R2_pos; assert (0 < turn nfC nfB nfP) by nfc; lra). lra.
  - rewrite T2 in H. apply K in H; auto. unfold circle3. cbn [fst snd]. pose proof (proj1 nf_c2) as E. unfold radius in E. rewrite E. lra.
Qed.
Lemma nf_right : angle nfP nfA nfC <= PI / 2.
Proof.
  assert (T : turn nfP nfA nfC <> 0) by (assert (0 < turn nfP nfA nfC) by nfc; lra).
  destruct (turn_distinct _ _ _ T) as (D1 & D2 & D3). apply angle_right; auto. nfc.
Qed.
Lemma nf_loop : forall em ta pick, GoodLoop ta pick -> GoodPick pick ->
  skyum em ta pick 4 nf [] = Some (Ok (sqrt (R2 nfP nfA nfC), fst (cc nfP nfA nfC), snd (cc nfP nfA nfC), nf, [], (nfP, nfA, nfC))).
Proof.
  intros em ta pick G GP. destruct (skyum_step em ta pick 3 nf [] G nf_nodup ltac:(cbn; lia)) as [M E]. rewrite E. clear E.
  assert (P : pick (ring_keys nf) = 3%nat).
  { apply nf_pick. apply GP; [|left; apply nf_positive]. intro X. pose proof (ring_keys_length nf) as Y. rewrite X in Y. discriminate. }
  rewrite P. destruct nf_triples as (_ & _ & _ & T3). rewrite T3. unfold angle3, circle3. cbn [fst snd].
  destruct (Rle_dec (angle nfP nfA nfC) (PI / 2)) as [_|N]; [|exfalso; apply N; apply nf_right].
  destruct nf_c3 as [-> _]. reflexivity.
Qed.
Lemma nf_result : forall numba : bool, exists c r, minimum_bounding_circle numba (fun l => l) nf = Some (Ok (c, r)) /\
  In nfB nf /\ r + 3 < rdist nfB c.
Proof.
  intro numba. unfold minimum_bounding_circle. rewrite (is_clockwise_convex nf nf_convex).
  assert (E : (if numba then skyum_numba else skyum_lists) (length nf) nf [] =
     Some (Ok (sqrt (R2 nfP nfA nfC), fst (cc nfP nfA nfC), snd (cc nfP nfA nfC), nf, [], (nfP, nfA, nfC)))).
  { destruct numba; apply nf_loop; auto using good_numba, good_lists, good_pick_numba, good_pick_lists. }
  rewrite E. do 2 eexists. split; [reflexivity|]. split; [right; left; reflexivity|].
  destruct nf_R2 as (_ & _ & R3 & R3'). rewrite rdist_sq.
  assert (S : sqrt (R2 nfP nfA nfC) < 11.5).
  { rewrite <- (sqrt_pow2 11.5) by lra. apply sqrt_lt_1_alt. lra. }
  assert (D : 14.5 < sqrt (sq nfB (fst (cc nfP nfA nfC), snd (cc nfP nfA nfC)))); [|lra].
  rewrite <- (sqrt_pow2 14.5) by lra. apply sqrt_lt_1_alt. split; [lra|].
  assert (T : turn nfP nfA nfC = 20.000008) by nfc.
  change (fst (cc nfP nfA nfC), snd (cc nfP nfA nfC)) with (cc nfP nfA nfC).
  assert (PW : pw nfP nfA nfC nfB = sq nfB (cc nfP nfA nfC) - R2 nfP nfA nfC) by (apply pw_value; lra).
  assert (V : 80.5 < pw nfP nfA nfC nfB); [|lra].
  assert (T2 : turn nfP nfC nfA = - 20.000008) by (rewrite turn_swap; lra).
  assert (C : cot nfP nfC nfA * turn nfP nfC nfA = dot nfP nfC nfA) by (unfold cot; field; lra).
  unfold pw. rewrite T2 in C. set (c := cot nfP nfC nfA) in *.
  unfold dot, turn, nfA, nfB, nfC, nfP in *. cbn [fst snd] in *. lra.
Qed.
