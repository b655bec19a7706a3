(** Proofs about rings, membership and nearest neighbours of point patterns. *)
From Coq Require Import ZArith QArith Qabs List Bool String Sorted Permutation Lia Lqa Setoid.
From Verif Require Import Base BaseLemmas Quadrat_model Pattern_model Pattern_spec Pattern_proofs PatternRows_proofs.
Import ListNotations.
Local Open Scope Q_scope.

(** ** Shoelace sums *)
Definition edge (a b : pt) : Q := fst a * snd b - fst b * snd a.

Lemma shoelace_cons : forall a b l, shoelace (a :: b :: l) == edge a b + shoelace (b :: l).
Proof. intros. reflexivity. Qed.

Lemma shoelace_app : forall l1 a l2, shoelace (l1 ++ a :: l2) == shoelace (l1 ++ [a]) + shoelace (a :: l2).
Proof.
  induction l1 as [|x l1 IH]; intros a l2.
  - change ([] ++ a :: l2) with (a :: l2). change (shoelace ([] ++ [a])) with 0. ring.
  - destruct l1 as [|y l1].
    + change ((x :: []) ++ a :: l2) with (x :: a :: l2). change ((x :: []) ++ [a]) with (x :: a :: []).
      rewrite !shoelace_cons. change (shoelace [a]) with 0. ring.
    + change ((x :: y :: l1) ++ a :: l2) with (x :: y :: (l1 ++ a :: l2)).
      change ((x :: y :: l1) ++ [a]) with (x :: y :: (l1 ++ [a])).
      rewrite !shoelace_cons.
      change (y :: l1 ++ a :: l2) with ((y :: l1) ++ a :: l2).
      change (y :: l1 ++ [a]) with ((y :: l1) ++ [a]).
      rewrite (IH a l2). ring.
Qed.

Lemma shoelace_rev : forall l, shoelace (rev l) == - shoelace l.
Proof.
  induction l as [|a l IH]; [reflexivity|].
  destruct l as [|b l]; [reflexivity|].
  rewrite shoelace_cons. simpl rev. rewrite <- app_assoc.
  change ([b] ++ [a]) with (b :: [a]). rewrite shoelace_app.
  change (shoelace [b; a]) with (edge b a + 0). simpl rev in IH. rewrite IH. unfold edge. ring.
Qed.

Lemma last_cons_default : forall (l : list pt) a d, last (a :: l) d = last l a.
Proof.
  induction l as [|b l IH]; intros a d; [reflexivity|].
  change (last (a :: b :: l) d) with (last (b :: l) d). rewrite !IH. reflexivity.
Qed.

Definition shift (t : pt) (p : pt) : pt := (fst p + fst t, snd p + snd t).
Lemma shoelace_shift : forall t l a, let z := last l a in
  shoelace (map (shift t) (a :: l)) ==
  shoelace (a :: l) + fst t * (snd z - snd a) - snd t * (fst z - fst a).
Proof.
  intros t. induction l as [|b l IH]; intros a; cbv zeta.
  - simpl. ring.
  - change (map (shift t) (a :: b :: l)) with (shift t a :: shift t b :: map (shift t) l).
    rewrite !shoelace_cons.
    change (shift t b :: map (shift t) l) with (map (shift t) (b :: l)).
    rewrite (IH b). 
    rewrite last_cons_default. unfold edge, shift. simpl. ring.
Qed.

(** Sum over the closed ring. *)
Definition ring_sum (h : list pt) : Q :=
  match h with [] => 0 | p0 :: _ => shoelace (h ++ [p0]) end.

Lemma pt_eqb_spec : forall a b, pt_eqb a b = true <-> coincide a b.
Proof.
  intros. unfold pt_eqb, coincide. rewrite andb_true_iff, !Qeq_bool_iff. tauto.
Qed.

Lemma split_last : forall (l : list pt) a, exists l1, a :: l = l1 ++ [last l a].
Proof.
  induction l as [|b l IH]; intros a; [exists []; reflexivity|].
  destruct (IH b) as [l1 E]. exists (a :: l1). rewrite last_cons_default.
  change ((a :: l1) ++ [last l b]) with (a :: (l1 ++ [last l b])). rewrite <- E. reflexivity.
Qed.

Lemma hull_area_ring_sum : forall h, hull_area_of h == ring_sum h / 2.
Proof.
  intros h. unfold hull_area_of, close_ring, ring_sum. destruct h as [|p t]; [reflexivity|].
  destruct (pt_eqb p (last (p :: t) p)) eqn:E; [|reflexivity].
  apply pt_eqb_spec in E. rewrite last_cons_default in E.
  destruct (split_last t p) as [l1 Hl].
  change (shoelace (p :: t) / 2 == shoelace ((p :: t) ++ [p]) / 2). rewrite Hl. rewrite <- app_assoc.
  change ([last t p] ++ [p]) with (last t p :: [p]). rewrite (shoelace_app l1 (last t p) [p]).
  change (shoelace [last t p; p]) with (edge (last t p) p + 0).
  assert (Z : edge (last t p) p == 0).
  { unfold edge. destruct E as [E1 E2]. rewrite <- E1, <- E2. ring. }
  rewrite Z, Qplus_0_r, Qplus_0_r. reflexivity.
Qed.

Lemma ring_sum_rotate : forall p t, ring_sum (t ++ [p]) == ring_sum (p :: t).
Proof.
  intros p t. destruct t as [|q t]; [reflexivity|].
  change (shoelace (((q :: t) ++ [p]) ++ [q]) == shoelace (p :: q :: (t ++ [p]))).
  rewrite <- app_assoc. change ([p] ++ [q]) with (p :: [q]).
  rewrite (shoelace_app (q :: t) p [q]). rewrite (shoelace_cons p q (t ++ [p])).
  change (q :: t ++ [p]) with ((q :: t) ++ [p]).
  change (shoelace [p; q]) with (edge p q + 0). ring.
Qed.

Lemma ring_sum_rev : forall h, ring_sum (rev h) == - ring_sum h.
Proof.
  intros h. destruct h as [|p t]; [reflexivity|].
  simpl rev. rewrite ring_sum_rotate.
  change (shoelace (p :: rev t ++ [p]) == - shoelace ((p :: t) ++ [p])).
  assert (E : p :: rev t ++ [p] = rev ((p :: t) ++ [p])).
  { rewrite rev_app_distr. simpl. reflexivity. }
  rewrite E. apply shoelace_rev.
Qed.

Lemma ring_sum_shift : forall t h, ring_sum (map (shift t) h) == ring_sum h.
Proof.
  intros t h. destruct h as [|p l]; [reflexivity|].
  assert (E : (shift t p :: map (shift t) l) ++ [shift t p] = map (shift t) (p :: (l ++ [p]))).
  { simpl. rewrite map_app. reflexivity. }
  change (shoelace ((shift t p :: map (shift t) l) ++ [shift t p]) == shoelace (p :: (l ++ [p]))).
  rewrite E. rewrite shoelace_shift. rewrite last_last. ring.
Qed.

(** Closing the ring explicitly changes nothing. *)
Lemma ring_sum_closed : forall p t, ring_sum (p :: t ++ [p]) == ring_sum (p :: t).
Proof.
  intros p t.
  change (shoelace (((p :: t) ++ [p]) ++ [p]) == shoelace ((p :: t) ++ [p])).
  rewrite <- app_assoc. change ([p] ++ [p]) with (p :: [p]). rewrite (shoelace_app (p :: t) p [p]).
  change (shoelace [p; p]) with (edge p p + 0). unfold edge. ring.
Qed.

(** Area as sum of triangles at any vertex. *)
Fixpoint fan (v : pt) (l : list pt) : Q :=
  match l with a :: ((b :: _) as t) => orient a b v + fan v t | _ => 0 end.
Lemma fan_shoelace : forall v l a,
  fan v (a :: l) == shoelace (a :: l) + fst v * (snd a - snd (last l a)) - snd v * (fst a - fst (last l a)).
Proof.
  intros v. induction l as [|b l IH]; intros a; [simpl; ring|].
  change (fan v (a :: b :: l)) with (orient a b v + fan v (b :: l)).
  rewrite IH, shoelace_cons, last_cons_default. unfold orient, edge. ring.
Qed.
Lemma fan_ring : forall v p t, fan v ((p :: t) ++ [p]) == ring_sum (p :: t).
Proof.
  intros. change (fan v (p :: t ++ [p]) == shoelace (p :: t ++ [p])).
  rewrite fan_shoelace, last_last. ring.
Qed.
Lemma fan_nonneg : forall v l, (forall a b, consecutive l a b -> 0 <= orient a b v) -> 0 <= fan v l.
Proof.
  induction l as [|a l IH]; intros H; [simpl; lra|].
  destruct l as [|b l]; [simpl; lra|].
  change (fan v (a :: b :: l)) with (orient a b v + fan v (b :: l)).
  assert (0 <= orient a b v) by (apply H; exists [], l; reflexivity).
  assert (0 <= fan v (b :: l)).
  { apply IH. intros x y [l1 [l2 E]]. apply H. exists (a :: l1), l2. rewrite E. reflexivity. }
  lra.
Qed.
Lemma fan_pos : forall v l x y, (forall a b, consecutive l a b -> 0 <= orient a b v) ->
  consecutive l x y -> 0 < orient x y v -> 0 < fan v l.
Proof.
  induction l as [|a l IH]; intros x y H [l1 [l2 E]] P.
  - destruct l1; discriminate.
  - destruct l as [|b l]; [destruct l1 as [|? [|]]; discriminate|].
    change (fan v (a :: b :: l)) with (orient a b v + fan v (b :: l)).
    assert (A : 0 <= orient a b v) by (apply H; exists [], l; reflexivity).
    assert (H' : forall x y, consecutive (b :: l) x y -> 0 <= orient x y v).
    { intros x' y' [l1' [l2' E']]. apply H. exists (a :: l1'), l2'. rewrite E'. reflexivity. }
    destruct l1 as [|c l1].
    + simpl in E. inversion E; subst. pose proof (fan_nonneg v (y :: l2) H'). lra.
    + simpl in E. inversion E; subst.
      assert (0 < fan v (b :: l)).
      { apply (IH x y); auto. exists l1, l2. auto. }
      lra.
Qed.

(** ** to_ccf *)
Lemma to_ccf_closed : forall poly r, to_ccf poly = Ok r ->
  exists p0, hd p0 r = p0 /\ In p0 poly /\ coincide (last r p0) p0 /\ (r = poly \/ r = poly ++ [p0]).
Proof.
  intros poly r H. destruct poly as [|p t]; [discriminate|]. unfold to_ccf in H.
  destruct (pt_eqb (last (p :: t) p) p) eqn:E; inversion H; subst; clear H.
  - exists p. repeat split; try (apply pt_eqb_spec in E; apply E); simpl; auto.
  - exists p. split; [reflexivity|]. split; [simpl; auto|]. split; [|auto].
    rewrite app_comm_cons, last_last. split; reflexivity.
Qed.

(** ** Membership *)
Lemma points_rows : forall s i j, frame_points (p_df s) (p_x s) (p_y s) = Ok (p_pts s) ->
  col_index (p_x s) (f_cols (p_df s)) = Some i -> col_index (p_y s) (f_cols (p_df s)) = Some j ->
  Forall2 (fun r p => get_cell i r = CNum (fst p) /\ get_cell j r = CNum (snd p))
    (f_rows (p_df s)) (p_pts s).
Proof.
  intros s i j H Hi Hj. unfold frame_points in H. rewrite Hi, Hj in H.
  apply mapM_forall2 in H. eapply Forall2_weaken; [|exact H]. cbn beta.
  intros r p E. apply bind_ok in E. destruct E as [a [E1 E2]]. apply bind_ok in E2. destruct E2 as [b [E2 E3]].
  inversion E3; subst. simpl. unfold cell_num in *.
  destruct (get_cell i r); try discriminate. destruct (get_cell j r); try discriminate.
  inversion E1; inversion E2; auto.
Qed.

(** ** Nearest neighbours *)
Lemma Qsq_nonneg : forall a : Q, 0 <= a * a.
Proof.
  intros a. destruct (Qlt_le_dec a 0).
  - assert (0 <= (- a) * (- a)) by (apply Qmult_le_0_compat; lra). lra.
  - apply Qmult_le_0_compat; auto.
Qed.
Lemma sqd_nonneg : forall pts i j, 0 <= sqd pts i j.
Proof.
  intros. unfold sqd. cbv zeta.
  match goal with |- 0 <= ?a * ?a + ?b * ?b => pose proof (Qsq_nonneg a); pose proof (Qsq_nonneg b) end. lra.
Qed.
Lemma sqd_self : forall pts i, sqd pts i i == 0.
Proof. intros. unfold sqd. cbv zeta. ring. Qed.
Lemma sq_zero : forall a : Q, a * a == 0 -> a == 0.
Proof. intros a H. destruct (Qmult_integral _ _ H); auto. Qed.
Lemma sqd_zero : forall pts i j, sqd pts i j <= 0 -> coincide (nth i pts (0,0)) (nth j pts (0,0)).
Proof.
  intros pts i j H. unfold sqd in H. cbv zeta in H. unfold coincide.
  match type of H with ?a * ?a + ?b * ?b <= 0 =>
    pose proof (Qsq_nonneg a); pose proof (Qsq_nonneg b);
    assert (A : a * a == 0) by lra; assert (B : b * b == 0) by lra end.
  apply sq_zero in A. apply sq_zero in B. split; lra.
Qed.
Lemma no_coincident_eq : forall pts i j, no_coincident pts -> (i < List.length pts)%nat ->
  (j < List.length pts)%nat -> sqd pts i j <= 0 -> i = j.
Proof.
  intros pts i j N Hi Hj H. apply sqd_zero in H.
  destruct (Nat.lt_trichotomy i j) as [L|[L|L]]; auto; exfalso.
  - apply (N i j); auto.
  - apply (N j i); [lia|]. destruct H; split; symmetry; auto.
Qed.

Lemma nearest_first_self : forall pts m i ids, no_coincident pts -> (i < List.length pts)%nat ->
  (1 <= m)%nat -> nearest (List.length pts) m (sqd pts i) ids -> exists rest, ids = i :: rest.
Proof.
  intros pts m i ids N Hi Hm [L [ND [R [S F]]]].
  destruct ids as [|j0 rest]; [simpl in L; lia|].
  assert (J0 : sqd pts i j0 <= 0).
  { destruct (in_dec Nat.eq_dec i (j0 :: rest)) as [I|I].
    - destruct I as [->|I]; [rewrite sqd_self; lra|].
      apply (In_nth _ _ 0%nat) in I. destruct I as [q [Q1 Q2]].
      specialize (S 0%nat (Datatypes.S q)). simpl in S. rewrite Q2 in S. rewrite sqd_self in S. apply S. lia.
    - rewrite <- (sqd_self pts i). apply (F j0 i); simpl; auto. }
  apply no_coincident_eq in J0; auto; [|apply R; simpl; auto]. subst. eauto.
Qed.

Lemma nearest_tail : forall n k i dist rest, nearest n (k + 1) dist (i :: rest) ->
  nearest_others n k i dist rest.
Proof.
  intros n k i dist rest [L [ND [R [S F]]]]. simpl in L. inversion ND; subst.
  split; [lia|]. split; [auto|]. split; [auto|]. split; [intros; apply R; simpl; auto|]. split.
  - intros a b H. apply (S (Datatypes.S a) (Datatypes.S b)). simpl. lia.
  - intros j l Hj Hl Hn Hr. apply F; simpl; auto. intros [X|X]; auto.
Qed.

(** Order by positions and as a sorted list. *)
Lemma order_sorted : forall (dist : nat -> Q) ids,
  (forall a b, (a < b < List.length ids)%nat -> dist (nth a ids 0%nat) <= dist (nth b ids 0%nat)) <->
  StronglySorted (fun a b => dist a <= dist b) ids.
Proof.
  intros dist ids. split.
  - induction ids as [|x ids IH]; intros H; constructor.
    + apply IH. intros a b L. apply (H (S a) (S b)). simpl. lia.
    + apply Forall_forall. intros y Y. apply (In_nth _ _ 0%nat) in Y. destruct Y as [q [Q1 Q2]].
      specialize (H 0%nat (S q)). simpl in H. rewrite Q2 in H. apply H. lia.
  - induction 1 as [|x ids S IH F]; intros a b L; [simpl in L; lia|].
    destruct b as [|b]; [lia|]. destruct a as [|a]; simpl.
    + rewrite Forall_forall in F. apply F. apply nth_In. simpl in L. lia.
    + apply IH. simpl in L. lia.
Qed.

Lemma sorted_filter : forall A (R : A -> A -> Prop) f l, StronglySorted R l -> StronglySorted R (filter f l).
Proof.
  induction 1 as [|x l S IH F]; simpl; [constructor|].
  destruct (f x); auto. constructor; auto. apply Forall_forall. intros y Y. apply filter_In in Y.
  rewrite Forall_forall in F. apply F. tauto.
Qed.

Lemma NoDup_filter' : forall A (f : A -> bool) l, NoDup l -> NoDup (filter f l).
Proof.
  induction 1; simpl; [constructor|]. destruct (f x); auto. constructor; auto.
  intros X. apply filter_In in X. tauto.
Qed.

Lemma filter_neq_length : forall (i : nat) l, NoDup l ->
  List.length (filter (fun j => negb (Nat.eqb j i)) l) =
  (List.length l - if in_dec Nat.eq_dec i l then 1 else 0)%nat.
Proof.
  induction l as [|x l IH]; intros N; [reflexivity|]. inversion N as [|? ? N1 N2]; subst.
  specialize (IH N2). simpl filter.
  destruct (Nat.eqb_spec x i) as [E|E]; simpl negb; cbv iota.
  - subst. destruct (in_dec Nat.eq_dec i (i :: l)) as [I|I]; [|simpl in I; tauto].
    rewrite IH. destruct (in_dec Nat.eq_dec i l); [tauto|]. simpl. lia.
  - simpl List.length. rewrite IH.
    destruct (in_dec Nat.eq_dec i (x :: l)) as [I|I]; destruct (in_dec Nat.eq_dec i l) as [J|J]; try lia.
    + assert (List.length l <> 0%nat) by (destruct l; simpl; [tauto|lia]). lia.
    + simpl in I. tauto.
    + simpl in I. tauto.
Qed.
