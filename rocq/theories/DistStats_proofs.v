(** Proofs about the distance statistics. *)
From Coq Require Import ZArith QArith Qabs Qminmax List Bool Permutation Lia Lqa.
From Verif Require Import Base BaseLemmas Spec Quadrat_model Geometry_model Random_model DistStats_model
  DistStats_spec Pairs_proofs.
Import ListNotations.
Local Open Scope Q_scope.

(** ** Histogram *)
Lemma mono_spec : forall e, mono e = true -> nondecreasing e.
Proof.
  induction e as [|a t IH]; intros H i j L; [simpl in L; lia|].
  destruct t as [|b t].
  - simpl in L. assert (i = 0 /\ j = 0)%nat as [-> ->] by lia. apply Qle_refl.
  - simpl in H. apply andb_true_iff in H. destruct H as [H1 H2]. qb.
    specialize (IH H2). destruct i as [|i].
    + destruct j as [|j]; [apply Qle_refl|].
      apply Qle_trans with b; [auto|]. apply (IH 0%nat j). simpl in *. lia.
    + destruct j as [|j]; [lia|]. apply (IH i j). simpl in *. lia.
Qed.
Lemma mono_of : forall e, nondecreasing e -> mono e = true.
Proof.
  induction e as [|a t IH]; intros H; [reflexivity|]. destruct t as [|b t]; [reflexivity|].
  cbn [mono]. apply andb_true_iff. split.
  - apply Qle_bool_iff. apply (H 0%nat 1%nat). simpl. lia.
  - apply IH. intros i j L. apply (H (S i) (S j)). simpl in *. lia.
Qed.

Lemma cum_counts_length : forall a e, List.length (cum_counts a e) = List.length e.
Proof.
  induction e as [|x t IH]; [reflexivity|]. destruct t; [reflexivity|]. cbn [cum_counts List.length] in *. rewrite IH. reflexivity.
Qed.
(** The k-th cumulative count. *)
Lemma cum_counts_nth : forall a e k, (k < List.length e)%nat ->
  nth k (cum_counts a e) 0%Z =
  Z.of_nat (if Nat.eqb (S k) (List.length e) then count (fun x => Qle_bool x (nth k e 0)) a
            else count (fun x => Qltb x (nth k e 0)) a).
Proof.
  induction e as [|x t IH]; intros k L; [simpl in L; lia|].
  destruct t as [|y t].
  - simpl in L. assert (k = 0)%nat as -> by lia. reflexivity.
  - destruct k as [|k]; [reflexivity|].
    change (nth (S k) (cum_counts a (x :: y :: t)) 0%Z) with (nth k (cum_counts a (y :: t)) 0%Z).
    rewrite IH by (simpl in *; lia). reflexivity.
Qed.

Lemma cumsum_diff : forall l x, cumsum_from x (diff (x :: l)) = l.
Proof.
  induction l as [|y l IH]; intros x; [reflexivity|].
  cbn [diff cumsum_from]. replace (x + (y - x))%Z with y by lia. f_equal. apply IH.
Qed.
Lemma cumsum_from_shift : forall l a b, cumsum_from (a + b) l = map (Z.add a) (cumsum_from b l).
Proof.
  induction l; simpl; intros; auto. rewrite <- Z.add_assoc. f_equal. apply IHl.
Qed.
Lemma cumsum_diff0 : forall l x, cumsum (diff (x :: l)) = map (fun y => (y - x)%Z) l.
Proof.
  intros. unfold cumsum. replace 0%Z with (- x + x)%Z by lia. rewrite cumsum_from_shift, cumsum_diff.
  apply map_ext. intros; lia.
Qed.
Lemma Zsum_diff : forall l x, Zsum (diff (x :: l)) = (last l x - x)%Z.
Proof.
  induction l as [|y l IH]; intros x; [simpl; lia|].
  change (Zsum (diff (x :: y :: l))) with ((y - x) + Zsum (diff (y :: l)))%Z.
  rewrite IH. assert (E : last (y :: l) x = last l y).
  { clear. revert y. induction l; intros y; [reflexivity|].
    change (last (y :: a :: l) x) with (last (a :: l) x). destruct l; [reflexivity|].
    change (last (a :: z :: l) y) with (last (z :: l) y).
    rewrite (IHl a). destruct l; [reflexivity|].
    clear IHl. revert z z0. induction l; intros; [reflexivity|]. apply (IHl z0 a0). }
  rewrite E. lia.
Qed.

Lemma last_nth : forall A (l : list A) d d', l <> [] -> last l d = nth (List.length l - 1) l d'.
Proof.
  induction l as [|x l IH]; intros d d' H; [tauto|]. destruct l as [|y l]; [reflexivity|].
  change (last (x :: y :: l) d) with (last (y :: l) d). rewrite (IH d d') by discriminate.
  simpl. rewrite Nat.sub_0_r. reflexivity.
Qed.

(** The counts at index k, relative to the first edge. *)
Definition below (e : list Q) (k : nat) (x : Q) : bool :=
  Qle_bool (nth 0 e 0) x && (if Nat.eqb (S k) (List.length e) then Qle_bool x (nth k e 0) else Qltb x (nth k e 0)).
Lemma below_spec : forall e k x, below e k x = true <-> counted e k x.
Proof.
  intros. unfold below, counted. rewrite andb_true_iff, Qleb_le.
  destruct (Nat.eqb (S k) (List.length e)); [rewrite Qleb_le|rewrite Qltb_lt]; tauto.
Qed.

Lemma count_minus : forall A (f g h : A -> bool) l,
  (forall x, f x = true -> g x = true) -> (forall x, h x = g x && negb (f x)) ->
  count g l = (count f l + count h l)%nat.
Proof.
  intros A f g h l FG H. induction l as [|x l IH]; [reflexivity|].
  rewrite !count_cons, IH, H. destruct (f x) eqn:E; [rewrite (FG x E)|destruct (g x)]; simpl; lia.
Qed.

Lemma cum_rel : forall d e k, nondecreasing e -> (1 <= k < List.length e)%nat ->
  (nth k (cum_counts d e) 0 - nth 0 (cum_counts d e) 0)%Z = Z.of_nat (count (below e k) d).
Proof.
  intros d e k M L. rewrite !cum_counts_nth by lia.
  assert (E1 : Nat.eqb 1 (List.length e) = false) by (apply Nat.eqb_neq; lia). rewrite E1.
  assert (O : nth 0 e 0 <= nth k e 0) by (apply M; lia).
  set (g := fun x => if Nat.eqb (S k) (List.length e) then Qle_bool x (nth k e 0) else Qltb x (nth k e 0)).
  assert (E2 : (if Nat.eqb (S k) (List.length e) then count (fun x => Qle_bool x (nth k e 0)) d
            else count (fun x => Qltb x (nth k e 0)) d) = count g d).
  { unfold g. destruct (Nat.eqb (S k) (List.length e)); reflexivity. }
  rewrite E2. rewrite (count_minus _ (fun x => Qltb x (nth 0 e 0)) g (below e k)); [lia| |].
  - intros x H. qb. unfold g. destruct (Nat.eqb (S k) (List.length e)); [apply Qleb_le|apply Qltb_lt]; lra.
  - intros x. unfold below, g, Qltb. rewrite negb_involutive.
    destruct (Nat.eqb (S k) (List.length e)); apply andb_comm.
Qed.

Lemma cdf_spec : forall d e st, (2 <= List.length e)%nat -> cdf d e = Ok st ->
  nondecreasing e /\ List.length st = List.length e /\ nth 0 st NaN = Fin 0 /\
  forall k, (1 <= k < List.length e)%nat ->
    nth k st NaN = xdiv (inject_Z (Z.of_nat (count (below e k) d)))
                        (inject_Z (Z.of_nat (count (below e (List.length e - 1)) d))).
Proof.
  intros d e st L H. unfold cdf, histogram in H.
  destruct (mono e) eqn:M; [|discriminate]. apply mono_spec in M. simpl in H. inversion H; subst; clear H.
  split; [exact M|].
  pose proof (cum_counts_length d e) as LC.
  destruct (cum_counts d e) as [|c0 cs] eqn:E; [simpl in LC; lia|].
  rewrite cumsum_diff0, Zsum_diff. simpl in LC.
  split; [simpl; rewrite !map_length; lia|]. split; [reflexivity|].
  intros k K. destruct k as [|k]; [lia|]. cbn [nth].
  assert (KC : (k < List.length cs)%nat) by lia.
  rewrite (nth_indep _ NaN (xdiv (inject_Z (0 - c0)) (inject_Z (last cs c0 - c0))))
    by (rewrite !map_length; lia).
  rewrite map_map. rewrite (map_nth (fun x => xdiv (inject_Z (x - c0)) (inject_Z (last cs c0 - c0)))).
  rewrite (last_nth _ cs c0 0%Z) by (destruct cs; simpl in *; [lia|discriminate]).
  pose proof (cum_rel d e (S k) M K) as R1.
  assert (K2 : (1 <= List.length e - 1 < List.length e)%nat) by lia.
  pose proof (cum_rel d e (List.length e - 1) M K2) as R2.
  rewrite E in R1, R2. cbn [nth] in R1.
  replace (List.length e - 1)%nat with (S (List.length cs - 1)) in R2 by lia. cbn [nth] in R2.
  replace (List.length e - 1)%nat with (S (List.length cs - 1)) by lia.
  rewrite R1, R2. reflexivity.
Qed.

Lemma cdf_ok : forall d e, nondecreasing e -> exists st, cdf d e = Ok st.
Proof. intros d e M. unfold cdf, histogram. rewrite (mono_of e M). eexists. reflexivity. Qed.
Lemma cdf_error : forall d e, ~ nondecreasing e -> cdf d e = Raise ValueError.
Proof.
  intros d e M. unfold cdf, histogram. destruct (mono e) eqn:E; [apply mono_spec in E; tauto|reflexivity].
Qed.
Lemma cdf_short : forall d e, (List.length e < 2)%nat -> cdf d e = Ok [Fin 0].
Proof. intros d [|x [|y e]] L; try reflexivity. simpl in L. lia. Qed.

Lemma below_mono : forall e i j x, nondecreasing e -> (i <= j < List.length e)%nat ->
  below e i x = true -> below e j x = true.
Proof.
  intros e i j x M L H. apply below_spec in H. apply below_spec. destruct H as [H1 H2]. split; [exact H1|].
  pose proof (M i j L) as O.
  destruct (Nat.eqb_spec (S i) (List.length e)); destruct (Nat.eqb_spec (S j) (List.length e)); try lra.
  lia.
Qed.

(** ** Minima *)
Lemma least_of : forall x l, least (Qmin_list x l) (x :: l).
Proof.
  intros. split; [apply Qmin_list_in|]. destruct (Qmin_list_le l x) as [A B].
  intros y [<-|H]; auto.
Qed.

(** ** K *)
Lemma triu_from_matrix : forall n D m i, (i + m = n)%nat ->
  triu_from i (map (fun i => map (D i) (seq 0 n)) (seq i m)) =
  List.concat (map (fun i => map (D i) (seq (S i) (n - S i))) (seq i m)).
Proof.
  induction m; intros i H; [reflexivity|]. cbn [seq map triu_from List.concat].
  rewrite IHm by lia. f_equal.
  replace n with (S i + (n - S i))%nat at 1 by lia. rewrite seq_app, map_app.
  rewrite skipn_app, skipn_all2 by (rewrite map_length, seq_length; lia).
  rewrite map_length, seq_length, Nat.sub_diag. reflexivity.
Qed.
Lemma triu_matrix : forall n D, triu (matrix n D) = pdist n D.
Proof. intros. apply triu_from_matrix. reflexivity. Qed.

Lemma count_concat : forall A (f : A -> bool) ls,
  count f (List.concat ls) = list_sum (map (count f) ls).
Proof. induction ls; simpl; auto. rewrite count_app, IHls. reflexivity. Qed.
Lemma count_sum : forall A B (f : B -> bool) (g : A -> B) l,
  count f (map g l) = list_sum (map (fun x => if f (g x) then 1 else 0)%nat l).
Proof.
  induction l; simpl; auto. rewrite count_cons, IHl. destruct (f (g a)); reflexivity.
Qed.
Lemma count_pdist : forall f n D,
  count f (pdist n D) = upper (fun i j => if f (D i j) then 1 else 0)%nat n.
Proof.
  intros. unfold pdist, upper. rewrite count_concat, map_map. apply list_sum_map_ext.
  intros i _. apply count_sum.
Qed.
Lemma pdist_length : forall n D, (2 * List.length (pdist n D) = n * (n - 1))%nat.
Proof.
  intros n D. unfold pdist.
  assert (E : List.length (List.concat (map (fun i => map (D i) (seq (S i) (n - S i))) (seq 0 n))) =
    upper (fun _ _ => 1%nat) n).
  { unfold upper. generalize (seq 0 n). induction l; simpl; auto.
    rewrite app_length, IHl, map_length, seq_length. f_equal. rewrite list_sum_const, seq_length. lia. }
  rewrite E. clear E. induction n; [reflexivity|]. rewrite upper_S, list_sum_const, seq_length. nia.
Qed.

Lemma in_pdist : forall n D x, In x (pdist n D) -> exists i j, (i < j < n)%nat /\ x = D i j.
Proof.
  intros n D x H. unfold pdist in H. apply in_concat in H. destruct H as [l [Hl Hx]].
  apply in_map_iff in Hl. destruct Hl as [i [<- Hi]]. apply in_map_iff in Hx. destruct Hx as [j [<- Hj]].
  apply in_seq in Hi. apply in_seq in Hj. exists i, j. split; [lia|reflexivity].
Qed.

Lemma k_value_spec : forall n area d s, (1 <= n)%nat -> 0 <= area ->
  exists q, k_value n area d s = Fin q /\
    q == area * inject_Z (2 * Z.of_nat (count (fun x => Qltb x s) d)) / (inject_Z (Z.of_nat n) * inject_Z (Z.of_nat n)).
Proof.
  intros n area d s Hn Ha. unfold k_value. generalize (Z.of_nat (count (fun x => Qltb x s) d)). intros c.
  assert (P : 0 < inject_Z (Z.of_nat n)) by (apply inject_Z_pos; lia).
  rewrite (Z.mul_comm 2 c). generalize (inject_Z (c * 2)). intros q.
  generalize dependent (inject_Z (Z.of_nat n)). intros N P. unfold xdiv.
  assert (E : Qeq_bool N 0 = false) by (apply Qeqb_neq; lra). rewrite E.
  destruct (Qeq_bool area 0) eqn:EA.
  - apply Qeqb_eq in EA. assert (L : Qltb 0 N = true) by (apply Qltb_lt; auto).
    rewrite L. simpl. exists 0. split; [reflexivity|]. rewrite EA. field. lra.
  - apply Qeqb_neq in EA. cbn [xdivx]. unfold xdiv.
    assert (X : Qeq_bool (N / area) 0 = false).
    { apply Qeqb_neq. intros X. assert (N == 0); [|lra]. setoid_replace N with (N / area * area) by (field; auto).
      rewrite X. ring. }
    rewrite X. eexists. split; [reflexivity|]. field. split; [lra|auto].
Qed.

(** ** Truncation *)
Lemma first_invalid_split : forall l, existsb invalid l = true ->
  exists x t, l = firstn (first_invalid l) l ++ x :: t /\ invalid x = true /\
    (forall y, In y (firstn (first_invalid l) l) -> invalid y = false) /\ (first_invalid l < List.length l)%nat.
Proof.
  induction l as [|a l IH]; intros H; [discriminate|]. cbn [existsb first_invalid] in *.
  destruct (invalid a) eqn:E.
  - exists a, l. split; [reflexivity|]. split; [exact E|]. split; [intros y []|simpl; lia].
  - destruct (IH H) as [x [t [H1 [H2 [H3 H4]]]]]. exists x, t. cbn [firstn].
    split; [simpl; f_equal; exact H1|]. split; [exact H2|]. split; [|simpl; lia].
    intros y [<-|Y]; auto.
Qed.
Lemma invalid_spec : forall x, invalid x = false <-> exists q, x = Fin q.
Proof. destruct x; simpl; split; intros H; try discriminate; eauto; destruct H as [q' H]; discriminate. Qed.
Lemma truncate2_spec : forall (sup : list Q) l, valid_prefix l (snd (truncate2 sup l)) /\
  fst (truncate2 sup l) = firstn (List.length (snd (truncate2 sup l))) sup \/
  (List.length sup <> List.length l /\ existsb invalid l = false).
Proof.
  intros sup l. unfold truncate2. destruct (existsb invalid l) eqn:E.
  - left. destruct (first_invalid_split l E) as [x [t [H1 [H2 [H3 H4]]]]]. simpl. split.
    + exists (x :: t). split; [exact H1|]. split.
      * intros y Y. apply invalid_spec. auto.
      * intros q ->. discriminate.
    + rewrite firstn_length, Nat.min_l by lia. reflexivity.
  - simpl. destruct (Nat.eq_dec (List.length sup) (List.length l)) as [L|L]; [left|right; auto].
    split.
    + exists []. rewrite app_nil_r. split; auto. split; auto. intros x X. apply invalid_spec.
      destruct (invalid x) eqn:I; auto. assert (existsb invalid l = true) by (apply existsb_exists; eauto). congruence.
    + rewrite <- L, firstn_all. reflexivity.
Qed.

Lemma allclose_refl : forall e, allclose e e = true.
Proof.
  induction e; [reflexivity|]. unfold allclose in *. cbn [combine forallb fst snd].
  rewrite IHe, andb_true_r. apply Qle_bool_iff.
  setoid_replace (a - a) with 0 by ring. simpl Qabs. pose proof (Qabs_nonneg a). lra.
Qed.
Lemma nth_combine : forall (a b : list xq) k, (k < List.length a)%nat -> List.length a = List.length b ->
  nth k (map (fun gf => hazard (fst gf) (snd gf)) (combine a b)) NaN = hazard (nth k a NaN) (nth k b NaN).
Proof.
  induction a as [|x a IH]; intros b k L E; [simpl in L; lia|].
  destruct b as [|y b]; [discriminate|]. destruct k as [|k]; [reflexivity|].
  cbn [combine map nth]. apply IH; simpl in *; lia.
Qed.
