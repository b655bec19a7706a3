(** Proofs about the local Knox statistics. *)
From Coq Require Import ZArith QArith List Bool Arith Lia Lqa Permutation Sorting.Sorted.
From Verif Require Import Base BaseLemmas Quadrat_model Spacetime_model Spacetime_spec Pairs_proofs Spacetime_proofs.
Import ListNotations.
Local Open Scope Q_scope.

Lemma incr_length : forall l i, List.length (incr i l) = List.length l.
Proof. induction l as [|a l IH]; intros [|i]; simpl; auto. Qed.
Lemma incr_nth : forall l i j, (i < List.length l)%nat -> nth j (incr i l) 0%nat = (nth j l 0 + ind (Nat.eqb i j))%nat.
Proof.
  induction l as [|a l IH]; intros i j H; simpl in H; [lia|].
  destruct i as [|i], j as [|j]; cbn [incr nth Nat.eqb ind]; try lia.
  apply IH. lia.
Qed.
Lemma incr_sum : forall l i, (i < List.length l)%nat -> list_sum (incr i l) = S (list_sum l).
Proof.
  induction l as [|a l IH]; intros i H; simpl in H; [lia|]. destruct i as [|i]; simpl; auto.
  rewrite IH by lia. lia.
Qed.
Definition touch (i : nat) (ps : list (nat * nat)) : nat :=
  (List.length (filter (fun p => Nat.eqb (fst p) i) ps) + List.length (filter (fun p => Nat.eqb (snd p) i) ps))%nat.
Lemma nsti_fold : forall ps l, (forall p, In p ps -> (fst p < List.length l)%nat /\ (snd p < List.length l)%nat) ->
  List.length (fold_left (fun a p => incr (snd p) (incr (fst p) a)) ps l) = List.length l /\
  (forall i, nth i (fold_left (fun a p => incr (snd p) (incr (fst p) a)) ps l) 0%nat = (nth i l 0 + touch i ps)%nat) /\
  list_sum (fold_left (fun a p => incr (snd p) (incr (fst p) a)) ps l) = (list_sum l + 2 * List.length ps)%nat.
Proof.
  induction ps as [|p ps IH]; intros l H.
  - simpl. unfold touch. simpl. repeat split; intros; lia.
  - simpl fold_left. destruct (H p (or_introl eq_refl)) as [H1 H2].
    destruct (IH (incr (snd p) (incr (fst p) l))) as [A [B C]].
    { intros q Q. rewrite !incr_length. apply H. right. auto. }
    rewrite !incr_length in A. split; [auto|]. split.
    + intro i. rewrite B. rewrite incr_nth by (rewrite incr_length; auto). rewrite incr_nth by auto.
      unfold touch. cbn [filter]. destruct (Nat.eqb (fst p) i), (Nat.eqb (snd p) i); cbn [List.length ind]; lia.
    + rewrite C. rewrite incr_sum by (rewrite incr_length; auto). rewrite incr_sum by auto. simpl. lia.
Qed.
Lemma repeat_sum0 : forall n, list_sum (List.repeat 0%nat n) = 0%nat.
Proof. induction n; simpl; auto. Qed.
Lemma nth_repeat0 : forall n i, nth i (List.repeat 0%nat n) 0%nat = 0%nat.
Proof. induction n; intros [|i]; simpl; auto. Qed.
Lemma nsti_facts : forall n ps, (forall p, In p ps -> (fst p < n)%nat /\ (snd p < n)%nat) ->
  List.length (nsti_of n ps) = n /\ (forall i, nth i (nsti_of n ps) 0%nat = touch i ps) /\
  list_sum (nsti_of n ps) = (2 * List.length ps)%nat.
Proof.
  intros n ps H. unfold nsti_of. destruct (nsti_fold ps (List.repeat 0%nat n)) as [A [B C]].
  { rewrite repeat_length. auto. }
  rewrite repeat_length in A. rewrite repeat_sum0 in C. split; auto. split; auto.
  intro i. rewrite B, nth_repeat0. reflexivity.
Qed.

(** A set of pairs (a < b) of a symmetric relation: how many touch i. *)
Lemma NoDup_map_in : forall A B (f : A -> B) l, NoDup l -> (forall x y, In x l -> In y l -> f x = f y -> x = y) -> NoDup (map f l).
Proof.
  induction l as [|a l IH]; intros N I; simpl; constructor; inversion N; subst.
  - intro X. apply in_map_iff in X. destruct X as [y [E Y]]. assert (y = a) by (apply I; simpl; auto). subst. auto.
  - apply IH; auto. intros x y X Y. apply I; simpl; auto.
Qed.
Lemma touch_count : forall (f : nat -> nat -> bool) n ps i, NoDup ps -> (forall a b, f a b = f b a) -> (forall a, f a a = false) ->
  (forall a b, In (a, b) ps <-> (a < b < n)%nat /\ f a b = true) -> (i < n)%nat ->
  touch i ps = list_sum (map (fun j => ind (f i j)) (seq 0 n)).
Proof.
  intros f n ps i N S D I Hi. unfold touch.
  rewrite <- (map_length snd (filter (fun p => Nat.eqb (fst p) i) ps)).
  rewrite <- (map_length fst (filter (fun p => Nat.eqb (snd p) i) ps)).
  rewrite <- app_length. apply length_ind.
  - apply NoDup_app'.
    + apply NoDup_map_in; [apply NoDup_filter; auto|]. intros [a b] [c d] X Y E.
      apply filter_In in X, Y. cbn [fst snd] in *. destruct X as [_ X], Y as [_ Y].
      apply Nat.eqb_eq in X, Y. subst. reflexivity.
    + apply NoDup_map_in; [apply NoDup_filter; auto|]. intros [a b] [c d] X Y E.
      apply filter_In in X, Y. cbn [fst snd] in *. destruct X as [_ X], Y as [_ Y].
      apply Nat.eqb_eq in X, Y. subst. reflexivity.
    + intros x X Y. apply in_map_iff in X, Y. destruct X as [[a b] [E1 X]], Y as [[c d] [E2 Y]].
      apply filter_In in X, Y. cbn [fst snd] in *. destruct X as [X X'], Y as [Y Y'].
      apply Nat.eqb_eq in X', Y'. subst. apply I in X, Y. lia.
  - intro j. rewrite in_app_iff, !in_map_iff. split.
    + intros [[[a b] [E X]]|[[a b] [E X]]]; apply filter_In in X; cbn [fst snd] in *; destruct X as [X X'];
        apply Nat.eqb_eq in X'; subst; apply I in X; destruct X as [X1 X2]; split; try lia; auto. rewrite S; auto.
    + intros [H1 H2]. destruct (Nat.lt_trichotomy i j) as [L|[->|L]].
      * left. exists (i, j). split; auto. apply filter_In. split; [apply I; split; [lia|auto]|apply Nat.eqb_refl].
      * rewrite D in H2. discriminate.
      * right. exists (j, i). split; auto. apply filter_In. split; [apply I; split; [lia|rewrite S; auto]|apply Nat.eqb_refl].
Qed.

(** ** Conditional relabelling *)
Lemma set_nth_length : forall l i v, List.length (set_nth i v l) = List.length l.
Proof. induction l as [|a l IH]; intros [|i] v; simpl; auto. Qed.
Lemma set_nth_nth : forall l i v j, (i < List.length l)%nat ->
  nth j (set_nth i v l) 0%nat = if Nat.eqb j i then v else nth j l 0%nat.
Proof.
  induction l as [|a l IH]; intros i v j H; simpl in H; [lia|].
  destruct i as [|i], j as [|j]; cbn [set_nth nth Nat.eqb]; auto. apply IH. lia.
Qed.
Lemma conditional_length : forall rids i, List.length (conditional rids i) = List.length rids.
Proof. intros. unfold conditional. rewrite set_nth_length, map_length. reflexivity. Qed.
Lemma conditional_nth : forall rids i j, (i < List.length rids)%nat -> (j < List.length rids)%nat ->
  nth j (conditional rids i) 0%nat =
  if Nat.eqb j i then i else if Nat.eqb (nth j rids 0%nat) i then nth i rids 0%nat else nth j rids 0%nat.
Proof.
  intros rids i j Hi Hj. unfold conditional. rewrite set_nth_nth by (rewrite map_length; auto).
  destruct (Nat.eqb j i); auto.
  rewrite (nth_indep _ 0%nat ((fun x => if Nat.eqb x i then nth i rids 0%nat else x) 0%nat)) by (rewrite map_length; auto).
  rewrite (map_nth (fun x => if Nat.eqb x i then nth i rids 0%nat else x)). reflexivity.
Qed.
Lemma perm_of_inj : forall n l, List.length l = n -> (forall i, (i < n)%nat -> (nth i l 0 < n)%nat) ->
  (forall i j, (i < n)%nat -> (j < n)%nat -> nth i l 0%nat = nth j l 0%nat -> i = j) -> perm_of n l.
Proof.
  intros n l L B I. unfold perm_of. apply NoDup_Permutation_bis.
  - apply (NoDup_nth l 0%nat). intros i j Hi Hj E. apply I; auto; lia.
  - rewrite seq_length. lia.
  - intros x X. apply (In_nth _ _ 0%nat) in X. destruct X as [i [H <-]]. apply in_seq. specialize (B i ltac:(lia)). lia.
Qed.
Lemma conditional_perm : forall n rids i, perm_of n rids -> (i < n)%nat ->
  perm_of n (conditional rids i) /\ nth i (conditional rids i) 0%nat = i.
Proof.
  intros n rids i P Hi. destruct (perm_facts _ _ P) as [L [B I]]. split.
  - apply perm_of_inj; [rewrite conditional_length; auto| |].
    + intros j Hj. rewrite conditional_nth by lia. destruct (Nat.eqb j i); auto.
      destruct (Nat.eqb (nth j rids 0%nat) i); auto.
    + intros a b Ha Hb. rewrite !conditional_nth by lia.
      destruct (Nat.eqb_spec a i) as [->|Da], (Nat.eqb_spec b i) as [->|Db]; auto;
      repeat match goal with |- context[Nat.eqb ?x ?y] => destruct (Nat.eqb_spec x y) end; intro E; try congruence.
      * exfalso. apply Db. apply I; auto; congruence.
      * exfalso. apply Da. apply I; auto; congruence.
      * apply I; auto; congruence.
      * exfalso. apply Db. apply I; auto; congruence.
      * exfalso. apply Da. apply I; auto; congruence.
      * apply I; auto.
  - rewrite conditional_nth by lia. rewrite Nat.eqb_refl. reflexivity.
Qed.

(** ** Sorted pairs *)
Definition ple (a b : nat * nat) : Prop := (fst a < fst b)%nat \/ fst a = fst b /\ (snd a <= snd b)%nat.
Lemma pair_leb_iff : forall a b, pair_leb a b = true <-> ple a b.
Proof.
  intros. unfold pair_leb, ple. rewrite orb_true_iff, andb_true_iff, Nat.ltb_lt, Nat.eqb_eq, Nat.leb_le. tauto.
Qed.
Lemma insert_pair_perm : forall a l, Permutation (insert_pair a l) (a :: l).
Proof.
  induction l as [|b l IH]; simpl; auto. destruct (pair_leb a b); auto.
  rewrite IH. apply perm_swap.
Qed.
Lemma sort_pairs_perm : forall l, Permutation (sort_pairs l) l.
Proof. induction l as [|a l IH]; simpl; auto. rewrite insert_pair_perm. constructor. auto. Qed.
Lemma insert_pair_sorted : forall a l, StronglySorted ple l -> StronglySorted ple (insert_pair a l).
Proof.
  induction l as [|b l IH]; intros H; simpl.
  - constructor; constructor.
  - inversion H; subst. destruct (pair_leb a b) eqn:E.
    + apply pair_leb_iff in E. constructor; auto. constructor; auto.
      eapply Forall_impl; [|eassumption]. intros c C. unfold ple in *. lia.
    + constructor; auto. assert (X : ple b a).
      { destruct (Bool.bool_dec (pair_leb b a) true) as [F|F]; [apply pair_leb_iff; auto|].
        exfalso. rewrite <- not_true_iff_false, pair_leb_iff in E. rewrite pair_leb_iff in F. unfold ple in *. lia. }
      apply Forall_forall. intros c C. apply (Permutation_in _ (insert_pair_perm a l)) in C. destruct C as [<-|C]; auto.
      rewrite Forall_forall in H3. auto.
Qed.
Lemma sort_pairs_sorted : forall l, StronglySorted ple (sort_pairs l).
Proof. induction l; simpl; [constructor|apply insert_pair_sorted; auto]. Qed.
