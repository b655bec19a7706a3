(** Proofs about the Knox statistics. *)
From Coq Require Import ZArith QArith List Bool Arith Lia Lqa Permutation.
From Verif Require Import Base BaseLemmas Quadrat_model Spacetime_model Spacetime_spec Pairs_proofs.
Import ListNotations.
Local Open Scope Q_scope.

Lemma vd2_sqdist : forall p q, vd2 p q == sqdist p q.
Proof.
  induction p as [|a p IH]; intros [|b q]; try reflexivity. unfold vd2 in *. cbn [combine map Qsum fold_right fst snd sqdist].
  change (fold_right Qplus 0) with Qsum. rewrite IH. reflexivity.
Qed.
Lemma within_iff : forall r p q, within r p q = true <-> Close r p q.
Proof. intros. unfold within, Close. rewrite andb_true_iff, !Qle_bool_iff, vd2_sqdist. tauto. Qed.
Lemma sqdist_sym : forall p q, sqdist p q == sqdist q p.
Proof. induction p as [|a p IH]; intros [|b q]; try reflexivity. cbn [sqdist]. rewrite IH. ring. Qed.
Lemma Close_sym : forall r p q, Close r p q <-> Close r q p.
Proof. intros. unfold Close. rewrite (sqdist_sym p q). tauto. Qed.
Lemma within_sym : forall r p q, within r p q = within r q p.
Proof. intros. apply eq_true_iff_eq. rewrite !within_iff. apply Close_sym. Qed.

Lemma mem_iff : forall j l, mem j l = true <-> In j l.
Proof.
  intros. unfold mem. rewrite existsb_exists. split.
  - intros [x [H1 H2]]. apply Nat.eqb_eq in H2. subst. auto.
  - intro H. exists j. split; auto. apply Nat.eqb_refl.
Qed.

(** Lengths of duplicate-free lists as sums of indicators. *)
Definition ind (b : bool) : nat := if b then 1%nat else 0%nat.
Lemma filter_ind : forall A (f : A -> bool) l, List.length (filter f l) = list_sum (map (fun x => ind (f x)) l).
Proof. induction l as [|a l IH]; simpl; auto. destruct (f a); simpl; rewrite IH; reflexivity. Qed.
Lemma length_ind : forall (f : nat -> bool) n l, NoDup l -> (forall j, In j l <-> (j < n)%nat /\ f j = true) ->
  List.length l = list_sum (map (fun j => ind (f j)) (seq 0 n)).
Proof.
  intros f n l N I. rewrite <- filter_ind. apply Permutation_length. apply NoDup_Permutation; auto.
  - apply NoDup_filter, seq_NoDup.
  - intro x. rewrite I, filter_In, in_seq. intuition lia.
Qed.

(** Counting unordered pairs. *)
Lemma NoDup_app' : forall A (l1 l2 : list A), NoDup l1 -> NoDup l2 -> (forall x, In x l1 -> In x l2 -> False) -> NoDup (l1 ++ l2).
Proof.
  induction l1 as [|a l1 IH]; intros l2 N1 N2 D; simpl; auto. inversion N1; subst. constructor.
  - rewrite in_app_iff. intros [X|X]; [auto|]. apply (D a); simpl; auto.
  - apply IH; auto. intros x X Y. apply (D x); simpl; auto.
Qed.
Lemma card_upper : forall (f : nat -> nat -> bool) n,
  Card (fun ij => (fst ij < snd ij < n)%nat /\ f (fst ij) (snd ij) = true) (upper (fun i j => ind (f i j)) n).
Proof.
  intros f. induction n.
  - exists []. split; [constructor|]. split; [|reflexivity]. intros x. split; [intros []|lia].
  - destruct IHn as [l [N [I L]]].
    exists (l ++ map (fun i => (i, n)) (filter (fun i => f i n) (seq 0 n))). split; [|split].
    + apply NoDup_app'; auto.
      * apply FinFun.Injective_map_NoDup; [|apply NoDup_filter, seq_NoDup]. intros a b E. inversion E. auto.
      * intros x X Y. apply I in X. apply in_map_iff in Y. destruct Y as [i [<- _]]. simpl in X. lia.
    + intros [i j]. rewrite in_app_iff, I, in_map_iff. cbn [fst snd]. split.
      * intros [[A B]|[i' [E X]]]; [split; [lia|auto]|]. inversion E; subst.
        apply filter_In in X. destruct X as [X1 X2]. apply in_seq in X1. split; [lia|auto].
      * intros [A B]. destruct (Nat.eq_dec j n) as [->|D].
        -- right. exists i. split; auto. apply filter_In. split; auto. apply in_seq. lia.
        -- left. split; [lia|auto].
    + rewrite app_length, map_length, L, upper_S, filter_ind. reflexivity.
Qed.

Section Knox.
Variable ball : list vec -> Q -> nat -> list nat.
Hypothesis HB : Ball ball.

(** Two different events are close. *)
Definition nb (c : list vec) (r : Q) (i j : nat) : bool := negb (Nat.eqb j i) && within r (row c i) (row c j).
Lemma nb_sym : forall c r i j, nb c r i j = nb c r j i.
Proof. intros. unfold nb. rewrite within_sym. rewrite (Nat.eqb_sym j i). reflexivity. Qed.

Lemma neighbors_length : forall c r, List.length (neighbors ball c r) = List.length c.
Proof. intros. unfold neighbors. rewrite map_length, seq_length. reflexivity. Qed.
Lemma nth_map_seq : forall A (f : nat -> A) d n i, (i < n)%nat -> nth i (map f (seq 0 n)) d = f i.
Proof.
  intros A f d n i H. rewrite (nth_indep _ d (f 0%nat)) by (rewrite map_length, seq_length; auto).
  rewrite map_nth, seq_nth by auto. reflexivity.
Qed.
Lemma neighbors_nth : forall c r i, (i < List.length c)%nat ->
  nth i (neighbors ball c r) [] = filter (fun j => negb (Nat.eqb j i)) (nodup Nat.eq_dec (ball c r i)).
Proof. intros c r i H. unfold neighbors. rewrite nth_map_seq by auto. reflexivity. Qed.
Lemma neighbors_in : forall c r i j, (i < List.length c)%nat ->
  (In j (nth i (neighbors ball c r) []) <-> (j < List.length c)%nat /\ nb c r i j = true).
Proof.
  intros c r i j H. rewrite neighbors_nth by auto. rewrite filter_In, nodup_In. rewrite (HB c r i j H).
  unfold nb. rewrite andb_true_iff, within_iff. tauto.
Qed.
Lemma neighbors_nodup : forall c r i, NoDup (nth i (neighbors ball c r) []).
Proof.
  intros c r i. destruct (Nat.lt_ge_cases i (List.length c)) as [H|H].
  - rewrite neighbors_nth by auto. apply NoDup_filter, NoDup_nodup.
  - rewrite nth_overflow; [constructor|]. rewrite neighbors_length. auto.
Qed.
Lemma neighbors_len : forall c r i, (i < List.length c)%nat ->
  List.length (nth i (neighbors ball c r) []) = list_sum (map (fun j => ind (nb c r i j)) (seq 0 (List.length c))).
Proof. intros. apply length_ind; [apply neighbors_nodup|]. intro j. apply neighbors_in; auto. Qed.

Lemma map_nth_seq : forall A (d : A) l, map (fun i => nth i l d) (seq 0 (List.length l)) = l.
Proof.
  intros A d l. apply (nth_ext _ _ d d).
  - rewrite map_length, seq_length. reflexivity.
  - rewrite map_length, seq_length. intros n H.
    rewrite (nth_indep _ d (nth 0 l d)) by (rewrite map_length, seq_length; auto).
    rewrite (map_nth (fun i => nth i l d)). rewrite seq_nth by auto. reflexivity.
Qed.

Lemma neighbors_total : forall c r, nsum (map (@List.length nat) (neighbors ball c r)) =
  total (fun i j => ind (nb c r i j)) (List.length c).
Proof.
  intros c r. change nsum with list_sum. unfold total.
  rewrite <- (map_nth_seq _ [] (neighbors ball c r)). rewrite map_map, neighbors_length.
  apply list_sum_map_ext. intros i Hi. apply in_seq in Hi. apply neighbors_len. lia.
Qed.
Lemma diagonal_nb : forall f n, (forall i, f i i = false) -> diagonal (fun i j => ind (f i j)) n = 0%nat.
Proof.
  intros f n H. unfold diagonal. rewrite (list_sum_map_ext _ _ (fun _ => 0%nat)).
  - rewrite list_sum_const. lia.
  - intros. rewrite H. reflexivity.
Qed.
Lemma nb_irrefl : forall c r i, nb c r i i = false.
Proof. intros. unfold nb. rewrite Nat.eqb_refl. reflexivity. Qed.
Lemma half_total : forall f n, (forall i, f i i = false) -> (forall i j, f i j = f j i) ->
  Qnat (total (fun i j => ind (f i j)) n) / 2 == Qnat (upper (fun i j => ind (f i j)) n).
Proof.
  intros f n D S. rewrite total_upper by (intros; rewrite S; reflexivity). rewrite diagonal_nb by auto.
  unfold Qnat. rewrite Nat.add_0_l, Nat2Z.inj_mul, inject_Z_mult. change (inject_Z (Z.of_nat 2)) with 2. field.
Qed.

(** Intersections. *)
Lemma inter_in : forall a b j, In j (inter a b) <-> In j a /\ In j b.
Proof. intros. unfold inter. rewrite filter_In, mem_iff. tauto. Qed.
Definition stn_of (s t : list vec) (delta tau : Q) : list (list nat) :=
  map (fun ab => inter (fst ab) (snd ab)) (combine (neighbors ball s delta) (neighbors ball t tau)).
Lemma stn_length : forall s t delta tau, List.length s = List.length t ->
  List.length (stn_of s t delta tau) = List.length s.
Proof. intros. unfold stn_of. rewrite map_length, combine_length, !neighbors_length. lia. Qed.
Lemma stn_nth : forall s t delta tau i, List.length s = List.length t -> (i < List.length s)%nat ->
  nth i (stn_of s t delta tau) [] = inter (nth i (neighbors ball s delta) []) (nth i (neighbors ball t tau) []).
Proof.
  intros s t delta tau i E H. unfold stn_of.
  change (@nil nat) with ((fun ab : list nat * list nat => inter (fst ab) (snd ab)) ([], [])) at 1.
  rewrite map_nth. rewrite combine_nth by (rewrite !neighbors_length; auto). reflexivity.
Qed.
Definition nbst (s t : list vec) (delta tau : Q) (i j : nat) : bool := nb s delta i j && nb t tau i j.
Lemma stn_in : forall s t delta tau i j, List.length s = List.length t -> (i < List.length s)%nat ->
  (In j (nth i (stn_of s t delta tau) []) <-> (j < List.length s)%nat /\ nbst s t delta tau i j = true).
Proof.
  intros s t delta tau i j E H. rewrite stn_nth by auto. rewrite inter_in.
  rewrite (neighbors_in s delta i j H). rewrite (neighbors_in t tau i j) by lia. unfold nbst. rewrite andb_true_iff. intuition lia.
Qed.
Lemma stn_nodup : forall s t delta tau i, List.length s = List.length t -> NoDup (nth i (stn_of s t delta tau) []).
Proof.
  intros s t delta tau i E. destruct (Nat.lt_ge_cases i (List.length s)) as [H|H].
  - rewrite stn_nth by auto. apply NoDup_filter, neighbors_nodup.
  - rewrite nth_overflow; [constructor|]. rewrite stn_length; auto.
Qed.
Lemma stn_total : forall s t delta tau, List.length s = List.length t ->
  nsum (map (@List.length nat) (stn_of s t delta tau)) =
  total (fun i j => ind (nbst s t delta tau i j)) (List.length s).
Proof.
  intros s t delta tau E. change nsum with list_sum. unfold total.
  rewrite <- (map_nth_seq _ [] (stn_of s t delta tau)). rewrite map_map, stn_length by auto.
  apply list_sum_map_ext. intros i Hi. apply in_seq in Hi. apply length_ind; [apply stn_nodup; auto|].
  intro j. apply stn_in; auto. lia.
Qed.
Lemma nbst_sym : forall s t delta tau i j, nbst s t delta tau i j = nbst s t delta tau j i.
Proof. intros. unfold nbst. rewrite (nb_sym s), (nb_sym t). reflexivity. Qed.
Lemma nbst_irrefl : forall s t delta tau i, nbst s t delta tau i i = false.
Proof. intros. unfold nbst. rewrite nb_irrefl. reflexivity. Qed.

(** The set of space-time pairs. *)
Lemma st_pairs_in : forall s t delta tau i j, List.length s = List.length t ->
  (In (i, j) (st_pairs_of (stn_of s t delta tau)) <-> (i < j < List.length s)%nat /\ nbst s t delta tau i j = true).
Proof.
  intros s t delta tau i j E. unfold st_pairs_of. rewrite nodup_In, in_concat. rewrite stn_length by auto. split.
  - intros [l [H1 H2]]. apply in_map_iff in H1. destruct H1 as [a [<- Ha]]. apply in_seq in Ha.
    apply in_map_iff in H2. destruct H2 as [b [Hp Hb]]. apply stn_in in Hb; [|auto|lia]. destruct Hb as [B1 B2].
    assert (a <> b) by (intro; subst; rewrite nbst_irrefl in B2; discriminate).
    unfold sorted_pair in Hp. destruct (Nat.leb_spec a b); inversion Hp; subst.
    + split; [lia|auto].
    + split; [lia|]. rewrite nbst_sym. auto.
  - intros [H1 H2]. exists (map (sorted_pair i) (nth i (stn_of s t delta tau) [])). split.
    + apply in_map_iff. exists i. split; auto. apply in_seq. lia.
    + apply in_map_iff. exists j. split.
      * unfold sorted_pair. destruct (Nat.leb_spec i j); [reflexivity|lia].
      * apply (proj2 (stn_in s t delta tau i j E ltac:(lia))). split; [lia|auto].
Qed.
Lemma st_pairs_nodup : forall l, NoDup (st_pairs_of l).
Proof. intros. unfold st_pairs_of. apply NoDup_nodup. Qed.

(** ** The result of the global statistic *)
Lemma knox_inv : forall s t delta tau perms k, knox_global ball s t delta tau perms = Ok k ->
  List.length s = List.length t /\
  k_sn k = neighbors ball s delta /\ k_tn k = neighbors ball t tau /\ k_stn k = stn_of s t delta tau /\
  k_st_pairs k = st_pairs_of (stn_of s t delta tau) /\
  k_ns k == Qnat (upper (fun i j => ind (nb s delta i j)) (List.length s)) /\
  k_nt k == Qnat (upper (fun i j => ind (nb t tau i j)) (List.length s)) /\
  k_nst k == Qnat (upper (fun i j => ind (nbst s t delta tau i j)) (List.length s)) /\
  k_pairs k = Qnat (List.length s) * (Qnat (List.length s) - 1) / 2.
Proof.
  intros s t delta tau perms k H. unfold knox_global in H.
  destruct (Nat.eqb_spec (List.length s) (List.length t)) as [E|]; [|discriminate].
  injection H as H. subst k. cbn [k_ns k_nt k_nst k_pairs k_st_pairs k_sn k_tn k_stn].
  change (map (fun ab => inter (fst ab) (snd ab)) (combine (neighbors ball s delta) (neighbors ball t tau))) with (stn_of s t delta tau).
  repeat (split; [reflexivity || auto|]); auto.
  - rewrite neighbors_total. apply half_total; [apply nb_irrefl|apply nb_sym].
  - rewrite neighbors_total, <- E. apply half_total; [apply nb_irrefl|apply nb_sym].
  - rewrite stn_total by auto. apply half_total; [apply nbst_irrefl|apply nbst_sym].
Qed.

(** Sums over unordered pairs. *)
Lemma upper_plus : forall g h n, upper (fun i j => (g i j + h i j)%nat) n = (upper g n + upper h n)%nat.
Proof. intros g h. induction n; [reflexivity|]. rewrite !upper_S, IHn, list_sum_map_plus. lia. Qed.
Lemma upper_mono : forall g h n, (forall i j, (i < j < n)%nat -> (g i j <= h i j)%nat) -> (upper g n <= upper h n)%nat.
Proof.
  intros g h. induction n; intros H; [reflexivity|]. rewrite !upper_S.
  assert (A : (upper g n <= upper h n)%nat) by (apply IHn; intros; apply H; lia).
  assert (B : (list_sum (map (fun i => g i n) (seq 0 n)) <= list_sum (map (fun i => h i n) (seq 0 n)))%nat).
  { apply list_sum_le. intros x X. apply in_seq in X. apply H. lia. }
  lia.
Qed.
Lemma upper_ext : forall g h n, (forall i j, (i < j < n)%nat -> g i j = h i j) -> upper g n = upper h n.
Proof. intros g h n H. apply Nat.le_antisymm; apply upper_mono; intros i j X; rewrite (H i j X); lia. Qed.
Lemma upper_one : forall n, (2 * upper (fun _ _ => 1) n = n * (n - 1))%nat.
Proof.
  induction n; [reflexivity|]. rewrite upper_S, list_sum_const, seq_length.
  replace (2 * (upper (fun _ _ => 1%nat) n + n * 1))%nat with (2 * upper (fun _ _ => 1%nat) n + 2 * n)%nat by lia.
  rewrite IHn. destruct n; simpl; lia.
Qed.
Lemma upper_pairs : forall n, Qnat n * (Qnat n - 1) / 2 == Qnat (upper (fun _ _ => 1%nat) n).
Proof.
  intro n. pose proof (upper_one n) as E. apply (f_equal Z.of_nat) in E.
  assert (E' : (2 * Z.of_nat (upper (fun _ _ => 1%nat) n) = Z.of_nat n * (Z.of_nat n - 1))%Z).
  { destruct n; [reflexivity|]. rewrite !Nat2Z.inj_mul in E. lia. }
  unfold Qnat. apply (f_equal inject_Z) in E'. rewrite !inject_Z_mult in E'.
  unfold Z.sub in E'. rewrite inject_Z_plus in E'. change (inject_Z (- (1))) with (-(1)) in E'. change (inject_Z 2) with 2 in E'.
  assert (X : forall a b, 2 * a = b -> b / 2 == a) by (intros a b <-; field).
  apply X. exact E'.
Qed.

(** ** Permutations *)
Lemma perm_facts : forall n rids, perm_of n rids ->
  List.length rids = n /\ (forall i, (i < n)%nat -> (nth i rids 0 < n)%nat) /\
  (forall i j, (i < n)%nat -> (j < n)%nat -> nth i rids 0%nat = nth j rids 0%nat -> i = j).
Proof.
  intros n rids P. assert (L : List.length rids = n) by (rewrite (Permutation_length P); apply seq_length).
  split; [auto|]. split.
  - intros i H. assert (X : In (nth i rids 0%nat) (seq 0 n)).
    { apply (Permutation_in _ P). apply nth_In. lia. }
    apply in_seq in X. lia.
  - intros i j Hi Hj E. assert (N : NoDup rids) by (apply (Permutation_NoDup (Permutation_sym P)), seq_NoDup).
    apply (proj1 (NoDup_nth rids 0%nat) N); auto; lia.
Qed.
Lemma permuted_row : forall t rids i, (i < List.length rids)%nat -> row (permuted t rids) i = row t (nth i rids 0%nat).
Proof.
  intros t rids i H. unfold permuted. unfold row at 1. rewrite (nth_indep _ [] (row t 0)) by (rewrite map_length; auto).
  rewrite (map_nth (row t)). reflexivity.
Qed.
Lemma nb_permuted : forall t tau rids i j, perm_of (List.length t) rids -> (i < List.length t)%nat -> (j < List.length t)%nat ->
  nb (permuted t rids) tau i j = nb t tau (nth i rids 0%nat) (nth j rids 0%nat).
Proof.
  intros t tau rids i j P Hi Hj. destruct (perm_facts _ _ P) as [L [_ I]]. unfold nb.
  rewrite !permuted_row by lia. f_equal. f_equal.
  destruct (Nat.eqb_spec j i) as [->|D]; [rewrite Nat.eqb_refl; reflexivity|].
  destruct (Nat.eqb_spec (nth j rids 0%nat) (nth i rids 0%nat)) as [E|E]; [exfalso; apply D, I; auto|reflexivity].
Qed.
Lemma filter_map_length : forall A B (p : B -> bool) (f : A -> B) l,
  List.length (filter p (map f l)) = List.length (filter (fun x => p (f x)) l).
Proof. induction l as [|a l IH]; simpl; auto. destruct (p (f a)); simpl; rewrite IH; auto. Qed.
Lemma perm_count : forall s t delta tau rids i, List.length s = List.length t -> perm_of (List.length s) rids -> (i < List.length s)%nat ->
  List.length (filter (fun j => mem j (nth (nth i rids 0%nat) (neighbors ball t tau) []))
     (map (fun j => nth j rids 0%nat) (nth i (neighbors ball s delta) []))) =
  list_sum (map (fun j => ind (nbst s (permuted t rids) delta tau i j)) (seq 0 (List.length s))).
Proof.
  intros s t delta tau rids i E P Hi. destruct (perm_facts _ _ P) as [L [B I]]. rewrite filter_map_length. apply length_ind.
  - apply NoDup_filter, neighbors_nodup.
  - intro j. rewrite filter_In, mem_iff. rewrite (neighbors_in s delta i j Hi).
    unfold nbst. rewrite andb_true_iff. split.
    + intros [[H1 H2] H3]. apply neighbors_in in H3; [|rewrite <- E; auto]. destruct H3 as [_ H3].
      rewrite nb_permuted by (try rewrite <- E; auto; try lia). auto.
    + intros [H1 [H2 H3]]. rewrite nb_permuted in H3 by (try rewrite <- E; auto; try lia).
      split; auto. apply neighbors_in; [rewrite <- E; auto|]. split; auto. rewrite <- E. auto.
Qed.
Lemma knox_perm_upper : forall s t delta tau rids, List.length s = List.length t -> perm_of (List.length s) rids ->
  knox_perm (neighbors ball s delta) (neighbors ball t tau) rids ==
  Qnat (upper (fun i j => ind (nbst s (permuted t rids) delta tau i j)) (List.length s)).
Proof.
  intros s t delta tau rids E P. unfold knox_perm. rewrite neighbors_length. change nsum with list_sum.
  rewrite (list_sum_map_ext _ _ (fun i => list_sum (map (fun j => ind (nbst s (permuted t rids) delta tau i j)) (seq 0 (List.length s))))).
  - apply half_total; [intro; apply nbst_irrefl|intros; apply nbst_sym].
  - intros i Hi. apply in_seq in Hi. apply perm_count; auto. lia.
Qed.
Lemma upper_permuted : forall t tau rids n, List.length t = n -> perm_of n rids ->
  upper (fun i j => ind (nb (permuted t rids) tau i j)) n = upper (fun i j => ind (nb t tau i j)) n.
Proof.
  intros t tau rids n <- P.
  rewrite <- (upper_relabel (fun i j => ind (nb t tau i j)) (List.length t) (fun i => nth i rids 0%nat)).
  - apply upper_ext. intros i j H. rewrite nb_permuted by (auto; lia). reflexivity.
  - unfold relabel. destruct (perm_facts _ _ P) as [L _]. rewrite <- L at 1. rewrite map_nth_seq. exact P.
  - intros. rewrite nb_sym. reflexivity.
Qed.
Lemma permuted_length : forall t rids, List.length (permuted t rids) = List.length rids.
Proof. intros. apply map_length. Qed.

(** Specification level counts. *)
Lemma card_spair : forall s delta k, Card (SPair s delta) k -> k = upper (fun i j => ind (nb s delta i j)) (List.length s).
Proof.
  intros s delta k H. apply (Card_unique _ _ _ _ H). refine (Card_ext _ _ _ _ _ (card_upper _ _)).
  intros [i j]. unfold SPair, nb. cbn [fst snd]. rewrite andb_true_iff, negb_true_iff, Nat.eqb_neq, within_iff. intuition lia.
Qed.
Lemma card_stpair : forall s t delta tau k, Card (STPair s t delta tau) k ->
  k = upper (fun i j => ind (nbst s t delta tau i j)) (List.length s).
Proof.
  intros s t delta tau k H. apply (Card_unique _ _ _ _ H). refine (Card_ext _ _ _ _ _ (card_upper _ _)).
  intros [i j]. unfold STPair, SPair, nbst, nb. cbn [fst snd].
  rewrite !andb_true_iff, negb_true_iff, Nat.eqb_neq, !within_iff. intuition lia.
Qed.
Lemma nb_spair : forall s delta i j, SPair s delta (i, j) <-> (i < j < List.length s)%nat /\ nb s delta i j = true.
Proof.
  intros. unfold SPair, nb. cbn [fst snd]. rewrite andb_true_iff, negb_true_iff, Nat.eqb_neq, within_iff. intuition lia.
Qed.
Lemma nbst_stpair : forall s t delta tau i j, STPair s t delta tau (i, j) <-> (i < j < List.length s)%nat /\ nbst s t delta tau i j = true.
Proof.
  intros. unfold STPair, SPair, nbst, nb. cbn [fst snd].
  rewrite !andb_true_iff, negb_true_iff, Nat.eqb_neq, !within_iff. intuition lia.
Qed.
Lemma Qnat_le : forall a b, (a <= b)%nat -> Qnat a <= Qnat b.
Proof. intros. unfold Qnat. rewrite <- Zle_Qle. lia. Qed.
Lemma Qnat_plus : forall a b, Qnat (a + b) == Qnat a + Qnat b.
Proof. intros. unfold Qnat. rewrite Nat2Z.inj_add, inject_Z_plus. reflexivity. Qed.
Lemma Qnat_nonneg : forall a, 0 <= Qnat a.
Proof. intros. apply (Qnat_le 0 a). lia. Qed.
Lemma upper_st_le : forall s t delta tau n,
  (upper (fun i j => ind (nbst s t delta tau i j)) n <= upper (fun i j => ind (nb s delta i j)) n)%nat /\
  (upper (fun i j => ind (nbst s t delta tau i j)) n <= upper (fun i j => ind (nb t tau i j)) n)%nat.
Proof.
  intros. unfold nbst. split; apply upper_mono; intros i j _; destruct (nb s delta i j), (nb t tau i j); cbn; lia.
Qed.
(** Inclusion and exclusion. *)
Lemma upper_union : forall s t delta tau n,
  (upper (fun i j => ind (nb s delta i j)) n + upper (fun i j => ind (nb t tau i j)) n <=
   upper (fun _ _ => 1) n + upper (fun i j => ind (nbst s t delta tau i j)) n)%nat.
Proof.
  intros. rewrite <- !upper_plus. apply upper_mono. intros i j _. unfold nbst.
  destruct (nb s delta i j), (nb t tau i j); cbn; lia.
Qed.
End Knox.
