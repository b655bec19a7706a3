(** Proofs about the centres of a point pattern. *)
From Coq Require Import ZArith QArith Qabs Qminmax List Bool Permutation Sorted Lia Lqa Psatz.
From Verif Require Import Base BaseLemmas Spec Center_model Center_spec QStat_proofs.
Import ListNotations.
Local Open Scope Q_scope.

Lemma Qlen_pos : forall A (l : list A), l <> [] -> 0 < Qlen l.
Proof.
  intros A [|a l] H; [congruence|]. unfold Qlen. change 0 with (inject_Z 0).
  rewrite <- Zlt_Qlt. simpl List.length. lia.
Qed.

(** ** Means *)
Lemma xdiv_len : forall A (l : list A) s, l <> [] -> xdiv s (Qlen l) = Fin (s / Qlen l).
Proof.
  intros A l s H. unfold xdiv. pose proof (Qlen_pos A l H) as P.
  destruct (Qeq_bool (Qlen l) 0) eqn:E; [apply Qeq_bool_iff in E; lra | reflexivity].
Qed.

Lemma mean_center_value : forall pts, pts <> [] ->
  mean_center pts = (Fin (Qsum (map fst pts) / Qlen pts), Fin (Qsum (map snd pts) / Qlen pts)).
Proof. intros. unfold mean_center. rewrite !xdiv_len by auto. reflexivity. Qed.

(** Sum of squares around [c] in terms of the mean. *)
Lemma sq_dev_sum : forall A (f : A -> Q) l m c, Qsum (map f l) == m * Qlen l ->
  Qsum (map (fun x => (f x - c) * (f x - c)) l) ==
  Qsum (map (fun x => (f x - m) * (f x - m)) l) + Qlen l * ((m - c) * (m - c)).
Proof.
  intros A f l m c H.
  assert (E : forall k, Qsum (map (fun x => (f x - k) * (f x - k)) l) ==
                        Qsum (map (fun x => f x * f x) l) - 2 * k * Qsum (map f l) + k * k * Qlen l).
  { intro k. clear H. induction l as [|a l IH].
    - simpl. unfold Qlen. simpl. change (inject_Z 0) with 0. ring.
    - simpl. rewrite IH. assert (L : Qlen (a :: l) == Qlen l + 1).
      { unfold Qlen. simpl List.length. rewrite Nat2Z.inj_succ. unfold Z.succ. rewrite inject_Z_plus.
        reflexivity. }
      rewrite L. ring. }
  rewrite !E, H. ring.
Qed.

Lemma ssd_split : forall pts c, ssd pts c ==
  Qsum (map (fun p => (fst p - fst c) * (fst p - fst c)) pts) +
  Qsum (map (fun p => (snd p - snd c) * (snd p - snd c)) pts).
Proof. intros. unfold ssd, sqd. apply Qsum_map_plus. Qed.

Lemma mean_times : forall A (f : A -> Q) l, l <> [] -> Qsum (map f l) == Qsum (map f l) / Qlen l * Qlen l.
Proof. intros. pose proof (Qlen_pos A l H). field. lra. Qed.

Lemma ssd_decomp : forall pts c, pts <> [] ->
  let m := (Qsum (map fst pts) / Qlen pts, Qsum (map snd pts) / Qlen pts) in
  ssd pts c == ssd pts m + Qlen pts * sqd m c.
Proof.
  intros pts c H m. rewrite !ssd_split.
  rewrite (sq_dev_sum pt fst pts (fst m) (fst c)) by (apply mean_times; auto).
  rewrite (sq_dev_sum pt snd pts (snd m) (snd c)) by (apply mean_times; auto).
  unfold sqd, m, pt. cbn [fst snd]. ring.
Qed.

Lemma sq_nonneg : forall x, 0 <= x * x.
Proof. intros. destruct (Qlt_le_dec x 0); nra. Qed.
Lemma sq_zero : forall x, x * x == 0 -> x == 0.
Proof. intros x H. destruct (Qmult_integral _ _ H); auto. Qed.
Lemma sqd_nonneg : forall p c, 0 <= sqd p c.
Proof.
  intros. unfold sqd. pose proof (sq_nonneg (fst p - fst c)). pose proof (sq_nonneg (snd p - snd c)). lra.
Qed.
Lemma sqd_zero : forall p c, sqd p c == 0 -> pt_same p c.
Proof.
  intros p c H. unfold sqd in H. pose proof (sq_nonneg (fst p - fst c)). pose proof (sq_nonneg (snd p - snd c)).
  assert (E1 : (fst p - fst c) * (fst p - fst c) == 0) by lra.
  assert (E2 : (snd p - snd c) * (snd p - snd c) == 0) by lra.
  apply sq_zero in E1. apply sq_zero in E2. split; lra.
Qed.

Lemma mean_between : forall A (f : A -> Q) l a b, l <> [] -> (forall x, In x l -> a <= f x <= b) ->
  a <= Qsum (map f l) / Qlen l <= b.
Proof.
  intros A f l a b N H. pose proof (Qlen_pos A l N) as P.
  assert (U : Qsum (map f l) <= b * Qlen l).
  { rewrite <- Qsum_map_const. apply Qsum_map_le. intros; apply H; auto. }
  assert (L : a * Qlen l <= Qsum (map f l)).
  { rewrite <- Qsum_map_const. apply Qsum_map_le. intros; apply H; auto. }
  split; [apply Qle_shift_div_l | apply Qle_shift_div_r]; auto.
Qed.

(** ** Weighted means *)
Lemma Qsum_ext2 : forall l l', Forall2 Qeq l l' -> Qsum l == Qsum l'.
Proof. intros l l' H. induction H; simpl; [reflexivity|]. rewrite H, IHForall2. reflexivity. Qed.

Lemma weighted_sum : forall (f : pt -> Q) weights (pts : list pt) s, ~ s == 0 ->
  Qsum (map (fun wp => fst wp * f (snd wp)) (combine (map (fun v => v / s) weights) pts)) ==
  Qsum (map (fun wp => fst wp * f (snd wp)) (combine weights pts)) / s.
Proof.
  intros f weights. induction weights as [|w ws IH]; intros [|p pts] s H; simpl; try (field; auto).
  rewrite IH by auto. field. auto.
Qed.

(** ** Counting and the median *)
Lemma count_perm : forall A (f : A -> bool) l l', Permutation l l' -> count f l = count f l'.
Proof.
  intros A f l l' H. unfold count. induction H; simpl; auto.
  - destruct (f x); simpl; lia.
  - destruct (f x), (f y); simpl; lia.
  - lia.
Qed.

Lemma insert_perm : forall x l, Permutation (x :: l) (insert x l).
Proof.
  induction l as [|y t IH]; simpl; auto. destruct (Qle_bool x y); auto.
  rewrite perm_swap. constructor. exact IH.
Qed.
Lemma qsort_perm : forall l, Permutation l (qsort l).
Proof.
  induction l as [|x l IH]; simpl; auto. rewrite <- insert_perm. constructor. exact IH.
Qed.
Lemma insert_sorted : forall x l, StronglySorted Qle l -> StronglySorted Qle (insert x l).
Proof.
  intros x l H. induction H as [|y t S IH F]; simpl; [constructor; constructor|].
  destruct (Qle_bool x y) eqn:E.
  - apply Qle_bool_iff in E. constructor. constructor; auto. constructor; auto.
    eapply Forall_impl; [|exact F]. simpl. intros. lra.
  - constructor; auto.
    assert (L : y <= x). { destruct (Qlt_le_dec y x) as [L|L]; [lra|]. apply Qle_bool_iff in L. congruence. }
    rewrite Forall_forall in *. intros z Hz. apply (Permutation_in z (Permutation_sym (insert_perm x t))) in Hz.
    destruct Hz as [-> | Hz]; auto.
Qed.
Lemma qsort_sorted : forall l, StronglySorted Qle (qsort l).
Proof. induction l; simpl; [constructor|]. apply insert_sorted; auto. Qed.

Lemma sorted_count_lt : forall s k, StronglySorted Qle s -> (k < length s)%nat ->
  (count (fun x => Qltb x (nth k s 0%Q)) s <= k)%nat.
Proof.
  unfold count. induction s as [|a s IH]; intros k H L; [simpl in L; lia|].
  inversion H as [|? ? S F]; subst. destruct k as [|k].
  - simpl nth. assert (E : filter (fun x => Qltb x a) (a :: s) = []).
    { rewrite Forall_forall in F. assert (A : forall x, In x (a :: s) -> Qltb x a = false).
      { intros x [<- | Hx]; unfold Qltb; apply negb_false_iff; apply Qle_bool_iff; [lra | auto]. }
      clear - A. induction (a :: s) as [|y l IH]; auto. simpl. rewrite A by (left; auto).
      apply IH. intros; apply A; right; auto. }
    rewrite E. simpl. lia.
  - simpl nth. simpl filter. simpl in L. specialize (IH k S ltac:(lia)).
    destruct (Qltb a (nth k s 0%Q)); simpl; lia.
Qed.
Lemma sorted_count_le : forall s k, StronglySorted Qle s -> (k < length s)%nat ->
  (k < count (fun x => Qle_bool x (nth k s 0%Q)) s)%nat.
Proof.
  unfold count. induction s as [|a s IH]; intros k H L; [simpl in L; lia|].
  inversion H as [|? ? S F]; subst. simpl in L.
  destruct k as [|k]; simpl nth; simpl filter.
  - assert (E : Qle_bool a a = true) by (apply Qle_bool_iff; lra). rewrite E. simpl. lia.
  - assert (E : Qle_bool a (nth k s 0%Q) = true).
    { apply Qle_bool_iff. rewrite Forall_forall in F. apply F. apply nth_In. lia. }
    rewrite E. simpl. specialize (IH k S ltac:(lia)). lia.
Qed.

Definition rankb (l : list Q) (k : nat) (v : Q) : Prop :=
  (count (fun x => Qltb x v) l <= k < count (fun x => Qle_bool x v) l)%nat.

Lemma Qltb_iff : forall a b, Qltb a b = true <-> a < b.
Proof.
  intros. unfold Qltb. rewrite negb_true_iff. split; intro H.
  - destruct (Qlt_le_dec a b) as [L|L]; auto. apply Qle_bool_iff in L. congruence.
  - destruct (Qle_bool b a) eqn:E; auto. apply Qle_bool_iff in E. lra.
Qed.

Lemma ranked_iff : forall l k v, ranked l k v <-> rankb l k v.
Proof.
  intros l k v.
  assert (A : Counts (fun x => x < v) l (count (fun x => Qltb x v) l)).
  { apply Counts_filter. intros. apply Qltb_iff. }
  assert (B : Counts (fun x => x <= v) l (count (fun x => Qle_bool x v) l)).
  { apply Counts_filter. intros. apply Qle_bool_iff. }
  unfold ranked, rankb. split.
  - intros (a & b & Ha & Hb & L). rewrite (Counts_unique _ _ _ _ _ A Ha), (Counts_unique _ _ _ _ _ B Hb). auto.
  - intro L. exists (count (fun x => Qltb x v) l), (count (fun x => Qle_bool x v) l). auto.
Qed.

Lemma count_mono : forall A (f g : A -> bool) l, (forall x, In x l -> f x = true -> g x = true) ->
  (count f l <= count g l)%nat.
Proof.
  intros A f g l. unfold count. induction l as [|a l IH]; simpl; intros H; auto.
  specialize (IH ltac:(intros; apply H; auto)). pose proof (H a (or_introl eq_refl)) as Ha.
  destruct (f a); [rewrite Ha by auto|destruct (g a)]; simpl; lia.
Qed.

Lemma rank_mono : forall l j k v w, rankb l j v -> rankb l k w -> (j <= k)%nat -> v <= w.
Proof.
  unfold rankb. intros l j k v w [H1 H2] [H3 H4] L. destruct (Qlt_le_dec w v) as [X|X]; auto.
  exfalso. assert (count (fun x => Qle_bool x w) l <= count (fun x => Qltb x v) l)%nat.
  { apply count_mono. intros x _ E. apply Qle_bool_iff in E. apply Qltb_iff. lra. }
  lia.
Qed.

Lemma qsort_rank : forall l k, (k < length l)%nat -> rankb l k (nth k (qsort l) 0).
Proof.
  intros l k L. unfold rankb.
  rewrite (count_perm _ _ _ _ (qsort_perm l)), (count_perm _ (fun x => Qle_bool x _) _ _ (qsort_perm l)).
  rewrite (Permutation_length (qsort_perm l)) in L.
  split; [apply sorted_count_lt | apply sorted_count_le]; auto; apply qsort_sorted.
Qed.

Lemma np_median_is_median : forall l, l <> [] -> exists m, np_median l = Fin m /\ is_median l m.
Proof.
  intros l H. unfold np_median, is_median.
  destruct (length l) as [|n0] eqn:El; [destruct l; simpl in *; congruence|].
  rewrite <- El. set (n := length l) in *. assert (n > 0)%nat by lia.
  destruct (Nat.even n) eqn:E.
  - apply Nat.even_spec in E. eexists. split; [reflexivity|]. right. split; auto.
    assert (n / 2 < n)%nat by (apply Nat.div_lt; lia).
    assert (1 <= n / 2)%nat by (destruct E as [k Ek]; rewrite Ek, Nat.mul_comm, Nat.div_mul; lia).
    exists (nth (n / 2 - 1) (qsort l) 0), (nth (n / 2) (qsort l) 0).
    split; [apply ranked_iff; apply qsort_rank; fold n; lia|].
    split; [apply ranked_iff; apply qsort_rank; fold n; lia|].
    unfold Qmean, Qsum, Qlen. simpl. unfold inject_Z. field.
  - assert (O : Nat.odd n = true) by (rewrite <- Nat.negb_even, E; reflexivity).
    apply Nat.odd_spec in O. eexists. split; [reflexivity|]. left. split; auto.
    apply ranked_iff, qsort_rank. fold n. apply Nat.div_lt; lia.
Qed.

Lemma is_median_unique : forall l l' m m', Permutation l l' -> is_median l m -> is_median l' m' -> m == m'.
Proof.
  intros l l' m m' P H H'. unfold is_median in *. rewrite <- (Permutation_length P) in H'.
  assert (R : forall k v, ranked l' k v -> rankb l k v).
  { intros k v X. apply ranked_iff in X. unfold rankb in *.
    rewrite (count_perm _ _ _ _ P), (count_perm _ (fun x => Qle_bool x _) _ _ P). exact X. }
  assert (U : forall k v w, rankb l k v -> rankb l k w -> v == w).
  { intros k v w X Y. apply Qle_antisym; [apply (rank_mono l k k v w)|apply (rank_mono l k k w v)]; auto. }
  destruct H as [[O H]|[E (a & b & Ha & Hb & Em)]]; destruct H' as [[O' H']|[E' (a' & b' & Ha' & Hb' & Em')]].
  - apply (U (length l / 2)%nat); [apply ranked_iff; auto | apply R; auto].
  - exfalso. apply (Nat.Even_Odd_False _ E' O).
  - exfalso. apply (Nat.Even_Odd_False _ E O').
  - rewrite Em, Em'. rewrite (U _ _ _ (proj1 (ranked_iff _ _ _) Ha) (R _ _ Ha')).
    rewrite (U _ _ _ (proj1 (ranked_iff _ _ _) Hb) (R _ _ Hb')). reflexivity.
Qed.

Lemma count_split : forall A (f : A -> bool) l, (count f l + count (fun x => negb (f x)) l = length l)%nat.
Proof.
  intros A f l. unfold count. induction l as [|a l IH]; simpl; auto. destruct (f a); simpl; lia.
Qed.

(** Moving away from a point with at least half of the list on the other side
    does not shorten the total distance. *)
Lemma dev_bound : forall l m c (f : Q -> bool),
  (forall x, In x l -> if f x then Qabs (x - m) + Qabs (c - m) <= Qabs (x - c)
                       else Qabs (x - m) - Qabs (c - m) <= Qabs (x - c)) ->
  Qsum (map (fun x => Qabs (x - m)) l) +
  (inject_Z (Z.of_nat (count f l)) - inject_Z (Z.of_nat (count (fun x => negb (f x)) l))) * Qabs (c - m) <=
  Qsum (map (fun x => Qabs (x - c)) l).
Proof.
  intros l m c f. unfold count. induction l as [|a l IH]; intro H.
  - simpl. change (inject_Z 0) with 0. lra.
  - cbn [map filter]. pose proof (H a (or_introl eq_refl)) as Ha.
    specialize (IH ltac:(intros; apply H; right; auto)). 
    destruct (f a); cbn [negb length]; rewrite ?Nat2Z.inj_succ; unfold Z.succ;
      rewrite ?inject_Z_plus; change (inject_Z 1) with 1; unfold Qsum in *; cbn [fold_right]; lra.
Qed.

Ltac qabs e := let H := fresh in
  destruct (Qlt_le_dec e 0) as [H|H];
  [pose proof (Qabs_neg e (Qlt_le_weak _ _ H)) | pose proof (Qabs_pos e H)].
Lemma dev_right : forall x m c, m <= c ->
  if Qle_bool x m then Qabs (x - m) + Qabs (c - m) <= Qabs (x - c)
  else Qabs (x - m) - Qabs (c - m) <= Qabs (x - c).
Proof.
  intros x m c H. destruct (Qle_bool x m) eqn:E.
  - apply Qle_bool_iff in E. qabs (x - m); qabs (c - m); qabs (x - c); lra.
  - assert (~ x <= m) by (intro X; apply Qle_bool_iff in X; congruence).
    qabs (x - m); qabs (c - m); qabs (x - c); lra.
Qed.
Lemma dev_left : forall x m c, c < m ->
  if negb (Qltb x m) then Qabs (x - m) + Qabs (c - m) <= Qabs (x - c)
  else Qabs (x - m) - Qabs (c - m) <= Qabs (x - c).
Proof.
  intros x m c H. destruct (Qltb x m) eqn:E; cbn [negb].
  - apply Qltb_iff in E. qabs (x - m); qabs (c - m); qabs (x - c); lra.
  - assert (~ x < m) by (intro X; apply Qltb_iff in X; congruence).
    qabs (x - m); qabs (c - m); qabs (x - c); lra.
Qed.
Lemma median_minimises : forall l m c, is_median l m ->
  Qsum (map (fun x => Qabs (x - m)) l) <= Qsum (map (fun x => Qabs (x - c)) l).
Proof.
  intros l m c H.
  assert (B : (2 * count (fun x => Qltb x m) l <= length l /\
               2 * count (fun x => negb (Qle_bool x m)) l <= length l)%nat).
  { pose proof (count_split _ (fun x => Qle_bool x m) l) as S.
    destruct H as [[O R]|[E (a & b & Ra & Rb & Em)]].
    - apply ranked_iff in R. destruct R as [R1 R2]. destruct O as [k Ek].
      assert (length l / 2 = k)%nat.
      { rewrite Ek, Nat.add_comm, Nat.mul_comm, Nat.div_add by lia. reflexivity. }
      lia.
    - apply ranked_iff in Ra. apply ranked_iff in Rb.
      assert (AB : a <= b) by (apply (rank_mono l _ _ a b Ra Rb); lia).
      assert (M2 : 2 * m == a + b) by (rewrite Em; field).
      destruct Ra as [A1 A2], Rb as [B1 B2]. destruct E as [k Ek].
      assert (length l / 2 = k)%nat by (rewrite Ek, Nat.mul_comm, Nat.div_mul by lia; reflexivity).
      assert (count (fun x => Qltb x m) l <= count (fun x => Qltb x b) l)%nat.
      { apply count_mono. intros x _ X. apply Qltb_iff in X. apply Qltb_iff. lra. }
      assert (count (fun x => Qle_bool x a) l <= count (fun x => Qle_bool x m) l)%nat.
      { apply count_mono. intros x _ X. apply Qle_bool_iff in X. apply Qle_bool_iff. lra. }
      destruct k; [|lia]. destruct l; simpl in *; [lia|lia]. }
  destruct B as [B1 B2].
  destruct (Qlt_le_dec c m) as [L|L].
  - pose proof (dev_bound l m c (fun x => negb (Qltb x m)) (fun x _ => dev_left x m c L)) as D.
    pose proof (count_split _ (fun x => negb (Qltb x m)) l) as S.
    assert (N : count (fun x => negb (negb (Qltb x m))) l = count (fun x => Qltb x m) l).
    { unfold count. f_equal. apply filter_ext. intros. apply negb_involutive. }
    cbv beta in D, S. rewrite N in D, S. set (u := count (fun x => negb (Qltb x m)) l) in *. set (v := count (fun x => Qltb x m) l) in *.
    assert (0 <= inject_Z (Z.of_nat u) - inject_Z (Z.of_nat v)).
    { assert (inject_Z (Z.of_nat v) <= inject_Z (Z.of_nat u)) by (rewrite <- Zle_Qle; lia). lra. }
    pose proof (Qabs_nonneg (c - m)). nra.
  - pose proof (dev_bound l m c (fun x => Qle_bool x m) (fun x _ => dev_right x m c L)) as D.
    pose proof (count_split _ (fun x => Qle_bool x m) l) as S.
    set (u := count (fun x => Qle_bool x m) l) in *. set (v := count (fun x => negb (Qle_bool x m)) l) in *.
    assert (0 <= inject_Z (Z.of_nat u) - inject_Z (Z.of_nat v)).
    { assert (inject_Z (Z.of_nat v) <= inject_Z (Z.of_nat u)) by (rewrite <- Zle_Qle; lia). lra. }
    pose proof (Qabs_nonneg (c - m)). nra.
Qed.

Lemma scity_split : forall pts c, scity pts c ==
  Qsum (map (fun x => Qabs (x - fst c)) (map fst pts)) + Qsum (map (fun x => Qabs (x - snd c)) (map snd pts)).
Proof. intros. unfold scity, cityblock. rewrite Qsum_map_plus, !map_map. reflexivity. Qed.

Lemma mul_nonneg : forall a b, 0 <= a -> 0 <= b -> 0 <= a * b.
Proof. intros. apply Qmult_le_0_compat; auto. Qed.
Lemma pos_mul_zero : forall a b, 0 < a -> 0 <= b -> a * b <= 0 -> b == 0.
Proof.
  intros a b A B H. destruct (Qlt_le_dec 0 b) as [L|L]; [|lra].
  assert (0 < a * b) by (apply Qmult_lt_0_compat; auto). lra.
Qed.
Lemma mean_shift : forall A (f : A -> Q) l c, l <> [] ->
  Qsum (map (fun x => f x + c) l) / Qlen l == Qsum (map f l) / Qlen l + c.
Proof.
  intros A f l c N. pose proof (Qlen_pos A l N). rewrite (Qsum_map_plus A f (fun _ => c)), Qsum_map_const.
  field. lra.
Qed.
Lemma mean_scale : forall A (f : A -> Q) l c, l <> [] ->
  Qsum (map (fun x => c * f x) l) / Qlen l == c * (Qsum (map f l) / Qlen l).
Proof. intros A f l c N. pose proof (Qlen_pos A l N). rewrite Qsum_map_scale. field. lra. Qed.
