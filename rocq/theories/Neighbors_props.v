(** Properties C93 and C94: nearest-neighbour summaries, find_pairs, knn_other. *)
From Coq Require Import ZArith QArith Qreals Reals List Bool Arith Lia Lra.
From Verif Require Import Base Pattern_model Pattern_spec CenterR_model CenterR_spec CenterR_proofs Neighbors_model.
Import ListNotations.
Local Open Scope R_scope.

(** Distance of points number i and j. *)
Definition pdist (pts : list pt) (i j : nat) : R := sqrt (Q2R (sqd pts i j)).

Lemma sq_nonneg : forall x : Q, (0 <= x * x)%Q.
Proof. intros [n d]; unfold Qle; simpl; nia. Qed.
Lemma sq_zero : forall x : Q, (x * x <= 0)%Q -> (x == 0)%Q.
Proof. intros [n d]; unfold Qle, Qeq; simpl; nia. Qed.
Lemma sub_zero : forall x y : Q, (x - y == 0)%Q -> (x == y)%Q.
Proof. intros x y H. apply (Qplus_inj_r _ _ (- y)%Q). rewrite Qplus_opp_r. exact H. Qed.
Lemma sum_sq_zero : forall x y z w : Q, ((x - y) * (x - y) + (z - w) * (z - w) == 0)%Q -> (x == y)%Q /\ (z == w)%Q.
Proof.
  intros x y z w H. pose proof (sq_nonneg (x - y)) as A. pose proof (sq_nonneg (z - w)) as B.
  split; apply sub_zero, sq_zero; rewrite <- H.
  - rewrite <- (Qplus_0_r ((x - y) * (x - y))) at 1. apply Qplus_le_compat; auto. apply Qle_refl.
  - rewrite <- (Qplus_0_l ((z - w) * (z - w))) at 1. apply Qplus_le_compat; auto. apply Qle_refl.
Qed.

Lemma sqd_nonneg : forall pts i j, (0 <= sqd pts i j)%Q.
Proof.
  intros. unfold sqd. set (a := (fst _ - fst _)%Q). set (b := (snd _ - snd _)%Q).
  rewrite <- (Qplus_0_l 0). apply Qplus_le_compat; apply sq_nonneg.
Qed.
Lemma sqd_self : forall pts i, (sqd pts i i == 0)%Q.
Proof. intros. unfold sqd. ring. Qed.
Lemma sqd_sym : forall pts i j, (sqd pts i j == sqd pts j i)%Q.
Proof. intros. unfold sqd. ring. Qed.
Lemma sqrt_mono : forall a b : Q, (0 <= a)%Q -> (a <= b)%Q -> sqrt (Q2R a) <= sqrt (Q2R b).
Proof.
  intros a b A L. apply Qle_Rle in L. apply Qle_Rle in A. replace (Q2R 0) with 0 in A by (unfold Q2R; simpl; field).
  apply sqrt_le_1; lra.
Qed.
Lemma pdist_nonneg : forall pts i j, 0 <= pdist pts i j.
Proof. intros. apply sqrt_pos. Qed.
Lemma pdist_sym : forall pts i j, pdist pts i j = pdist pts j i.
Proof. intros. unfold pdist. rewrite (Qeq_eqR _ _ (sqd_sym pts i j)). reflexivity. Qed.
Lemma pdist_zero : forall pts i j, pdist pts i j = 0 <-> coincide (nth i pts (0, 0)%Q) (nth j pts (0, 0)%Q).
Proof.
  intros pts i j. unfold pdist. split; intro H.
  - apply sqrt_eq_0 in H.
    2:{ pose proof (Qle_Rle _ _ (sqd_nonneg pts i j)) as L. replace (Q2R 0) with 0 in L by (unfold Q2R; simpl; field). exact L. }
    assert (E : (sqd pts i j == 0)%Q). { apply eqR_Qeq. rewrite H. unfold Q2R; simpl; field. }
    unfold sqd in E. unfold coincide. apply sum_sq_zero. exact E.
  - destruct H as [A B]. assert (E : (sqd pts i j == 0)%Q) by (unfold sqd; rewrite A, B; ring).
    rewrite (Qeq_eqR _ _ E). replace (Q2R 0) with 0 by (unfold Q2R; simpl; field). apply sqrt_0.
Qed.

(** The distance to the nearest other point. *)
Definition nearest_dist (pts : list pt) (i : nat) (d : R) : Prop :=
  (exists j, (j < List.length pts)%nat /\ j <> i /\ d = pdist pts i j) /\
  forall j, (j < List.length pts)%nat -> j <> i -> d <= pdist pts i j.

(** The second of the two nearest points has that distance, even if the first is
    not the point itself. *)
Lemma second_nearest : forall pts q i a b, nearest (List.length pts) 2 (sqd pts i) [a; b] ->
  (i < List.length pts)%nat -> (q == sqd pts i b)%Q -> nearest_dist pts i (sqrt (Q2R q)).
Proof.
  intros pts q i a b (_ & N & I & S & F) Hi Hq.
  rewrite (Qeq_eqR _ _ Hq). fold (pdist pts i b).
  assert (AB : a <> b). { inversion N; subst. simpl in H1. intuition. }
  assert (Ia : (a < List.length pts)%nat) by (apply I; left; auto).
  assert (Ib : (b < List.length pts)%nat) by (apply I; right; left; auto).
  assert (LAB : (sqd pts i a <= sqd pts i b)%Q) by (apply (S 0%nat 1%nat); simpl; lia).
  assert (P0 : forall j, (sqd pts i j <= 0)%Q -> forall l, pdist pts i j <= pdist pts i l).
  { intros j Z l. apply sqrt_mono; [apply sqd_nonneg|]. eapply Qle_trans; [exact Z | apply sqd_nonneg]. }
  destruct (Nat.eq_dec b i) as [->|NB].
  - assert (Za : (sqd pts i a <= 0)%Q) by (rewrite <- (sqd_self pts i); auto).
    split.
    + exists a. split; auto. split; auto. apply Rle_antisym; [apply P0; rewrite sqd_self; apply Qle_refl | apply P0; auto].
    + intros j _ _. apply P0. rewrite sqd_self. apply Qle_refl.
  - split; [exists b; auto|]. intros j Hj Nj. 
    destruct (Nat.eq_dec j b) as [->|JB]; [lra|]. destruct (Nat.eq_dec j a) as [->|JA].
    + apply P0. rewrite <- (sqd_self pts i). apply F; [right; left; auto | auto | simpl; intuition].
    + apply sqrt_mono; [apply sqd_nonneg|]. apply F; [right; left; auto | auto | simpl; intuition].
Qed.

(** The array of nearest-neighbour distances. *)
Theorem C93_nnd : forall pts query, correct_tree pts query -> (2 <= List.length pts)%nat ->
  exists ds, nnd query (List.length pts) = Ok (map (fun d => [RFin d]) ds) /\ List.length ds = List.length pts /\
    forall i, (i < List.length pts)%nat -> nearest_dist pts i (nth i ds 0).
Proof.
  intros pts query T N. set (n := List.length pts) in *.
  assert (E : forall i, (i < n)%nat -> exists d, map fst (skipn 1 (padded (fun m => query m i) n 2)) = [RFin d] /\ nearest_dist pts i d).
  { intros i Hi. unfold padded. replace (Nat.min 2 n) with 2%nat by lia. replace (2 - n)%nat with 0%nat by lia. cbn [repeat]. rewrite app_nil_r.
    destruct (T 2%nat i ltac:(lia) Hi) as [T1 T2].
    destruct (query 2%nat i) as [|[d0 j0] [|[d1 j1] [|x r]]] eqn:Q; try (destruct T1 as (L & _); discriminate).
    cbn [map fst snd skipn]. exists (sqrt (Q2R d1)). split; [reflexivity|].
    apply (second_nearest pts d1 i j0 j1); auto. apply T2. right; left; reflexivity. }
  unfold nnd, knn_any. change (1 <? 1)%Z with false. cbn [bind]. rewrite map_map. change (Z.to_nat 1 + 1)%nat with 2%nat.
  assert (G : forall l, (forall i, In i l -> (i < n)%nat) ->
    exists ds, map (fun i => map fst (skipn 1 (padded (fun m => query m i) n 2))) l = map (fun d => [RFin d]) ds /\
      List.length ds = List.length l /\ forall k, (k < List.length l)%nat -> nearest_dist pts (nth k l 0%nat) (nth k ds 0)).
  { induction l as [|i l IH]; intro H.
    - exists []. split; [reflexivity|]. split; [reflexivity|]. simpl. intros; lia.
    - destruct (E i (H i (or_introl eq_refl))) as (d & D1 & D2). destruct IH as (ds & A & B & C); [intros; apply H; right; auto|].
      exists (d :: ds). cbn [map]. rewrite D1, A. split; [reflexivity|]. split; [simpl; lia|].
      intros [|k] K; cbn [nth]; auto. apply C. simpl in K. lia. }
  destruct (G (seq 0 n)) as (ds & A & B & C); [intros i H; apply in_seq in H; lia|].
  rewrite seq_length in B, C. exists ds. split; [f_equal; exact A|]. split; [exact B|].
  intros i Hi. specialize (C i Hi). rewrite seq_nth in C by auto. exact C.
Qed.
Print Assumptions C93_nnd.

Lemma concat_singletons : forall ds : list R, concat (map (fun d => [RFin d]) ds) = map RFin ds.
Proof. induction ds; simpl; congruence. Qed.
Lemma min_fin : forall l x, exists m, fold_right xr_min (RFin x) (map RFin l) = RFin m /\ In m (x :: l) /\ forall y, In y (x :: l) -> m <= y.
Proof.
  induction l as [|a l IH]; intro x; cbn [map fold_right].
  - exists x. split; auto. split; [left; auto|]. intros y [->|[]]; lra.
  - destruct (IH x) as (m & -> & I & L). cbn [xr_min]. exists (Rmin a m). split; auto. split.
    + unfold Rmin. destruct (Rle_dec a m); [right; left; auto|]. destruct I as [I|I]; [left|right; right]; auto.
    + intros y [<-|[<-|H]].
      * eapply Rle_trans; [apply Rmin_r|]. apply L. left; auto.
      * apply Rmin_l.
      * eapply Rle_trans; [apply Rmin_r|]. apply L. right; auto.
Qed.
Lemma max_fin : forall l x, exists m, fold_right xr_max (RFin x) (map RFin l) = RFin m /\ In m (x :: l) /\ forall y, In y (x :: l) -> y <= m.
Proof.
  induction l as [|a l IH]; intro x; cbn [map fold_right].
  - exists x. split; auto. split; [left; auto|]. intros y [->|[]]; lra.
  - destruct (IH x) as (m & -> & I & L). cbn [xr_max]. exists (Rmax a m). split; auto. split.
    + unfold Rmax. destruct (Rle_dec a m); [|right; left; auto]. destruct I as [I|I]; [left|right; right]; auto.
    + intros y [<-|[<-|H]].
      * eapply Rle_trans; [|apply Rmax_r]. apply L. left; auto.
      * apply Rmax_l.
      * eapply Rle_trans; [|apply Rmax_r]. apply L. right; auto.
Qed.
Lemma sum_fin : forall l, fold_right xr_plus (RFin 0) (map RFin l) = RFin (Rsum l).
Proof. induction l as [|a l IH]; cbn [map fold_right]; [reflexivity|]. rewrite IH. reflexivity. Qed.

(** The summaries: min_nnd is the distance of a closest pair of points, max_nnd the
    distance to its nearest neighbour of the most isolated point, and mean_nnd lies
    between them; min_nnd is zero exactly when two points coincide. *)
Theorem C93_summaries : forall pts query, correct_tree pts query -> (2 <= List.length pts)%nat ->
  exists ds mn mx,
    nnd query (List.length pts) = Ok (map (fun d => [RFin d]) ds) /\
    min_nnd query (List.length pts) = Ok (RFin mn) /\ max_nnd query (List.length pts) = Ok (RFin mx) /\
    mean_nnd query (List.length pts) = Ok (RFin (mean_of (fun d => d) ds)) /\
    (exists i j, (i < j < List.length pts)%nat /\ mn = pdist pts i j) /\
    (forall i j, (i < List.length pts)%nat -> (j < List.length pts)%nat -> i <> j -> mn <= pdist pts i j) /\
    (exists i, (i < List.length pts)%nat /\ nearest_dist pts i mx) /\
    (forall i d, (i < List.length pts)%nat -> nearest_dist pts i d -> d <= mx) /\
    mn <= mean_of (fun d => d) ds <= mx /\
    (mn = 0 <-> ~ no_coincident pts).
Proof.
  intros pts query T N. destruct (C93_nnd pts query T N) as (ds & E & L & D). set (n := List.length pts) in *.
  unfold min_nnd, max_nnd, mean_nnd. rewrite E. cbn [bind]. rewrite concat_singletons.
  destruct ds as [|x ds]; [simpl in L; lia|].
  destruct (min_fin ds x) as (mn & Emn & Imn & Lmn). destruct (max_fin ds x) as (mx & Emx & Imx & Lmx).
  exists (x :: ds), mn, mx. split; [reflexivity|].
  assert (UN : forall i d d', nearest_dist pts i d -> nearest_dist pts i d' -> d = d').
  { intros i d d' [(j & J1 & J2 & ->) A] [(j' & J1' & J2' & ->) A']. apply Rle_antisym; auto. }
  cbn [map]. rewrite Emn, Emx. split; [reflexivity|]. split; [reflexivity|]. split.
  { change (RFin x :: map RFin ds) with (map RFin (x :: ds)). rewrite sum_fin, map_length. unfold mean_of. rewrite map_id. reflexivity. }
  assert (ALL : forall i j, (i < n)%nat -> (j < n)%nat -> i <> j -> mn <= pdist pts i j).
  { intros i j Hi Hj Nij. destruct (D i Hi) as [_ A]. specialize (A j Hj ltac:(auto)).
    eapply Rle_trans; [|exact A]. apply Lmn. apply nth_In. lia. }
  assert (EX : exists i j, (i < j < n)%nat /\ mn = pdist pts i j).
  { destruct (In_nth _ _ 0 Imn) as (i & Hi & <-). rewrite L in Hi. destruct (D i Hi) as [(j & Hj & Nij & ->) _].
    destruct (Nat.lt_ge_cases i j); [exists i, j; auto|]. exists j, i. split; [lia|]. apply pdist_sym. }
  split; [exact EX|]. split; [exact ALL|]. split.
  { destruct (In_nth _ _ 0 Imx) as (i & Hi & <-). rewrite L in Hi. exists i. split; auto. }
  split.
  { intros i d Hi Hd. rewrite (UN i d _ Hd (D i Hi)). apply Lmx, nth_In. lia. }
  split.
  { assert (NE : x :: ds <> []) by discriminate. pose proof (INR_len_pos _ _ NE) as P. unfold mean_of.
    assert (A : mn * INR (List.length (x :: ds)) <= Rsum (map (fun d => d) (x :: ds))).
    { rewrite <- (Rsum_const R mn (x :: ds)). apply Rsum_le. intros. apply Lmn; auto. }
    assert (B : Rsum (map (fun d => d) (x :: ds)) <= mx * INR (List.length (x :: ds))).
    { rewrite <- (Rsum_const R mx (x :: ds)). apply Rsum_le. intros. apply Lmx; auto. }
    split; apply (Rmult_le_reg_r (INR (List.length (x :: ds)))); auto;
      unfold Rdiv; rewrite Rmult_assoc, Rinv_l, Rmult_1_r by lra; auto. }
  split.
  - intros Z NC. destruct EX as (i & j & Hij & E2). rewrite Z in E2. symmetry in E2. apply pdist_zero in E2. apply (NC i j Hij E2).
  - intro NC. apply Rle_antisym; [|destruct EX as (i & j & _ & ->); apply pdist_nonneg].
    destruct (Rle_or_lt mn 0) as [|G]; auto. exfalso. apply NC. intros i j Hij C. apply pdist_zero in C.
    specialize (ALL i j ltac:(lia) ltac:(lia) ltac:(lia)). lra.
Qed.
Print Assumptions C93_summaries.

(** A single point: every summary is infinite. *)
Theorem C93_single : forall query, (forall i, query 1%nat i = [(0%Q, 0%nat)]) ->
  nnd query 1 = Ok [[RInf]] /\ min_nnd query 1 = Ok RInf /\ max_nnd query 1 = Ok RInf /\ mean_nnd query 1 = Ok RInf.
Proof.
  intros query H. assert (E : nnd query 1 = Ok [[RInf]]).
  { unfold nnd, knn_any, padded. change (1 <? 1)%Z with false. cbn [bind seq map]. change (Z.to_nat 1 + 1)%nat with 2%nat.
    cbn [Nat.min Nat.sub]. rewrite H. reflexivity. }
  unfold min_nnd, max_nnd, mean_nnd. rewrite E. cbn. auto.
Qed.
Print Assumptions C93_single.

(** No point: minimum and maximum do not exist, the mean is NaN. *)
Theorem C93_empty : forall query,
  nnd query 0 = Ok [] /\ min_nnd query 0 = Raise ValueError /\ max_nnd query 0 = Raise ValueError /\ mean_nnd query 0 = Ok RNan.
Proof. repeat split. Qed.
Print Assumptions C93_empty.

(** ** find_pairs *)
(** What is assumed of [KDTree.query_pairs]. *)
Definition correct_pairs (pts : list pt) (query_pairs : R -> list (nat * nat)) : Prop :=
  forall r, NoDup (query_pairs r) /\
    forall i j, In (i, j) (query_pairs r) <-> (i < j < List.length pts)%nat /\ pdist pts i j <= r.

(** find_pairs(r) is empty exactly for r below min_nnd, has every pair for r large
    enough, and grows with r. *)
Theorem C93_find_pairs : forall pts query qp mn, correct_tree pts query -> correct_pairs pts qp ->
  (2 <= List.length pts)%nat -> min_nnd query (List.length pts) = Ok (RFin mn) ->
  (forall r, find_pairs qp r = [] <-> r < mn) /\
  (forall r r' ij, r <= r' -> In ij (find_pairs qp r) -> In ij (find_pairs qp r')) /\
  (forall i j, In (i, j) (find_pairs qp mn) <-> (i < j < List.length pts)%nat /\ pdist pts i j = mn).
Proof.
  intros pts query qp mn T P N M.
  destruct (C93_summaries pts query T N) as (ds & mn' & mx & _ & M' & _ & _ & EX & ALL & _).
  rewrite M in M'. injection M' as <-. unfold find_pairs. split; [|split].
  - intro r. destruct (P r) as [_ I]. split; intro H.
    + destruct (Rlt_or_le r mn) as [|G]; auto. exfalso. destruct EX as (i & j & Hij & E).
      assert (X : In (i, j) (qp r)) by (apply I; split; auto; rewrite <- E; lra). rewrite H in X. destruct X.
    + destruct (qp r) as [|[i j] l]; auto. exfalso. destruct (I i j) as [X _]. destruct X as [Hij D]; [left; auto|].
      specialize (ALL i j ltac:(lia) ltac:(lia) ltac:(lia)). lra.
  - intros r r' [i j] L H. destruct (P r) as [_ I]. destruct (P r') as [_ I']. apply I'. apply I in H. destruct H; split; auto; lra.
  - intros i j. destruct (P mn) as [_ I]. rewrite I. split; intros [H D]; split; auto; [|lra].
    apply Rle_antisym; auto. apply ALL; lia.
Qed.
Print Assumptions C93_find_pairs.

(** ** knn_other *)
(** Squared distance of point j of the pattern to a point. *)
Definition sq_to (pts : list pt) (p : pt) (j : nat) : Q :=
  let b := nth j pts (0, 0)%Q in
  ((fst p - fst b) * (fst p - fst b) + (snd p - snd b) * (snd p - snd b))%Q.
Definition correct_other (pts : list pt) (query : pt -> nat -> list (Q * nat)) : Prop :=
  forall p m, (m <= List.length pts)%nat ->
    nearest (List.length pts) m (sq_to pts p) (map snd (query p m)) /\
    forall d j, In (d, j) (query p m) -> (d == sq_to pts p j)%Q.

(** The row of one point of [other]: the [min k n] nearest points of the pattern
    with their distances, and [k - n] fillers. *)
Definition good_row (pts : list pt) (k : nat) (p : pt) (row : list (xr * nat)) : Prop :=
  exists ids, nearest (List.length pts) (Nat.min k (List.length pts)) (sq_to pts p) ids /\
    row = map (fun j => (RFin (sqrt (Q2R (sq_to pts p j))), j)) ids ++ repeat (RInf, List.length pts) (k - List.length pts).

Lemma padded_good : forall pts query p k, correct_other pts query -> good_row pts k p (padded (query p) (List.length pts) k).
Proof.
  intros pts query p k C. destruct (C p (Nat.min k (List.length pts)) ltac:(lia)) as [C1 C2].
  exists (map snd (query p (Nat.min k (List.length pts)))). split; [exact C1|]. unfold padded. f_equal.
  rewrite map_map. apply map_ext_in. intros [d j] H. cbn [fst snd]. rewrite (Qeq_eqR _ _ (C2 d j H)). reflexivity.
Qed.

Theorem C94_knn_other : forall pts query other k, correct_other pts query ->
  (knn_other query (List.length pts) other k = Raise ValueError <-> (k < 1)%Z) /\
  (knn_other query (List.length pts) other k = Raise AttributeError <-> (1 <= k)%Z /\ exists l, other = OElse l) /\
  forall l, other = OPattern l \/ other = OList l ->
    (k = 1%Z -> exists flat, knn_other query (List.length pts) other k = Ok (Flat flat) /\
       Forall2 (fun p e => good_row pts 1 p [e]) l flat) /\
    ((2 <= k)%Z -> exists rows, knn_other query (List.length pts) other k = Ok (Rows rows) /\
       Forall2 (good_row pts (Z.to_nat k)) l rows).
Proof.
  intros pts query other k C. unfold knn_other. destruct (Z.ltb_spec k 1) as [K|K].
  { split; [split; auto|]. split; [split; [discriminate|intros [? _]; lia]|]. intros l _. split; intro; lia. }
  split; [destruct other; split; try discriminate; intro; lia|].
  split.
  { destruct other as [l|l|l]; split; try discriminate; try (intros [_ [l' X]]; discriminate). 
    - intros _. split; auto. exists l. reflexivity. - reflexivity. }
  intros l H.
  assert (E : (match other with OPattern p => Ok (tree_answer query (List.length pts) p k) | OList p => Ok (tree_answer query (List.length pts) p k) | OElse _ => Raise AttributeError end)
     = Ok (tree_answer query (List.length pts) l k)) by (destruct H as [-> | ->]; reflexivity).
  rewrite E. unfold tree_answer. split; intro K1.
  - subst k. change (1 =? 1)%Z with true. cbv iota. eexists. split; [reflexivity|]. change (Z.to_nat 1) with 1%nat.
    clear - C. induction l as [|p l IH]; cbn [map concat]; [constructor|].
    pose proof (padded_good pts query p 1 C) as G.
    assert (L : exists e, padded (query p) (List.length pts) 1 = [e]).
    { assert (LL : List.length (padded (query p) (List.length pts) 1) = 1%nat).
      { unfold padded. rewrite app_length, map_length, repeat_length.
        destruct (C p (Nat.min 1 (List.length pts)) ltac:(lia)) as [[X _] _]. rewrite map_length in X. lia. }
      destruct (padded (query p) (List.length pts) 1) as [|e [|f r]]; try discriminate. exists e. reflexivity. }
    destruct L as [e L]. rewrite L in *. cbn [app]. constructor; auto.
  - destruct (Z.eqb_spec k 1); [lia|]. eexists. split; [reflexivity|].
    clear - C. induction l as [|p l IH]; cbn [map]; constructor; auto. apply padded_good; auto.
Qed.
Print Assumptions C94_knn_other.

(** A point of the pattern is its own nearest neighbour: the distance in the first
    column is zero. *)
Theorem C94_self : forall pts k p row, (1 <= k)%nat -> (1 <= List.length pts)%nat ->
  (exists q, In q pts /\ coincide p q) -> good_row pts k p row -> exists j t, row = (RFin 0, j) :: t /\ coincide p (nth j pts (0, 0)%Q).
Proof.
  intros pts k p row K N (q & Hq & CO) (ids & NE & ->).
  destruct NE as (L & ND & I & S & F).
  destruct ids as [|j ids]; [simpl in L; lia|]. cbn [map app].
  assert (Z : (sq_to pts p j == 0)%Q).
  { destruct (In_nth _ _ (0, 0)%Q Hq) as (i & Hi & Ei).
    assert (Zi : (sq_to pts p i == 0)%Q) by (unfold sq_to; cbv zeta; replace (nth i pts (0, 0)%Q) with q by (symmetry; exact Ei); destruct CO as [-> ->]; ring).
    apply Qle_antisym.
    - rewrite <- Zi. destruct (in_dec Nat.eq_dec i (j :: ids)) as [X|X].
      + destruct (In_nth _ _ 0%nat X) as (m & Hm & <-). destruct m as [|m]; [apply Qle_refl|]. apply (S 0%nat (Datatypes.S m)). simpl in *. lia.
      + apply F; auto. left; auto.
    - unfold sq_to. cbv zeta. apply (Qle_trans _ (0 + 0)); [discriminate|]. apply Qplus_le_compat; apply sq_nonneg. }
  exists j. eexists. split.
  - rewrite (Qeq_eqR _ _ Z). replace (Q2R 0) with 0 by (unfold Q2R; simpl; field). rewrite sqrt_0. reflexivity.
  - unfold coincide. apply sum_sq_zero. exact Z.
Qed.
Print Assumptions C94_self.

(** Cases: two coincident points and a third one at distance 5; the tree lists the
    second of the twins first.  *)
Definition twins : list pt := [(0, 0); (0, 0); (3, 4)]%Q.
Definition twin_query (m i : nat) : list (Q * nat) :=
  firstn m (match i with
            | 0%nat => [(0, 1%nat); (0, 0%nat); (25, 2%nat)]
            | 1%nat => [(0, 1%nat); (0, 0%nat); (25, 2%nat)]
            | _ => [(0, 2%nat); (25, 1%nat); (25, 0%nat)]
            end%Q).
Lemma sqrt_25 : sqrt (Q2R 25) = 5.
Proof. replace (Q2R 25) with (5 * 5) by (unfold Q2R; simpl; lra). apply sqrt_square. lra. Qed.
Lemma sqrt_Q0 : sqrt (Q2R 0) = 0.
Proof. replace (Q2R 0) with 0 by (unfold Q2R; simpl; lra). apply sqrt_0. Qed.
Example C93_case : nnd twin_query 3 = Ok [[RFin 0]; [RFin 0]; [RFin 5]] /\
  min_nnd twin_query 3 = Ok (RFin 0) /\ max_nnd twin_query 3 = Ok (RFin 5) /\ mean_nnd twin_query 3 = Ok (RFin (5 / 3)).
Proof.
  assert (E : nnd twin_query 3 = Ok [[RFin 0]; [RFin 0]; [RFin 5]]).
  { unfold nnd, knn_any, padded, twin_query. change (1 <? 1)%Z with false. change (Z.to_nat 1 + 1)%nat with 2%nat.
    cbn [bind seq map firstn Nat.min Nat.sub repeat app fst snd skipn]. rewrite sqrt_25, sqrt_Q0. reflexivity. }
  split; [exact E|]. unfold min_nnd, max_nnd, mean_nnd. rewrite E. cbn [bind concat app fold_right map xr_min xr_max xr_plus List.length].
  split; [|split]; apply f_equal; apply f_equal.
  - unfold Rmin. repeat destruct (Rle_dec _ _); lra.
  - unfold Rmax. repeat destruct (Rle_dec _ _); lra.
  - replace (INR 3) with 3 by (simpl; lra). lra.
Qed.
Lemma twin_tree : correct_tree twins twin_query.
Proof.
  intros m i Hm Hi. unfold twins in *. cbn [List.length] in *.
  assert (M : (m = 0 \/ m = 1 \/ m = 2 \/ m = 3)%nat) by lia. assert (I : (i = 0 \/ i = 1 \/ i = 2)%nat) by lia.
  destruct M as [->|[->|[->| ->]]]; destruct I as [->|[->| ->]]; unfold twin_query; cbn [firstn map snd]; (split;
    [ repeat split;
      [ repeat constructor; simpl; intuition lia
      | intros j Hj; simpl in Hj; simpl; intuition lia
      | intros a b Hab; cbn [List.length] in Hab; assert (B : (b = 0 \/ b = 1 \/ b = 2)%nat) by lia;
        assert (A : (a = 0 \/ a = 1 \/ a = 2)%nat) by lia;
        destruct B as [->|[->| ->]]; destruct A as [->|[->| ->]]; try lia; vm_compute; discriminate
      | intros a b Ha Hb Nb; assert (B : (b = 0 \/ b = 1 \/ b = 2)%nat) by (simpl in Hb; lia);
        simpl in Ha, Nb; destruct B as [->|[->| ->]]; intuition (subst; try (vm_compute; discriminate)) ]
    | intros d j H; simpl in H; intuition (match goal with X : (_, _) = (_, _) |- _ => injection X as <- <- end; reflexivity) ]).
Qed.
Example C93_case_summaries : exists mn, min_nnd twin_query (List.length twins) = Ok (RFin mn) /\ mn = 0.
Proof.
  destruct (C93_summaries twins twin_query twin_tree ltac:(simpl; lia)) as (ds & mn & mx & _ & M & _ & _ & _ & _ & _ & _ & _ & Z).
  exists mn. split; [exact M|]. apply Z. intro NC. apply (NC 0%nat 1%nat); [simpl; lia|]. split; reflexivity.
Qed.

(** One neighbour: a flat array; three neighbours of a two point pattern: padded. *)
Example C94_case :
  let q := fun (p : pt) m => firstn m [(0, 0%nat); (25, 1%nat)]%Q in
  knn_other q 2 (OList [(0, 0)%Q]) 1 = Ok (Flat [(RFin 0, 0%nat)]) /\
  knn_other q 2 (OPattern [(0, 0)%Q]) 3 = Ok (Rows [[(RFin 0, 0%nat); (RFin 5, 1%nat); (RInf, 2%nat)]]) /\
  knn_other q 2 (OElse [(0, 0)%Q]) 1 = Raise AttributeError.
Proof.
  intro q. unfold q, knn_other, tree_answer, padded. change (1 <? 1)%Z with false. change (3 <? 1)%Z with false.
  change (1 =? 1)%Z with true. change (3 =? 1)%Z with false. change (Z.to_nat 1) with 1%nat. change (Z.to_nat 3) with 3%nat.
  cbn [map concat app firstn Nat.min Nat.sub repeat fst snd]. rewrite sqrt_25, sqrt_Q0. auto.
Qed.
