(** Proofs for C128. *)
From Coq Require Import ZArith QArith Qreals Reals List Bool Arith Lia Lqa Lra Permutation.
From Verif Require Import Base BaseLemmas Spec Quadrat_model Spacetime_model Spacetime_spec Pairs_proofs Spacetime_proofs
  Spacetime2_proofs Spacetime_props Spacetime3_props CenterR_model CenterR_proofs PermMean_props KnoxSym_spec KnoxSym_proofs StSym_spec.
Import ListNotations.

(** ** Matrices of closeness *)
Lemma mget_close : forall c r i j, (i < List.length c)%nat -> (j < List.length c)%nat ->
  mget (close_matrix c r) i j = within r (row c i) (row c j).
Proof. intros. apply (matrix_entry bool false (within r) c i j); auto. Qed.
Lemma mget_shuffle : forall m ids i j, (i < List.length ids)%nat -> (j < List.length ids)%nat ->
  mget (shuffle_matrix false m ids) i j = mget m (nth i ids 0%nat) (nth j ids 0%nat).
Proof. intros. apply (shuffle_entry bool false); auto. Qed.
Lemma Zsum_map_ext : forall (f g : nat -> Z) l, (forall i, In i l -> f i = g i) -> Zsum (map f l) = Zsum (map g l).
Proof. intros f g l H. f_equal. apply map_ext_in. exact H. Qed.
Lemma Zsum_perm : forall l l', Permutation l l' -> Zsum l = Zsum l'.
Proof. intros l l' P. unfold Zsum. induction P; cbn [fold_right]; lia. Qed.
Lemma mk_obs_total : forall sm tm n, mk_obs sm tm n = (Z.of_nat (total (fun i j => b2n (mget tm i j && mget sm i j)) n) - Z.of_nat n)%Z.
Proof. reflexivity. Qed.
(** The statistic does not depend on the numbering, nor on which matrix comes first. *)
Lemma mk_stat_relabel : forall n f sm tm sm' tm', relabel n f ->
  (forall i j, (i < n)%nat -> (j < n)%nat -> mget sm' i j = mget sm (f i) (f j)) ->
  (forall i j, (i < n)%nat -> (j < n)%nat -> mget tm' i j = mget tm (f i) (f j)) -> mk_stat sm' tm' n = mk_stat sm tm n.
Proof.
  intros n f sm tm sm' tm' F HS HT.
  assert (O : mk_obs sm' tm' n = mk_obs sm tm n).
  { rewrite !mk_obs_total. do 2 f_equal. rewrite <- (total_relabel (fun i j => b2n (mget tm i j && mget sm i j)) n f F).
    unfold total. apply list_sum_map_ext. intros i Hi. apply in_seq in Hi. apply list_sum_map_ext. intros j Hj. apply in_seq in Hj.
    rewrite HS, HT by lia. reflexivity. }
  assert (C : forall m m', (forall i j, (i < n)%nat -> (j < n)%nat -> mget m' i j = mget m (f i) (f j)) ->
    forall j, (j < n)%nat -> col_sum m' n j = col_sum m n (f j)).
  { intros m m' H j Hj. unfold col_sum. do 2 f_equal. change nsum with list_sum.
    rewrite <- (relabel_sum n f (fun i => b2n (mget m i (f j))) F). apply list_sum_map_ext. intros i Hi. apply in_seq in Hi.
    rewrite H by lia. reflexivity. }
  assert (X : Zsum (map (fun j => (col_sum sm' n j * col_sum tm' n j)%Z) (seq 0 n)) = Zsum (map (fun j => (col_sum sm n j * col_sum tm n j)%Z) (seq 0 n))).
  { transitivity (Zsum (map (fun j => (col_sum sm n (f j) * col_sum tm n (f j))%Z) (seq 0 n))).
    - apply Zsum_map_ext. intros j Hj. apply in_seq in Hj. rewrite (C sm sm' HS), (C tm tm' HT) by lia. reflexivity.
    - rewrite <- (map_map f (fun j => (col_sum sm n j * col_sum tm n j)%Z)). apply Zsum_perm, Permutation_map. exact F. }
  unfold mk_stat. rewrite O, X. reflexivity.
Qed.
Lemma mk_stat_swap : forall n sm tm, mk_stat tm sm n = mk_stat sm tm n.
Proof.
  intros n sm tm. unfold mk_stat. rewrite !mk_obs_total.
  assert (X : total (fun i j => b2n (mget sm i j && mget tm i j)) n = total (fun i j => b2n (mget tm i j && mget sm i j)) n).
  { unfold total. apply list_sum_map_ext. intros i _. apply list_sum_map_ext. intros j _. rewrite andb_comm. reflexivity. }
  rewrite X. rewrite (Zsum_map_ext (fun j => (col_sum tm n j * col_sum sm n j)%Z) (fun j => (col_sum sm n j * col_sum tm n j)%Z)) by (intros; ring).
  reflexivity.
Qed.
Lemma mk_stat_ext : forall n sm tm sm' tm', (forall i j, (i < n)%nat -> (j < n)%nat -> mget sm' i j = mget sm i j) ->
  (forall i j, (i < n)%nat -> (j < n)%nat -> mget tm' i j = mget tm i j) -> mk_stat sm' tm' n = mk_stat sm tm n.
Proof. intros n sm tm sm' tm' HS HT. apply (mk_stat_relabel n (fun i => i)); auto. unfold relabel. rewrite map_id. apply Permutation_refl. Qed.

(** ** Rearrangements *)
Lemma inverse_sym : forall n r r', inverse n r r' -> inverse n r' r.
Proof.
  intros n r r' (A & B & C). destruct (perm_facts _ _ A) as [_ [BA IA]]. destruct (perm_facts _ _ B) as [_ [BB IB]].
  split; [exact B|]. split; [exact A|]. intros i Hi. apply IA; auto.
Qed.
Lemma perm_relabel' : forall n ids, perm_of n ids -> relabel n (fun i => nth i ids 0%nat).
Proof. intros. apply Spacetime3_props.perm_relabel; auto. Qed.
Lemma Forall2_map_eq : forall A B C (R : A -> B -> Prop) (f : A -> C) (g : B -> C) l l', Forall2 R l l' ->
  (forall a b, In a l -> In b l' -> R a b -> g b = f a) -> map g l' = map f l.
Proof.
  intros A B C R f g l l' F. induction F as [|a b l l' H F IH]; intros G; [reflexivity|]. cbn [map].
  rewrite (G a b) by (auto; left; reflexivity). rewrite IH; [reflexivity|]. intros; apply G; auto; right; auto.
Qed.

(** ** Pairs below the diagonal *)
Definition fold_pair (f : nat -> nat) (ij : nat * nat) : nat * nat :=
  if Nat.ltb (f (snd ij)) (f (fst ij)) then (f (fst ij), f (snd ij)) else (f (snd ij), f (fst ij)).
Lemma lower_relabel : forall n ids, perm_of n ids -> Permutation (map (fold_pair (fun i => nth i ids 0%nat)) (lower_idx n)) (lower_idx n).
Proof.
  intros n ids P. destruct (perm_facts _ _ P) as [L [B I]]. apply NoDup_Permutation_bis.
  - apply NoDup_map_in; [apply lower_nodup|]. intros [i j] [i' j'] X Y. apply lower_in in X, Y. unfold fold_pair. cbn [fst snd].
    destruct (Nat.ltb_spec (nth j ids 0%nat) (nth i ids 0%nat)), (Nat.ltb_spec (nth j' ids 0%nat) (nth i' ids 0%nat)); intro Z; injection Z as Z1 Z2.
    + f_equal; apply I; auto; lia.
    + apply I in Z1; [|lia|lia]. apply I in Z2; [|lia|lia]. lia.
    + apply I in Z1; [|lia|lia]. apply I in Z2; [|lia|lia]. lia.
    + f_equal; apply I; auto; lia.
  - rewrite map_length. lia.
  - intros [a b] X. apply in_map_iff in X. destruct X as [[i j] [Y X]]. apply lower_in in X. apply lower_in.
    unfold fold_pair in Y. cbn [fst snd] in Y. assert (nth i ids 0%nat <> nth j ids 0%nat) by (intro Z; apply I in Z; lia).
    pose proof (B i ltac:(lia)). pose proof (B j ltac:(lia)).
    destruct (Nat.ltb_spec (nth j ids 0%nat) (nth i ids 0%nat)); injection Y as <- <-; lia.
Qed.

Local Open Scope R_scope.
Definition below (n : nat) (f : nat -> nat -> R) : list R := map (fun ij => f (fst ij) (snd ij)) (lower_idx n).
Lemma below_ext : forall n f g, (forall i j, (j < i < n)%nat -> f i j = g i j) -> below n f = below n g.
Proof. intros n f g H. apply map_ext_in. intros [i j] X. apply lower_in in X. apply H. exact X. Qed.
Lemma below_tril : forall n (h : R -> R) x, List.length x = n -> map h (tril 0 x) = below n (fun i j => h (entry 0 x i j)).
Proof. intros n h x L. rewrite tril_idx, L, map_map. reflexivity. Qed.

(** The coefficient of two columns of a table. *)
Lemma dev_map : forall A (f : A -> R) l, dev (map f l) = map (fun x => f x - rmean (map f l)) l.
Proof. intros A f l. unfold dev. rewrite map_map. reflexivity. Qed.
Lemma dot_dev : forall A (f g : A -> R) l, dot (dev (map f l)) (dev (map g l)) =
  Rsum (map (fun x => (f x - rmean (map f l)) * (g x - rmean (map g l))) l).
Proof. intros A f g l. rewrite !dev_map. apply dot_maps. Qed.
Lemma dot_dev_perm : forall A (f g : A -> R) l l', Permutation l l' -> dot (dev (map f l')) (dev (map g l')) = dot (dev (map f l)) (dev (map g l)).
Proof.
  intros A f g l l' P. rewrite !dot_dev. rewrite <- (rmean_perm _ _ (Permutation_map f P)), <- (rmean_perm _ _ (Permutation_map g P)).
  symmetry. apply Rsum_perm, Permutation_map. exact P.
Qed.
Lemma coefficient_dot : forall rd x y x' y', dot (dev x') (dev x') = dot (dev x) (dev x) -> dot (dev y') (dev y') = dot (dev y) (dev y) ->
  dot (dev x') (dev y') = dot (dev x) (dev y) -> coefficient rd x' y' = coefficient rd x y.
Proof. intros rd x y x' y' A B C. unfold coefficient, corr. rewrite A, B, C. reflexivity. Qed.
Lemma coefficient_perm : forall rd A (f g : A -> R) l l', Permutation l l' ->
  coefficient rd (map f l') (map g l') = coefficient rd (map f l) (map g l).
Proof. intros. apply coefficient_dot; apply dot_dev_perm; auto. Qed.
Lemma coefficient_sym : forall rd A (f g : A -> R) l, coefficient rd (map g l) (map f l) = coefficient rd (map f l) (map g l).
Proof.
  intros rd A f g l. unfold coefficient, corr.
  assert (E : dot (dev (map g l)) (dev (map f l)) = dot (dev (map f l)) (dev (map g l))).
  { rewrite !dot_dev. apply Rsum_ext. intros. ring. }
  rewrite E, (Rmult_comm (sqrt (dot (dev (map g l)) (dev (map g l))))).
  destruct (Req_EM_T (dot (dev (map f l)) (dev (map f l))) 0), (Req_EM_T (dot (dev (map g l)) (dev (map g l))) 0); reflexivity.
Qed.
Lemma dot_dev_scale : forall A (f g : A -> R) a b l, dot (dev (map (fun x => a * f x) l)) (dev (map (fun x => b * g x) l)) =
  a * b * dot (dev (map f l)) (dev (map g l)).
Proof.
  intros A f g a b l. rewrite !dot_dev. rewrite <- Rsum_scale.
  assert (M : forall c (h : A -> R), rmean (map (fun x => c * h x) l) = c * rmean (map h l)).
  { intros c h. unfold rmean. rewrite Rsum_scale, !map_length. unfold Rdiv. ring. }
  apply Rsum_ext. intros x _. rewrite !M. ring.
Qed.
Lemma dot_dev_nonneg : forall x, 0 <= dot (dev x) (dev x).
Proof.
  intro x. rewrite dot_self. generalize (dev x). induction l as [|a l IH]; [right; reflexivity|]. cbn [map].
  change (Rsum (?x :: ?y)) with (x + Rsum y). nra.
Qed.
Lemma coefficient_scale : forall rd A (f g : A -> R) a b l, 0 < a -> 0 < b ->
  coefficient rd (map (fun x => a * f x) l) (map (fun x => b * g x) l) = coefficient rd (map f l) (map g l).
Proof.
  intros rd A f g a b l HA HB. unfold coefficient, corr. rewrite !dot_dev_scale.
  set (X := dot (dev (map f l)) (dev (map f l))). set (Y := dot (dev (map g l)) (dev (map g l))). set (Z := dot (dev (map f l)) (dev (map g l))).
  assert (PX : 0 <= X) by apply dot_dev_nonneg. assert (PY : 0 <= Y) by apply dot_dev_nonneg.
  assert (ZE : forall c v, 0 < c -> (c * c * v = 0 <-> v = 0)) by (intros c v C; split; intro H; [apply Rmult_integral in H; destruct H as [H|H]; [nra|exact H]|rewrite H; ring]).
  destruct (Req_EM_T (a * a * X) 0) as [E|E], (Req_EM_T X 0) as [F|F]; try reflexivity.
  - contradiction F. apply (ZE a); auto.
  - contradiction E. apply (ZE a); auto.
  - destruct (Req_EM_T (b * b * Y) 0) as [E'|E'], (Req_EM_T Y 0) as [F'|F']; try reflexivity.
    + contradiction F'. apply (ZE b); auto.
    + contradiction E'. apply (ZE b); auto.
    + f_equal. rewrite (sqrt_mult (a * a) X), (sqrt_mult (b * b) Y), !sqrt_square by nra.
      assert (0 < sqrt X) by (apply sqrt_lt_R0; lra). assert (0 < sqrt Y) by (apply sqrt_lt_R0; lra). field. repeat split; lra.
Qed.

(** Symmetric tables renumbered together. *)
Definition symmetric (f : nat -> nat -> R) : Prop := forall i j, f i j = f j i.
Lemma below_renumbered : forall n ids f, perm_of n ids -> symmetric f ->
  below n (fun i j => f (nth i ids 0%nat) (nth j ids 0%nat)) = map (fun ij => f (fst ij) (snd ij)) (map (fold_pair (fun i => nth i ids 0%nat)) (lower_idx n)).
Proof.
  intros n ids f P S. unfold below. rewrite map_map. apply map_ext. intros [i j]. unfold fold_pair. cbn [fst snd].
  destruct (Nat.ltb _ _); cbn [fst snd]; auto.
Qed.
Lemma coefficient_renumbered : forall rd n ids f g, perm_of n ids -> symmetric f -> symmetric g ->
  coefficient rd (below n (fun i j => f (nth i ids 0%nat) (nth j ids 0%nat))) (below n (fun i j => g (nth i ids 0%nat) (nth j ids 0%nat))) =
  coefficient rd (below n f) (below n g).
Proof.
  intros rd n ids f g P Sf Sg. rewrite !below_renumbered by auto. unfold below. apply coefficient_perm. apply Permutation_sym, lower_relabel, P.
Qed.

(** ** Distances *)
Lemma edist_sym : forall p q, edist p q = edist q p.
Proof. intros p q. unfold edist. f_equal. apply Qeq_eqR. apply sqdist_sym. Qed.
Lemma sqdist_nonneg : forall p q, (0 <= sqdist p q)%Q.
Proof. induction p as [|a p IH]; intros [|b q]; cbn [sqdist]; try apply Qle_refl. specialize (IH q).
  apply (Qplus_le_compat 0 _ 0 _); [|exact IH]. destruct (Qlt_le_dec (a - b) 0) as [H|H]; [|apply Qmult_le_0_compat; exact H].
  setoid_replace ((a - b) * (a - b))%Q with ((- (a - b)) * (- (a - b)))%Q by ring. apply Qlt_le_weak in H. apply Qmult_le_0_compat; apply (Qopp_le_compat _ 0), H.
Qed.
Lemma edist_shape : forall pi k c c' i j, (0 < k)%Q -> same_shape pi k c c' -> (i < List.length c)%nat -> (j < List.length c)%nat ->
  edist (row c' i) (row c' j) = Q2R k * edist (row c (old pi i)) (row c (old pi j)).
Proof.
  intros pi k c c' i j K [_ H] Hi Hj. unfold edist. rewrite (Qeq_eqR _ _ (H i j Hi Hj)), !Q2R_mult.
  assert (KR : 0 < Q2R k). { replace 0 with (Q2R 0) by (unfold Q2R; cbn; field). apply Qlt_Rlt. exact K. }
  rewrite sqrt_mult; [|nra|]. 2: { replace 0 with (Q2R 0) by (unfold Q2R; cbn; field). apply Qle_Rle, sqdist_nonneg. }
  rewrite sqrt_square by lra. reflexivity.
Qed.
Lemma closeness_scale : forall k con pow d, 0 < k -> 0 < d + con -> closeness (k * con) pow (k * d) = Rpower k pow * closeness con pow d.
Proof.
  intros k con pow d K H. unfold closeness, Rpower. replace (k * d + k * con) with (k * (d + con)) by ring.
  rewrite ln_mult by auto. rewrite <- exp_plus. f_equal. ring.
Qed.
