(** Theorems about knox, mantel, jacquez, modified_knox and the input checks. *)
From Coq Require Import ZArith QArith Qabs List Bool Arith Lia Lqa Permutation.
From Verif Require Import Base BaseLemmas Spec Order_spec Quadrat_model Quadrat_props Spacetime_model Spacetime_spec Pairs_proofs Spacetime_proofs
  Spacetime2_proofs Spacetime_props.
Import ListNotations.
Local Open Scope Q_scope.

(** ** C65 for the masked comparison of mantel and modified_knox *)
Definition Reaches (stat v : xq) : Prop := at_least v stat.
Theorem C65_masked_pvalue : forall dist stat,
  (forall c, Counts (Reaches stat) dist c -> masked_pvalue dist stat * (Qnat (List.length dist) + 1) == Qnat c + 1) /\
  / (Qnat (List.length dist) + 1) <= masked_pvalue dist stat <= 1 /\
  (Forall (Reaches stat) dist -> masked_pvalue dist stat == 1) /\
  (forall a b, Reaches (Fin a) (Fin b) <-> a <= b).
Proof.
  intros dist stat. unfold masked_pvalue.
  destruct (perm_pvalue_range _ _ (count_le_length _ (fun s => xgeb s stat) dist)) as [X1 [X2 X3]].
  split; [|split; [auto|split]].
  - intros c C. rewrite X1. apply (Counts_unique _ _ _ _ _ (Counts_filter _ (Reaches stat) (fun s => xgeb s stat) dist ltac:(intros; apply xgeb_at_least))) in C.
    unfold count. rewrite C. reflexivity.
  - intro F. apply X3. apply count_all. intros v V. rewrite Forall_forall in F. apply xgeb_at_least, F. auto.
  - intros a b. unfold Reaches. rewrite <- xgeb_at_least. cbn [xgeb]. apply Qle_bool_iff.
Qed.
Print Assumptions C65_masked_pvalue.

(** An undefined statistic gets the smallest p-value possible. *)
Theorem C65_nan_refuted : forall dist,
  masked_pvalue dist NaN * (Qnat (List.length dist) + 1) == 1 /\
  (List.length dist = 99%nat -> masked_pvalue dist NaN == 1 # 100).
Proof.
  intro dist. assert (Z : count (fun s => xgeb s NaN) dist = 0%nat).
  { apply count_none. intros v _. destruct v; reflexivity. }
  unfold masked_pvalue. rewrite Z. destruct (perm_pvalue_range 0 (List.length dist) ltac:(lia)) as [X _].
  split; [rewrite X; reflexivity|]. intro L. rewrite L. reflexivity.
Qed.
Print Assumptions C65_nan_refuted.

(** The matrix of pairwise values. *)
Definition matrix {A : Type} (D : vec -> vec -> A) (c : list vec) : list (list A) := map (fun p => map (D p) c) c.
Definition entry {A : Type} (d : A) (x : list (list A)) (i j : nat) : A := nth j (nth i x []) d.
Lemma matrix_entry : forall A (d : A) D c i j, (i < List.length c)%nat -> (j < List.length c)%nat ->
  entry d (matrix D c) i j = D (row c i) (row c j).
Proof.
  intros A d D c i j Hi Hj. unfold entry, matrix.
  rewrite (nth_indep _ [] (map (D (row c 0)) c)) by (rewrite map_length; auto).
  change (nth i (map (fun p => map (D p) c) c) (map (D (row c 0)) c)) with (nth i (map (fun p => map (D p) c) c) ((fun p => map (D p) c) (row c 0))).
  rewrite map_nth. rewrite (nth_indep _ d (D (nth i c (row c 0)) (row c 0))) by (rewrite map_length; auto).
  rewrite map_nth. f_equal; apply nth_indep; auto.
Qed.

(** ** C74: joint permutation of rows and columns *)
Lemma shuffle_entry : forall A (d : A) x ids i j, (i < List.length ids)%nat -> (j < List.length ids)%nat ->
  entry d (shuffle_matrix d x ids) i j = entry d x (nth i ids 0%nat) (nth j ids 0%nat).
Proof.
  intros A d x ids i j Hi Hj. unfold entry at 1, shuffle_matrix.
  rewrite (nth_indep _ [] ((fun i => map (fun j => nth j (nth i x []) d) ids) 0%nat)) by (rewrite map_length; auto).
  rewrite (map_nth (fun i => map (fun j => nth j (nth i x []) d) ids)).
  rewrite (nth_indep _ d ((fun j => nth j (nth (nth i ids 0%nat) x []) d) 0%nat)) by (rewrite map_length; auto).
  rewrite (map_nth (fun j => nth j (nth (nth i ids 0%nat) x []) d)). reflexivity.
Qed.
Theorem C74_relabelled_times : forall A (d : A) (D : vec -> vec -> A) t ids, perm_of (List.length t) ids ->
  shuffle_matrix d (matrix D t) ids = matrix D (permuted t ids).
Proof.
  intros A d D t ids P. assert (B : forall i, In i ids -> (i < List.length t)%nat).
  { intros i I. apply (Permutation_in _ P) in I. apply in_seq in I. lia. }
  unfold shuffle_matrix, matrix at 2, permuted. rewrite map_map. apply map_ext_in. intros i I.
  rewrite map_map. apply map_ext_in. intros j J. apply (matrix_entry A d D t i j); auto.
Qed.
Print Assumptions C74_relabelled_times.

Definition lower_idx (n : nat) : list (nat * nat) := flat_map (fun i => map (pair i) (seq 0 i)) (seq 0 n).
Lemma lower_in : forall n i j, In (i, j) (lower_idx n) <-> (j < i < n)%nat.
Proof.
  intros. unfold lower_idx. rewrite in_flat_map. split.
  - intros [a [H1 H2]]. apply in_seq in H1. apply in_map_iff in H2. destruct H2 as [b [E H2]]. injection E as -> ->. apply in_seq in H2. lia.
  - intro H. exists i. split; [apply in_seq; lia|]. apply in_map. apply in_seq. lia.
Qed.
Lemma lower_nodup : forall n, NoDup (lower_idx n).
Proof.
  induction n; [constructor|]. unfold lower_idx. rewrite seq_S', flat_map_app. cbn [flat_map]. rewrite app_nil_r.
  apply NoDup_app'; [exact IHn| |].
  - apply FinFun.Injective_map_NoDup; [intros a b E; injection E; auto|apply seq_NoDup].
  - intros [i j] X Y. apply lower_in in X. apply in_map_iff in Y. destruct Y as [b [E _]]. injection E as E1 _. lia.
Qed.
Lemma tril_idx : forall A (d : A) x, tril d x = map (fun ij => entry d x (fst ij) (snd ij)) (lower_idx (List.length x)).
Proof.
  intros. unfold tril, lower_idx. generalize (seq 0 (List.length x)). induction l as [|i l IH]; [reflexivity|].
  cbn [flat_map]. rewrite map_app, IH, map_map. reflexivity.
Qed.
(** Entries move together: symmetry and diagonal are kept, the values below the diagonal are only rearranged. *)
Theorem C74_rearranges : forall A (d : A) x ids, perm_of (List.length x) ids ->
  List.length (shuffle_matrix d x ids) = List.length x /\
  (forall i j, (i < List.length x)%nat -> (j < List.length x)%nat ->
     entry d (shuffle_matrix d x ids) i j = entry d x (nth i ids 0%nat) (nth j ids 0%nat)) /\
  ((forall i j, entry d x i j = entry d x j i) ->
     (forall i j, (i < List.length x)%nat -> (j < List.length x)%nat ->
        entry d (shuffle_matrix d x ids) i j = entry d (shuffle_matrix d x ids) j i) /\
     Permutation (tril d (shuffle_matrix d x ids)) (tril d x)) /\
  Permutation (map (fun i => entry d (shuffle_matrix d x ids) i i) (seq 0 (List.length x)))
              (map (fun i => entry d x i i) (seq 0 (List.length x))).
Proof.
  intros A d x ids P. destruct (perm_facts _ _ P) as [L [B I]]. set (n := List.length x) in *.
  assert (LS : List.length (shuffle_matrix d x ids) = n) by (unfold shuffle_matrix; rewrite map_length; auto).
  assert (E : forall i j, (i < n)%nat -> (j < n)%nat -> entry d (shuffle_matrix d x ids) i j = entry d x (nth i ids 0%nat) (nth j ids 0%nat)).
  { intros i j Hi Hj. apply shuffle_entry; lia. }
  split; auto. split; auto. split.
  - intro S. split; [intros i j Hi Hj; rewrite !E by auto; apply S|].
    rewrite !tril_idx, LS. fold n.
    set (phi := fun ij : nat * nat => let a := nth (fst ij) ids 0%nat in let b := nth (snd ij) ids 0%nat in if Nat.ltb b a then (a, b) else (b, a)).
    assert (M : map (fun ij => entry d (shuffle_matrix d x ids) (fst ij) (snd ij)) (lower_idx n) =
                map (fun ij => entry d x (fst ij) (snd ij)) (map phi (lower_idx n))).
    { rewrite map_map. apply map_ext_in. intros [i j] X. apply lower_in in X. cbn [fst snd]. rewrite E by lia.
      unfold phi. cbn [fst snd]. destruct (Nat.ltb _ _); cbn [fst snd]; auto. }
    rewrite M. apply Permutation_map. apply NoDup_Permutation_bis.
    + apply NoDup_map_in; [apply lower_nodup|]. intros [i j] [i' j'] X Y. apply lower_in in X, Y. unfold phi. cbn [fst snd].
      pose proof (I i j) as I1. pose proof (I i' j') as I2.
      destruct (Nat.ltb_spec (nth j ids 0%nat) (nth i ids 0%nat)), (Nat.ltb_spec (nth j' ids 0%nat) (nth i' ids 0%nat)); intro Z; injection Z as Z1 Z2.
      * f_equal; apply I; auto; lia.
      * apply I in Z1; [|lia|lia]. apply I in Z2; [|lia|lia]. lia.
      * apply I in Z1; [|lia|lia]. apply I in Z2; [|lia|lia]. lia.
      * f_equal; apply I; auto; lia.
    + rewrite map_length. lia.
    + intros [a b] X. apply in_map_iff in X. destruct X as [[i j] [Y X]]. apply lower_in in X. apply lower_in.
      unfold phi in Y. cbn [fst snd] in Y. assert (nth i ids 0%nat <> nth j ids 0%nat) by (intro Z; apply I in Z; lia).
      pose proof (B i ltac:(lia)). pose proof (B j ltac:(lia)).
      destruct (Nat.ltb_spec (nth j ids 0%nat) (nth i ids 0%nat)); injection Y as <- <-; lia.
  - rewrite (map_ext_in _ (fun i => entry d x (nth i ids 0%nat) (nth i ids 0%nat))).
    + rewrite <- (map_map (fun i => nth i ids 0%nat) (fun i => entry d x i i)). apply Permutation_map.
      rewrite <- L at 1. rewrite map_nth_seq. exact P.
    + intros i X. apply in_seq in X. apply E; lia.
Qed.
Print Assumptions C74_rearranges.
Example C74_case : shuffle_matrix 0%Z [[0;1;2];[1;0;3];[2;3;0]]%Z [2;0;1]%nat = [[0;2;3];[2;0;1];[3;1;0]]%Z.
Proof. reflexivity. Qed.

(** The Mantel p-value: every permuted statistic is the statistic of relabelled times. *)
Theorem C74_mantel_permutations : forall A (d : A) ft fs pearson (Ds Dt : vec -> vec -> A) s t perms,
  Forall (perm_of (List.length t)) perms -> perms <> [] ->
  mantel d ft fs pearson (matrix Dt t) (matrix Ds s) perms =
  (fst (mantel d ft fs pearson (matrix Dt t) (matrix Ds s) []),
   Some (masked_pvalue (map (fun ids => fst (mantel d ft fs pearson (matrix Dt (permuted t ids)) (matrix Ds s) [])) perms)
           (fst (mantel d ft fs pearson (matrix Dt t) (matrix Ds s) [])))).
Proof.
  intros A d ft fs pearson Ds Dt s t perms F NE. unfold mantel at 1. cbn [fst].
  assert (X : map (fun ids => pearson (map ft (tril d (shuffle_matrix d (matrix Dt t) ids))) (map fs (tril d (matrix Ds s)))) perms =
              map (fun ids => fst (mantel d ft fs pearson (matrix Dt (permuted t ids)) (matrix Ds s) [])) perms).
  { apply map_ext_in. intros ids I. rewrite Forall_forall in F. rewrite C74_relabelled_times by auto. reflexivity. }
  destruct perms as [|p ps]; [contradiction|]. rewrite X. reflexivity.
Qed.
Print Assumptions C74_mantel_permutations.

(** With equal times the coefficient is undefined and mantel reports the smallest p-value. *)
Theorem C65_mantel_equal_times_refuted : forall A (d : A) ft fs pearson (Ds Dt : vec -> vec -> A) s t perms z,
  (forall c v, Forall (fun w => w = c) v -> forall w, pearson v w = NaN) ->
  (forall p q, In p t -> In q t -> Dt p q = z) ->
  Forall (perm_of (List.length t)) perms -> perms <> [] ->
  exists p, mantel d ft fs pearson (matrix Dt t) (matrix Ds s) perms = (NaN, Some p) /\ p * (Qnat (List.length perms) + 1) == 1.
Proof.
  intros A d ft fs pearson Ds Dt s t perms z HP HD F NE.
  assert (K : forall t', incl t' t -> fst (mantel d ft fs pearson (matrix Dt t') (matrix Ds s) []) = NaN).
  { intros t' I. cbn. apply (HP (ft z)). apply Forall_forall. intros w W. apply in_map_iff in W. destruct W as [v [<- V]].
    f_equal. rewrite tril_idx in V. apply in_map_iff in V. destruct V as [[i j] [<- V]]. apply lower_in in V. cbn [fst snd].
    assert (LM : List.length (matrix Dt t') = List.length t') by (unfold matrix; rewrite map_length; auto).
    rewrite LM in V. rewrite matrix_entry by lia. apply HD; apply I; apply nth_In; apply Nat.lt_le_trans with (List.length t'); auto; lia. }
  rewrite C74_mantel_permutations by auto. rewrite (K t) by apply incl_refl.
  eexists. split; [reflexivity|]. destruct (C65_nan_refuted (map (fun ids => fst (mantel d ft fs pearson (matrix Dt (permuted t ids)) (matrix Ds s) [])) perms)) as [X _].
  rewrite map_length in X. exact X.
Qed.
Print Assumptions C65_mantel_equal_times_refuted.

(** ** C66, C67: the deprecated knox function *)
Definition OldPair (s : list vec) (t : list Q) (delta tau : Q) (ij : nat * nat) : Prop :=
  SPair s delta ij /\ Qabs (nth (fst ij) t 0 - nth (snd ij) t 0) <= Qabs tau.
(** The successive contents of t_coords. *)
Fixpoint states (shuffles : list (list Q -> list Q)) (t : list Q) : list (list Q) :=
  match shuffles with [] => [] | f :: fs => f t :: states fs (f t) end.
Lemma last_shift : forall A (l : list A) a d, last (a :: l) d = last l a.
Proof.
  induction l as [|b l IH]; intros a d; [reflexivity|]. change (last (a :: b :: l) d) with (last (b :: l) d).
  rewrite (IH b d), (IH b a). reflexivity.
Qed.
Lemma joint_states : forall ids tau shuffles t,
  knox_joint ids tau shuffles t = (map (fun t' => pairs_close t' tau ids) (states shuffles t), last (states shuffles t) t).
Proof.
  induction shuffles as [|f fs IH]; intros t; [reflexivity|]. cbn [knox_joint states map]. rewrite IH, last_shift. reflexivity.
Qed.
Lemma states_length : forall shuffles t, List.length (states shuffles t) = List.length shuffles.
Proof. induction shuffles; intros; cbn; auto. Qed.
Lemma sq_abs : forall a b, a * a <= b * b <-> Qabs a <= Qabs b.
Proof.
  assert (S : forall a, a * a == Qabs a * Qabs a).
  { intro a. apply Qabs_case; intros; ring. }
  intros a b. rewrite (S a), (S b). pose proof (Qabs_nonneg a). pose proof (Qabs_nonneg b).
  generalize dependent (Qabs a). generalize dependent (Qabs b). intros y Y x X. split; intro L.
  - destruct (Qlt_le_dec y x) as [N|N]; auto. exfalso.
    assert (y * y < x * x). { apply Qle_lt_trans with (y * x); [rewrite (Qmult_comm y x); apply Qmult_le_compat_r; lra|apply Qmult_lt_r; lra]. } lra.
  - apply Qle_trans with (y * x); [apply Qmult_le_compat_r; auto|rewrite (Qmult_comm y x); apply Qmult_le_compat_r; auto].
Qed.
Lemma pairs_close_card : forall s t delta tau ids c, NoDup ids -> (forall ij, In ij ids <-> SPair s delta ij) ->
  Card (OldPair s t delta tau) c -> pairs_close t tau ids = c.
Proof.
  intros s t delta tau ids c N I C. refine (Card_unique _ _ _ _ _ C). unfold pairs_close, count.
  eexists. split; [|split; [|reflexivity]]; [apply NoDup_filter; auto|].
  intro ij. rewrite filter_In, I. cbv zeta. rewrite Qle_bool_iff, sq_abs. reflexivity.
Qed.
Theorem C66_statistic : forall s t delta tau ids shuffles nst p t', NoDup ids -> (forall ij, In ij ids <-> SPair s delta ij) ->
  knox_old ids t tau shuffles = (Ok (nst, p), t') ->
  (forall c, Card (OldPair s t delta tau) c -> nst = c) /\
  (forall ball, Ball ball -> 0 <= tau -> List.length s = List.length t ->
     exists k, knox_global ball s (map (fun x => [x]) t) delta tau [] = Ok k /\ knox_nst k = Z.of_nat nst) /\
  (p = None <-> shuffles = []).
Proof.
  intros s t delta tau ids shuffles nst p t' N I H. unfold knox_old in H. rewrite joint_states in H.
  assert (X : pairs_close t tau ids = nst /\ (p = None <-> shuffles = [])).
  { destruct ids; [discriminate|]. injection H as H1 H2 _. split; auto. destruct shuffles; split; intro Y; auto; subst; discriminate. }
  destruct X as [X Y]. split; [|split; auto].
  - intros c C. rewrite <- X. apply (pairs_close_card s t delta tau); auto.
  - intros ball HB T0 L. set (t1 := map (fun x => [x]) t).
    assert (L1 : List.length s = List.length t1) by (unfold t1; rewrite map_length; auto).
    destruct (proj1 (proj2 (proj2 (C62_knox_total ball s t1 delta tau []))) L1) as [k K]. exists k. split; auto.
    destruct (proj1 (proj2 (C62_knox_total ball s t1 delta tau []))) as [c C].
    destruct (proj1 (C62_knox_total ball s t1 delta tau [])) as [a CA].
    destruct (proj1 (C62_knox_total ball t1 t1 tau tau [])) as [b CB].
    destruct (C62_knox_counts ball HB _ _ _ _ _ _ _ _ _ K CA CB C) as [_ [_ [_ [V _]]]]. rewrite V. f_equal.
    symmetry. rewrite <- X. apply (pairs_close_card s t delta tau); auto.
    refine (Card_ext _ _ _ _ _ C). intros [i j]. unfold STPair, OldPair, SPair. cbn [fst snd].
    assert (R : forall m, (m < List.length s)%nat -> row t1 m = [nth m t 0]).
    { intros m Hm. unfold row, t1. rewrite (nth_indep _ [] [0]) by (rewrite map_length; lia).
      change [0] with ((fun x => [x]) 0). rewrite map_nth. reflexivity. }
    split; intros [[Z1 Z2] Z3]; (split; [split; auto|]).
    + rewrite !R in Z3 by lia. destruct Z3 as [_ Z3]. cbn [sqdist] in Z3. apply sq_abs. lra.
    + rewrite !R by lia. split; auto. cbn [sqdist]. apply sq_abs in Z3. lra.
Qed.
Print Assumptions C66_statistic.

Theorem C66_folded_pvalue : forall s t delta tau ids shuffles nst p t', NoDup ids -> (forall ij, In ij ids <-> SPair s delta ij) ->
  knox_old ids t tau shuffles = (Ok (nst, Some p), t') ->
  let P := List.length shuffles in
  (forall c, Counts (fun u => forall m, Card (OldPair s u delta tau) m -> (nst <= m)%nat) (states shuffles t) c ->
     p * (Qnat P + 1) == Qnat (Nat.min c (P - c)) + 1) /\
  / (Qnat P + 1) <= p <= (Qnat P / 2 + 1) / (Qnat P + 1).
Proof.
  intros s t delta tau ids shuffles nst p t' N I H P. unfold knox_old in H. rewrite joint_states in H.
  set (js := map (fun u => pairs_close u tau ids) (states shuffles t)) in *.
  assert (X : pairs_close t tau ids = nst /\
     let larger := count (fun j => Nat.leb nst j) js in
     p = perm_pvalue (if Nat.ltb (P - larger) larger then (P - larger)%nat else larger) P).
  { destruct ids as [|i0 ids']; [discriminate|]. injection H as H1 H2 _. split; auto. cbv zeta.
    rewrite H1 in H2. destruct shuffles; [discriminate|]. injection H2 as H2. symmetry. exact H2. }
  destruct X as [X Y]. cbv zeta in Y. set (larger := count (fun j => Nat.leb nst j) js) in *.
  assert (LB : (larger <= P)%nat).
  { unfold larger. pose proof (count_le_length _ (fun j => Nat.leb nst j) js) as C. unfold js in C at 2. rewrite map_length, states_length in C. auto. }
  assert (M : (if Nat.ltb (P - larger) larger then (P - larger)%nat else larger) = Nat.min larger (P - larger)).
  { destruct (Nat.ltb_spec (P - larger) larger); lia. }
  rewrite M in Y. pose proof (Qnat_nonneg P) as NP. assert (ZP : ~ Qnat P + 1 == 0) by lra. split; [|split].
  - intros c C. assert (E : larger = c).
    { refine (Counts_unique _ _ _ _ _ _ C). unfold larger, js. rewrite count_map. apply Counts_filter. intros u _. rewrite Nat.leb_le. split.
      - intros Z m Cm. rewrite <- (pairs_close_card s u delta tau ids m N I Cm). auto.
      - intro Z. apply Z. eexists. split; [|split; [|reflexivity]]; [apply NoDup_filter; exact N|].
        intro ij. rewrite filter_In, I. cbv zeta. rewrite Qle_bool_iff, sq_abs. reflexivity. }
    rewrite <- E, Y. unfold perm_pvalue. field. auto.
  - rewrite Y. apply (perm_pvalue_range (Nat.min larger (P - larger)) P). lia.
  - rewrite Y. unfold perm_pvalue. apply Qle_shift_div_l; [lra|].
    setoid_replace ((Qnat (Nat.min larger (P - larger)) + 1) / (Qnat P + 1) * (Qnat P + 1)) with (Qnat (Nat.min larger (P - larger)) + 1) by (field; auto).
    assert (Z : Qnat (Nat.min larger (P - larger)) + Qnat (Nat.min larger (P - larger)) <= Qnat P).
    { rewrite <- Qnat_plus. apply Qnat_le. lia. }
    assert (W : Qnat P / 2 + Qnat P / 2 == Qnat P) by field. lra.
Qed.
Print Assumptions C66_folded_pvalue.

Theorem C66_index_error : forall s t delta tau ids shuffles, (forall ij, In ij ids <-> SPair s delta ij) ->
  (fst (knox_old ids t tau shuffles) = Raise IndexError <-> ~ exists ij, SPair s delta ij) /\
  fst (knox_old ids t tau shuffles) = fst (knox_old ids t (- tau) shuffles).
Proof.
  intros s t delta tau ids shuffles I. split.
  - unfold knox_old. rewrite joint_states. destruct ids as [|ij ids'].
    + split; auto. intros _ [ij X]. apply I in X. destruct X.
    + split; [discriminate|]. intro X. exfalso. apply X. exists ij. apply I. left. auto.
  - assert (E : forall u, pairs_close u (- tau) ids = pairs_close u tau ids).
    { intro u. unfold pairs_close. apply count_ext. intros ij _. cbv zeta. apply eq_true_iff_eq. rewrite !Qle_bool_iff.
      setoid_replace (- tau * - tau) with (tau * tau) by ring. reflexivity. }
    unfold knox_old. rewrite !joint_states, E. rewrite (map_ext (fun u => pairs_close u (- tau) ids) (fun u => pairs_close u tau ids)) by auto.
    destruct ids; reflexivity.
Qed.
Print Assumptions C66_index_error.

(** The caller's times end up in the order of the last shuffle. *)
Theorem C67_multiset : forall t tau ids shuffles r t', (forall f u, In f shuffles -> Permutation (f u) u) ->
  knox_old ids t tau shuffles = (r, t') -> Permutation t' t /\ (ids <> [] -> t' = last (states shuffles t) t).
Proof.
  intros t tau ids shuffles r t' S H. unfold knox_old in H. rewrite joint_states in H.
  assert (L : Permutation (last (states shuffles t) t) t).
  { clear H. revert t. induction shuffles as [|f fs IH]; intros t; [reflexivity|].
    cbn [states]. rewrite last_shift. transitivity (f t); [|apply S; left; auto].
    apply IH. intros; apply S; right; auto. }
  destruct ids; injection H as _ <-; split; auto; contradiction.
Qed.
Print Assumptions C67_multiset.
Theorem C67_inputs_untouched_refuted : exists ids t tau shuffles r t',
  (forall f u, In f shuffles -> Permutation (f u) u) /\ knox_old ids t tau shuffles = (Ok r, t') /\ t' <> t.
Proof.
  exists [(0, 1)%nat], [0; 5], 1, [@rev Q]. do 2 eexists. split; [|split].
  - intros f u [<-|[]]. apply Permutation_sym, Permutation_rev.
  - reflexivity.
  - discriminate.
Qed.
Print Assumptions C67_inputs_untouched_refuted.
(** Every shuffle reaches the observed count, and still the p-value is the smallest possible. *)
Example C66_case :
  knox_old [(0, 1); (1, 2)]%nat [0; 1; 9] 2 [@rev Q; fun l => l; fun l => l] = (Ok (1%nat, Some (perm_pvalue 0 3)), [9; 1; 0]) /\
  knox_old [(0, 1); (1, 2)]%nat [0; 1; 9] 2 [@rev Q; fun l => match l with a :: b :: r => b :: a :: r | _ => l end; fun l => l] =
    (Ok (1%nat, Some (perm_pvalue 1 3)), [1; 9; 0]).
Proof. split; reflexivity. Qed.

(** ** C73: modified_knox *)
Definition Deg (c : list vec) (r : Q) (i : nat) (j : nat) : Prop :=
  (j < List.length c)%nat /\ j <> i /\ Close r (row c i) (row c j).
Definition deg (c : list vec) (r : Q) (i : nat) : nat := list_sum (map (fun j => ind (nb c r i j)) (seq 0 (List.length c))).
Lemma deg_card : forall c r i k, Card (Deg c r i) k -> deg c r i = k.
Proof.
  intros c r i k [l [N [I <-]]]. symmetry. apply length_ind; auto. intro j. rewrite I. unfold Deg, nb.
  rewrite andb_true_iff, negb_true_iff, Nat.eqb_neq, within_iff. tauto.
Qed.
Lemma close_entry : forall c r i j, (i < List.length c)%nat -> (j < List.length c)%nat ->
  mget (close_matrix c r) i j = within r (row c i) (row c j).
Proof. intros. apply (matrix_entry bool false (within r) c i j); auto. Qed.
Lemma within_refl : forall r p, 0 <= r -> within r p p = true.
Proof.
  intros r p H. apply within_iff. split; auto. assert (Z : sqdist p p == 0).
  { induction p as [|a p IH]; [reflexivity|]. cbn [sqdist]. rewrite IH. ring. }
  rewrite Z. apply Qmult_le_0_compat; auto.
Qed.
Lemma within_nb : forall c r i j, 0 <= r -> ind (within r (row c i) (row c j)) = (ind (nb c r i j) + ind (Nat.eqb j i))%nat.
Proof.
  intros c r i j H. unfold nb. destruct (Nat.eqb_spec j i) as [->|D]; cbn [negb andb ind].
  - rewrite within_refl by auto. reflexivity.
  - lia.
Qed.
Lemma sum_eqb : forall n i, (i < n)%nat -> list_sum (map (fun j => ind (Nat.eqb j i)) (seq 0 n)) = 1%nat.
Proof.
  intros n i H.
  assert (X : forall m, list_sum (map (fun j => ind (Nat.eqb j i)) (seq 0 m)) = ind (Nat.ltb i m)).
  { induction m; [reflexivity|]. rewrite seq_S', map_app, list_sum_app', IHm. cbn [map list_sum fold_right].
    destruct (Nat.eqb_spec m i), (Nat.ltb_spec i m), (Nat.ltb_spec i (S m)); cbn [ind]; lia. }
  rewrite X. apply Nat.ltb_lt in H. rewrite H. reflexivity.
Qed.
Lemma col_sum_deg : forall c r j, 0 <= r -> (j < List.length c)%nat ->
  col_sum (close_matrix c r) (List.length c) j = Z.of_nat (deg c r j).
Proof.
  intros c r j H Hj. unfold col_sum, deg. change nsum with list_sum.
  rewrite (list_sum_map_ext _ _ (fun i => (ind (nb c r j i) + ind (Nat.eqb i j))%nat)).
  - rewrite list_sum_map_plus, sum_eqb by auto. lia.
  - intros i Hi. apply in_seq in Hi. change (b2n ?b) with (ind b). rewrite close_entry by lia.
    rewrite within_sym. apply within_nb; auto.
Qed.
Lemma obs_total : forall s t delta tau, 0 <= delta -> 0 <= tau -> List.length s = List.length t ->
  mk_obs (close_matrix s delta) (close_matrix t tau) (List.length t) =
  Z.of_nat (total (fun i j => ind (nbst s t delta tau i j)) (List.length s)).
Proof.
  intros s t delta tau Hd Ht E. unfold mk_obs. change nsum with list_sum. rewrite <- E. set (n := List.length s) in *.
  rewrite (list_sum_map_ext _ _ (fun i => (list_sum (map (fun j => ind (nbst s t delta tau i j)) (seq 0 n)) + 1)%nat)).
  - rewrite list_sum_map_plus, list_sum_const, seq_length. unfold total. lia.
  - intros i Hi. apply in_seq in Hi. rewrite <- (sum_eqb n i) by lia. rewrite <- list_sum_map_plus.
    apply list_sum_map_ext. intros j Hj. apply in_seq in Hj. change (b2n ?b) with (ind b).
    rewrite !close_entry by (try (rewrite <- E; fold n); unfold n; lia). unfold nbst, nb.
    destruct (Nat.eqb_spec j i) as [->|D]; cbn [negb andb ind].
    + rewrite !within_refl by auto. reflexivity.
    + rewrite andb_comm. lia.
Qed.
Definition degsum (s t : list vec) (delta tau : Q) : nat :=
  list_sum (map (fun i => (deg s delta i * deg t tau i)%nat) (seq 0 (List.length s))).
Lemma mk_value : forall s t delta tau, 0 <= delta -> 0 <= tau -> List.length s = List.length t -> (2 <= List.length s)%nat ->
  exists v, mk_stat (close_matrix s delta) (close_matrix t tau) (List.length t) = Fin v /\
    v == Qnat (upper (fun i j => ind (nbst s t delta tau i j)) (List.length s)) -
         Qnat (degsum s t delta tau) / (2 * (Qnat (List.length s) - 1)).
Proof.
  intros s t delta tau Hd Ht E N2. unfold mk_stat. rewrite obs_total by auto.
  assert (X : Zsum (map (fun j => (col_sum (close_matrix s delta) (List.length t) j * col_sum (close_matrix t tau) (List.length t) j)%Z) (seq 0 (List.length t))) =
              Z.of_nat (degsum s t delta tau)).
  { unfold degsum. rewrite <- E.
    assert (G : forall l, (forall j, In j l -> (j < List.length s)%nat) ->
      Zsum (map (fun j => (col_sum (close_matrix s delta) (List.length s) j * col_sum (close_matrix t tau) (List.length s) j)%Z) l) =
      Z.of_nat (list_sum (map (fun i => (deg s delta i * deg t tau i)%nat) l))).
    { induction l as [|a l IH]; intros G; [reflexivity|]. cbn [map Zsum list_sum fold_right].
      change (fold_right Z.add 0%Z) with Zsum. change (fold_right Init.Nat.add 0%nat) with list_sum.
      rewrite IH by (intros; apply G; right; auto). specialize (G a (or_introl eq_refl)).
      rewrite col_sum_deg by auto. rewrite E at 1. rewrite col_sum_deg by (auto; lia). lia. }
    apply G. intros j J. apply in_seq in J. lia. }
  rewrite X. clear X. rewrite <- E.
  assert (Y : 2 <= Qnat (List.length s)) by (apply (Qnat_le 2); auto).
  unfold xdiv. destruct (Qeq_bool (Qnat (List.length s) - 1) 0) eqn:Z; [apply Qeq_bool_iff in Z; lra|].
  eexists. split; [reflexivity|].
  rewrite <- half_total; [|intro; apply nbst_irrefl|intros; apply nbst_sym].
  change (inject_Z (Z.of_nat ?k)) with (Qnat k). field. lra.
Qed.
Lemma card_ordered : forall (f : nat -> nat -> bool) n,
  Card (fun ij => (fst ij < n)%nat /\ (snd ij < n)%nat /\ f (fst ij) (snd ij) = true) (total (fun i j => ind (f i j)) n).
Proof.
  intros f n. exists (flat_map (fun i => map (pair i) (filter (f i) (seq 0 n))) (seq 0 n)). split; [|split].
  - assert (G : forall l, NoDup l -> NoDup (flat_map (fun i => map (pair i) (filter (f i) (seq 0 n))) l)).
    { induction l as [|a l IH]; intros NL; [constructor|]. inversion NL; subst. cbn [flat_map]. apply NoDup_app'; auto.
      - apply FinFun.Injective_map_NoDup; [intros x y Q; injection Q; auto|apply NoDup_filter, seq_NoDup].
      - intros [x y] Q1 Q2. apply in_map_iff in Q1. destruct Q1 as [z [Q1 _]]. injection Q1 as -> ->.
        apply in_flat_map in Q2. destruct Q2 as [w [Q2 Q3]]. apply in_map_iff in Q3. destruct Q3 as [u [Q3 _]].
        injection Q3 as -> ->. contradiction. }
    apply G, seq_NoDup.
  - intros [i j]. cbn [fst snd]. rewrite in_flat_map. split.
    + intros [a [A1 A2]]. apply in_map_iff in A2. destruct A2 as [b [A2 A3]]. injection A2 as -> ->.
      apply filter_In in A3. destruct A3 as [A3 A4]. apply in_seq in A1, A3. repeat split; auto; lia.
    + intros [A1 [A2 A3]]. exists i. split; [apply in_seq; lia|]. apply in_map, filter_In. split; auto. apply in_seq; lia.
  - unfold total. generalize (seq 0 n) at 2 4. induction l as [|a l IH]; [reflexivity|]. cbn [flat_map map list_sum fold_right].
    change (fold_right Init.Nat.add 0%nat) with list_sum. rewrite app_length, map_length, filter_ind, IH. reflexivity.
Qed.
Lemma stat_fst : forall s t delta tau perms, fst (modified_knox s t delta tau perms) =
  mk_stat (close_matrix s delta) (close_matrix t tau) (List.length t).
Proof. intros. unfold modified_knox. destruct perms; reflexivity. Qed.
(** Half of (ordered close pairs - sum of products of neighbour counts / (n-1)). *)
Theorem C73_formula : forall s t delta tau perms c ds dt, 0 <= delta -> 0 <= tau ->
  List.length s = List.length t -> (2 <= List.length s)%nat ->
  Card (fun ij => (fst ij < List.length s)%nat /\ Near s t delta tau (fst ij) (snd ij)) c ->
  (forall i, (i < List.length s)%nat -> Card (Deg s delta i) (ds i) /\ Card (Deg t tau i) (dt i)) ->
  exists v, fst (modified_knox s t delta tau perms) = Fin v /\
    2 * v == Qnat c - Qnat (list_sum (map (fun i => (ds i * dt i)%nat) (seq 0 (List.length s)))) / (Qnat (List.length s) - 1).
Proof.
  intros s t delta tau perms c ds dt Hd Ht E N2 C D.
  destruct (mk_value s t delta tau Hd Ht E N2) as [v [V1 V2]]. exists v. rewrite stat_fst. split; auto.
  assert (Y : 2 <= Qnat (List.length s)) by (apply (Qnat_le 2); auto).
  assert (X : degsum s t delta tau = list_sum (map (fun i => (ds i * dt i)%nat) (seq 0 (List.length s)))).
  { apply list_sum_map_ext. intros i Hi. apply in_seq in Hi. destruct (D i ltac:(lia)) as [D1 D2].
    rewrite (deg_card _ _ _ _ D1), (deg_card _ _ _ _ D2). reflexivity. }
  assert (Z : c = total (fun i j => ind (nbst s t delta tau i j)) (List.length s)).
  { apply (Card_unique _ _ _ _ C). refine (Card_ext _ _ _ _ _ (card_ordered _ _)). intros [i j]. cbn [fst snd].
    unfold Near, nbst, nb. rewrite !andb_true_iff, negb_true_iff, Nat.eqb_neq, !within_iff. tauto. }
  rewrite V2, X, Z. rewrite <- half_total; [|intro; apply nbst_irrefl|intros; apply nbst_sym]. field. lra.
Qed.
Print Assumptions C73_formula.

Lemma nb_perm2 : forall c r ids i j, perm_of (List.length c) ids -> (i < List.length c)%nat -> (j < List.length c)%nat ->
  nb (permuted c ids) r i j = nb c r (nth i ids 0%nat) (nth j ids 0%nat).
Proof. intros. apply nb_permuted; auto. Qed.
Lemma perm_relabel : forall n ids, perm_of n ids -> relabel n (fun i => nth i ids 0%nat).
Proof. intros n ids P. unfold relabel. destruct (perm_facts _ _ P) as [L _]. rewrite <- L at 1. rewrite map_nth_seq. exact P. Qed.
Lemma deg_permuted : forall c r ids i, perm_of (List.length c) ids -> (i < List.length c)%nat ->
  deg (permuted c ids) r i = deg c r (nth i ids 0%nat).
Proof.
  intros c r ids i P Hi. destruct (perm_facts _ _ P) as [L [B _]]. unfold deg. rewrite permuted_length, L.
  rewrite <- (relabel_sum _ _ (fun j => ind (nb c r (nth i ids 0%nat) j)) (perm_relabel _ _ P)).
  apply list_sum_map_ext. intros j Hj. apply in_seq in Hj. rewrite nb_perm2 by (auto; lia). reflexivity.
Qed.
(** Relabelling all events does not change the statistic. *)
Theorem C73_relabelling : forall s t delta tau ids v, 0 <= delta -> 0 <= tau -> List.length s = List.length t ->
  (2 <= List.length s)%nat -> perm_of (List.length s) ids -> fst (modified_knox s t delta tau []) = Fin v ->
  exists v', fst (modified_knox (permuted s ids) (permuted t ids) delta tau []) = Fin v' /\ v' == v.
Proof.
  intros s t delta tau ids v Hd Ht E N2 P H. destruct (perm_facts _ _ P) as [L [B I]].
  destruct (mk_value s t delta tau Hd Ht E N2) as [w [W1 W2]]. rewrite stat_fst, W1 in H. injection H as <-.
  assert (LS : List.length (permuted s ids) = List.length s) by (rewrite permuted_length; lia).
  assert (LT : List.length (permuted t ids) = List.length t) by (rewrite permuted_length; lia).
  destruct (mk_value (permuted s ids) (permuted t ids) delta tau Hd Ht ltac:(lia) ltac:(lia)) as [w' [U1 U2]].
  exists w'. rewrite stat_fst. split; auto. rewrite U2, W2, LS.
  assert (PT : perm_of (List.length t) ids) by (rewrite <- E; auto).
  assert (X1 : upper (fun i j => ind (nbst (permuted s ids) (permuted t ids) delta tau i j)) (List.length s) =
               upper (fun i j => ind (nbst s t delta tau i j)) (List.length s)).
  { rewrite <- (upper_relabel (fun i j => ind (nbst s t delta tau i j)) _ _ (perm_relabel _ _ P)).
    - apply upper_ext. intros i j X. unfold nbst. rewrite !nb_perm2 by (auto; lia). reflexivity.
    - intros. rewrite nbst_sym. reflexivity. }
  assert (X2 : degsum (permuted s ids) (permuted t ids) delta tau = degsum s t delta tau).
  { unfold degsum. rewrite LS. rewrite <- (relabel_sum _ _ (fun i => (deg s delta i * deg t tau i)%nat) (perm_relabel _ _ P)).
    apply list_sum_map_ext. intros i Hi. apply in_seq in Hi. rewrite !deg_permuted by (auto; lia). reflexivity. }
  rewrite X1, X2. reflexivity.
Qed.
Print Assumptions C73_relabelling.

(** The permuted values are the statistics of relabelled times. *)
Theorem C73_permutations : forall s t delta tau perms, List.length s = List.length t -> Forall (perm_of (List.length t)) perms -> perms <> [] ->
  snd (modified_knox s t delta tau perms) =
  Some (masked_pvalue (map (fun ids => fst (modified_knox s (permuted t ids) delta tau [])) perms) (fst (modified_knox s t delta tau []))).
Proof.
  intros s t delta tau perms E F NE. unfold modified_knox at 1.
  assert (X : map (fun ids => mk_stat (close_matrix s delta) (shuffle_matrix false (close_matrix t tau) ids) (List.length t)) perms =
              map (fun ids => fst (modified_knox s (permuted t ids) delta tau [])) perms).
  { apply map_ext_in. intros ids I. rewrite Forall_forall in F. specialize (F _ I). rewrite stat_fst.
    rewrite permuted_length. destruct (perm_facts _ _ F) as [L _]. rewrite L. f_equal. apply (C74_relabelled_times bool false (within tau) t ids F). }
  destruct perms as [|p ps]; [contradiction|]. rewrite X. rewrite stat_fst. reflexivity.
Qed.
Print Assumptions C73_permutations.

(** If all events are close in space there is no interaction left. *)
Theorem C73_zero : forall s t delta tau v, 0 <= delta -> 0 <= tau -> List.length s = List.length t -> (2 <= List.length s)%nat ->
  (forall i j, (i < List.length s)%nat -> (j < List.length s)%nat -> Close delta (row s i) (row s j)) ->
  fst (modified_knox s t delta tau []) = Fin v -> v == 0.
Proof.
  intros s t delta tau v Hd Ht E N2 A H. destruct (mk_value s t delta tau Hd Ht E N2) as [w [W1 W2]].
  rewrite stat_fst, W1 in H. injection H as <-. set (n := List.length s) in *.
  assert (NB : forall i j, (i < n)%nat -> (j < n)%nat -> nb s delta i j = negb (Nat.eqb j i)).
  { intros i j Hi Hj. unfold nb. rewrite (proj2 (within_iff delta _ _) (A i j Hi Hj)). apply andb_true_r. }
  assert (DS : forall i, (i < n)%nat -> deg s delta i = (n - 1)%nat).
  { intros i Hi. unfold deg. fold n.
    assert (X : (list_sum (map (fun j => ind (nb s delta i j)) (seq 0 n)) + 1 = n)%nat).
    { rewrite <- (sum_eqb n i Hi). rewrite <- list_sum_map_plus.
      rewrite (list_sum_map_ext _ _ (fun _ => 1%nat)); [rewrite list_sum_const, seq_length; lia|].
      intros j Hj. apply in_seq in Hj. rewrite NB by lia. destruct (Nat.eqb j i); reflexivity. }
    lia. }
  assert (X : degsum s t delta tau = ((n - 1) * total (fun i j => ind (nbst s t delta tau i j)) n)%nat).
  { unfold degsum, total. fold n. transitivity (list_sum (map (fun i => ((n - 1) * list_sum (map (fun j => ind (nbst s t delta tau i j)) (seq 0 n)))%nat) (seq 0 n))).
    - apply list_sum_map_ext. intros i Hi. apply in_seq in Hi. rewrite DS by lia. f_equal. unfold deg. rewrite <- E.
      apply list_sum_map_ext. intros j Hj. apply in_seq in Hj. unfold nbst. rewrite NB by lia. unfold nb. destruct (negb (Nat.eqb j i)); reflexivity.
    - generalize (seq 0 n) at 2 4. induction l as [|a l IH]; [cbn; lia|]. cbn [map list_sum fold_right].
      change (fold_right Init.Nat.add 0%nat) with list_sum. rewrite IH. lia. }
  assert (Y : 2 <= Qnat n) by (apply (Qnat_le 2); auto).
  assert (M : Qnat (n - 1) == Qnat n - 1). { replace n with (n - 1 + 1)%nat at 2 by lia. rewrite Qnat_plus. change (Qnat 1) with 1. ring. }
  rewrite W2, X. rewrite <- half_total; [|intro; apply nbst_irrefl|intros; apply nbst_sym].
  assert (QM : forall a b, Qnat (a * b) == Qnat a * Qnat b) by (intros; unfold Qnat; rewrite Nat2Z.inj_mul, inject_Z_mult; reflexivity).
  rewrite QM, M. field. lra.
Qed.
Print Assumptions C73_zero.

(** A single event: the statistic is NaN and the p-value the smallest possible. *)
Theorem C65_modified_knox_single_refuted : forall p q delta tau perms, 0 <= delta -> 0 <= tau -> perms <> [] ->
  exists v, modified_knox [p] [q] delta tau perms = (NaN, Some v) /\ v * (Qnat (List.length perms) + 1) == 1.
Proof.
  intros p q delta tau perms Hd Ht NE. unfold modified_knox. cbn [List.length].
  assert (S : mk_stat (close_matrix [p] delta) (close_matrix [q] tau) 1 = NaN).
  { unfold close_matrix. cbn [map]. rewrite !within_refl by auto. reflexivity. }
  rewrite S. destruct perms as [|a l]; [contradiction|]. eexists. split; [reflexivity|].
  destruct (C65_nan_refuted (map (fun ids => mk_stat (close_matrix [p] delta) (shuffle_matrix false (close_matrix [q] tau) ids) 1) (a :: l))) as [X _].
  rewrite map_length in X. exact X.
Qed.
Print Assumptions C65_modified_knox_single_refuted.
Example C73_case : exists v, fst (modified_knox s_ex t_ex 1 0 []) = Fin v /\ v == -(1#3).
Proof. eexists. split; vm_compute; reflexivity. Qed.

(** ** C75: jacquez *)
Lemma jac_row : forall (a b : nat -> list nat) i, List.length (filter (fun j => mem j (b i)) (nodup Nat.eq_dec (a i))) =
  List.length (nodup Nat.eq_dec (filter (fun j => mem j (b i)) (a i))).
Proof.
  intros a b i. apply Permutation_length. apply NoDup_Permutation.
  - apply NoDup_filter, NoDup_nodup.
  - apply NoDup_nodup.
  - intro x. rewrite filter_In, !nodup_In, filter_In. tauto.
Qed.
Theorem C75_statistic : forall knn s t k perms c, 
  Card (fun ij => (fst ij < List.length t)%nat /\ In (snd ij) (knn t k (fst ij)) /\ In (snd ij) (knn s k (fst ij))) c ->
  fst (jacquez knn s t k perms) = c.
Proof.
  intros knn s t k perms c C.
  assert (F : fst (jacquez knn s t k perms) = jacquez_stat (knn t k) (knn s k) (List.length t)) by (unfold jacquez; destruct perms; reflexivity).
  rewrite F. refine (Card_unique _ _ _ _ _ C). unfold jacquez_stat. set (n := List.length t).
  set (g := fun i => filter (fun j => mem j (knn s k i)) (nodup Nat.eq_dec (knn t k i))).
  exists (flat_map (fun i => map (pair i) (g i)) (seq 0 n)). split; [|split].
  - assert (G : forall l, NoDup l -> NoDup (flat_map (fun i => map (pair i) (g i)) l)).
    { induction l as [|a l IH]; intros NL; [constructor|]. inversion NL; subst. cbn [flat_map]. apply NoDup_app'; auto.
      - apply FinFun.Injective_map_NoDup; [intros x y Q; injection Q; auto|apply NoDup_filter, NoDup_nodup].
      - intros [x y] Q1 Q2. apply in_map_iff in Q1. destruct Q1 as [z [Q1 _]]. injection Q1 as -> ->.
        apply in_flat_map in Q2. destruct Q2 as [w [Q2 Q3]]. apply in_map_iff in Q3. destruct Q3 as [u [Q3 _]].
        injection Q3 as -> ->. contradiction. }
    apply G, seq_NoDup.
  - intros [i j]. cbn [fst snd]. rewrite in_flat_map. unfold g. split.
    + intros [a [A1 A2]]. apply in_map_iff in A2. destruct A2 as [b [A2 A3]]. injection A2 as -> ->.
      apply filter_In in A3. rewrite nodup_In, mem_iff in A3. apply in_seq in A1. split; [lia|tauto].
    + intros [A1 [A2 A3]]. exists i. split; [apply in_seq; lia|]. apply in_map, filter_In. rewrite nodup_In, mem_iff. auto.
  - generalize (seq 0 n). induction l as [|a l IH]; [reflexivity|]. cbn [flat_map map nsum fold_right].
    change (fold_right Nat.add 0%nat) with nsum. rewrite app_length, map_length, IH. reflexivity.
Qed.
Print Assumptions C75_statistic.

Theorem C75_range : forall knn s t k perms,
  (forall c i, List.length (knn c k i) = k) ->
  (fst (jacquez knn s t k perms) <= List.length t * k)%nat /\
  ((forall i, (i < List.length t)%nat -> NoDup (knn t k i) /\ forall j, In j (knn t k i) <-> In j (knn s k i)) ->
     fst (jacquez knn s t k perms) = (List.length t * k)%nat).
Proof.
  intros knn s t k perms L.
  assert (F : fst (jacquez knn s t k perms) = jacquez_stat (knn t k) (knn s k) (List.length t)) by (unfold jacquez; destruct perms; reflexivity).
  rewrite F. unfold jacquez_stat. change nsum with list_sum. split.
  - rewrite <- (seq_length (List.length t) 0) at 2. rewrite <- list_sum_const. apply list_sum_le. intros i _.
    rewrite jac_row. apply Nat.le_trans with (List.length (knn t k i)); [|rewrite L; lia].
    apply NoDup_incl_length; [apply NoDup_nodup|]. intros j J. rewrite nodup_In, filter_In in J. tauto.
  - intro H. rewrite <- (seq_length (List.length t) 0) at 2. rewrite <- list_sum_const. apply list_sum_map_ext. intros i Hi. apply in_seq in Hi.
    destruct (H i ltac:(lia)) as [N S]. rewrite nodup_fixed_point by auto. transitivity (List.length (knn t k i)); [|apply L].
    apply (count_all _ (fun j => mem j (knn s k i))). intros j J. apply mem_iff. apply S. auto.
Qed.
Print Assumptions C75_range.

Theorem C75_pvalue : forall knn s t k perms, perms <> [] ->
  exists p, snd (jacquez knn s t k perms) = Some p /\
  (forall c, Counts (fun ids => (fst (jacquez knn s t k []) <= fst (jacquez knn s (permuted t ids) k []))%nat) perms c ->
     Forall (perm_of (List.length t)) perms -> p * (Qnat (List.length perms) + 1) == Qnat c + 1) /\
  / (Qnat (List.length perms) + 1) <= p <= 1.
Proof.
  intros knn s t k perms NE. unfold jacquez at 1. destruct perms as [|p0 ps]; [contradiction|]. set (perms := p0 :: ps) in *.
  eexists. split; [reflexivity|].
  set (l := map (fun ids => jacquez_stat (knn (map (fun i => row t i) ids) k) (knn s k) (List.length t)) perms).
  pose proof (count_le_length _ (fun v => Nat.leb (jacquez_stat (knn t k) (knn s k) (List.length t)) v) l) as B.
  assert (LL : List.length l = List.length perms) by (unfold l; apply map_length). rewrite LL in B.
  destruct (perm_pvalue_range _ _ B) as [X1 [X2 _]]. split; [|exact X2].
  intros c C F. rewrite X1. unfold l. rewrite count_map.
  assert (K : forall ids, In ids perms -> (Nat.leb (jacquez_stat (knn t k) (knn s k) (List.length t))
       (jacquez_stat (knn (map (fun i => row t i) ids) k) (knn s k) (List.length t)) = true <->
     (fst (jacquez knn s t k []) <= fst (jacquez knn s (permuted t ids) k []))%nat)).
  { intros ids I. rewrite Nat.leb_le. rewrite Forall_forall in F. destruct (perm_facts _ _ (F _ I)) as [L _].
    unfold jacquez. cbn [fst]. rewrite permuted_length, L. unfold permuted. tauto. }
  rewrite (Counts_unique _ _ _ _ _ C (Counts_filter _ _ _ perms K)). reflexivity.
Qed.
Print Assumptions C75_pvalue.
Definition knn_ring (c : list vec) (k i : nat) : list nat := map (fun d => ((i + d) mod List.length c)%nat) (seq 1 k).
Example C75_case : fst (jacquez knn_ring s_ex t_ex 2 []) = 8%nat /\
  fst (jacquez (fun c k i => if Nat.eqb (List.length (row c 0)) 1 then knn_ring c k i else rev (seq i k)) s_ex t_ex 2 []) = 3%nat.
Proof. split; reflexivity. Qed.

(** ** C76: input checks *)
Theorem C76_constructor : forall s t ids,
  (knox_local_check s t ids = Ok tt <->
     exists n k m, s = HasShape [n; k] /\ t = HasShape [n; m] /\ (2 <= k)%nat /\ (ids = None \/ ids = Some n)) /\
  (knox_local_check s t ids <> Ok tt -> knox_local_check s t ids = Raise ValueError).
Proof.
  intros s t ids. split; [split|].
  - intro H. unfold knox_local_check in H. destruct t as [|st]; [discriminate|]. destruct s as [|ss]; [discriminate|].
    destruct ss as [|n [|k [|? ?]]]; try discriminate. cbn [unpack2 bind fst snd] in H.
    destruct (Nat.ltb_spec k 2); [discriminate|]. destruct st as [|n' [|m [|? ?]]]; try discriminate. cbn [unpack2 bind fst snd] in H.
    destruct (Nat.eqb_spec n n') as [->|]; [|discriminate]. cbn [negb] in H. exists n', k, m. split; [auto|]. split; [auto|]. split; [auto|].
    destruct ids as [l|]; [|left; reflexivity]. destruct (Nat.eqb_spec l n') as [El|El]; [right; rewrite El; reflexivity|discriminate].
  - intros [n [k [m [-> [-> [K I]]]]]]. unfold knox_local_check. cbn [unpack2 bind fst snd].
    destruct (Nat.ltb_spec k 2) as [B|B]; [lia|]. rewrite Nat.eqb_refl. cbn [negb].
    destruct I as [->| ->]; [reflexivity|]. rewrite Nat.eqb_refl. reflexivity.
  - intro H. unfold knox_local_check in *. destruct t as [|st]; [reflexivity|]. destruct s as [|ss]; [reflexivity|].
    destruct ss as [|n [|k [|? ?]]]; try reflexivity. cbn [unpack2 bind fst snd] in *.
    destruct (Nat.ltb k 2); [reflexivity|]. destruct st as [|n' [|m [|? ?]]]; try reflexivity. cbn [unpack2 bind fst snd] in *.
    destruct (negb _); [reflexivity|]. destruct ids as [l|]; [|contradiction]. destruct (Nat.eqb l n); [contradiction|reflexivity].
Qed.
Print Assumptions C76_constructor.
Theorem C76_from_dataframe : forall f, List.length (f_geoms f) = List.length (f_times f) ->
  (points_to_arrays f = Raise ValueError <->
     f_crs f = Some true \/ In None (f_geoms f) \/ f_numeric f = false \/ f_times f = []) /\
  (forall s t, points_to_arrays f = Ok (s, t) ->
     List.length s = List.length t /\ List.length s = List.length (f_geoms f) /\
     (forall i x y, nth_error (f_geoms f) i = Some (Some (x, y)) -> row s i = [x; y] /\ row t i = [nth i (f_times f) 0]) /\
     knox_local_check (HasShape [List.length s; 2%nat]) (HasShape [List.length t; 1%nat]) (Some (List.length (f_geoms f))) = Ok tt).
Proof.
  intros f L.
  assert (FP : forallb is_point (f_geoms f) = false <-> In None (f_geoms f)).
  { clear L. induction (f_geoms f) as [|g l IH]; cbn [forallb In]; [split; [discriminate|intros []]|].
    destruct g; cbn [is_point andb].
    - rewrite IH. split; [auto|]. intros [X|X]; [discriminate|auto].
    - split; auto. }
  split.
  - unfold points_to_arrays. split.
    + destruct (f_crs f) as [[|]|]; [auto| |];
      (destruct (forallb is_point (f_geoms f)) eqn:P; cbn [negb]; [|intros _; right; left; apply FP; auto];
       destruct (f_numeric f) eqn:M; cbn [negb]; [|auto]; destruct (f_times f) eqn:T; [auto|discriminate]).
    + intro H. destruct (f_crs f) as [[|]|]; auto;
      (destruct (forallb is_point (f_geoms f)) eqn:P; cbn [negb]; auto; destruct (f_numeric f) eqn:M; cbn [negb]; auto;
       destruct (f_times f) eqn:T; auto; destruct H as [H|[H|[H|H]]]; try discriminate; apply FP in H; congruence).
  - intros s t H. unfold points_to_arrays in H.
    assert (X : s = map point_row (f_geoms f) /\ t = map (fun t => [t]) (f_times f)).
    { destruct (match f_crs f with Some g => g | None => false end); [discriminate|]. destruct (negb _); [discriminate|].
      destruct (negb _); [discriminate|]. destruct (f_times f) eqn:T; [discriminate|]. injection H as <- <-. auto. }
    destruct X as [-> ->]. rewrite !map_length, L. split; auto. split; auto. split.
    + intros i x y N. assert (Hi : (i < List.length (f_geoms f))%nat) by (apply nth_error_Some; congruence). unfold row. split.
      * apply nth_error_nth. rewrite nth_error_map, N. reflexivity.
      * rewrite (nth_indep _ [] [0]) by (rewrite map_length; lia). change [0] with ((fun t : Q => [t]) 0). rewrite map_nth. reflexivity.
    + cbn. rewrite Nat.eqb_refl. reflexivity.
Qed.
Print Assumptions C76_from_dataframe.
Example C76_case :
  knox_local_check (HasShape [5; 2]%nat) (HasShape [5; 1]%nat) (Some 5%nat) = Ok tt /\
  knox_local_check (HasShape [5; 2]%nat) (HasShape [5]%nat) None = Raise ValueError /\
  knox_local_check (HasShape [5; 1]%nat) (HasShape [5; 1]%nat) None = Raise ValueError /\
  points_to_arrays (mkframe None [Some (1, 2); Some (3, 4)] true [7; 8]) = Ok ([[1; 2]; [3; 4]], [[7]; [8]]) /\
  points_to_arrays (mkframe (Some true) [Some (1, 2)] true [7]) = Raise ValueError.
Proof. repeat split. Qed.

(** ** C77: day stamps *)
Lemma fold_min : forall l a, (fold_left Z.min l a <= a)%Z /\ (forall x, In x l -> (fold_left Z.min l a <= x)%Z) /\
  (fold_left Z.min l a = a \/ In (fold_left Z.min l a) l).
Proof.
  induction l as [|b l IH]; intros a; cbn [fold_left].
  - split; [lia|]. split; [intros x []|auto].
  - destruct (IH (Z.min a b)) as [H1 [H2 H3]]. split; [lia|]. split.
    + intros x [<-|X]; [lia|auto].
    + destruct H3 as [->|H3]; [|right; right; auto]. destruct (Z.min_spec a b) as [[_ ->]|[_ ->]]; [auto|right; left; auto].
Qed.
Theorem C77_day_stamps : forall col, 
  List.length (day_stamps col) = List.length col /\
  (forall t, In t (day_stamps col) -> (0 <= t)%Z) /\
  (col <> [] -> In 0%Z (day_stamps col)) /\
  (forall i j, (i < List.length col)%nat -> (j < List.length col)%nat ->
     (nth i (day_stamps col) 0 - nth j (day_stamps col) 0 = nth i col 0 - nth j col 0)%Z).
Proof.
  intros [|d ds].
  - cbn. split; auto. split; [intros t []|]. split; [congruence|]. intros i j H. lia.
  - destruct (fold_min ds d) as [H1 [H2 H3]]. unfold day_stamps. set (m := fold_left Z.min ds d) in *. split; [apply map_length|].
    split; [|split].
    + intros t T. apply in_map_iff in T. destruct T as [x [<- X]]. destruct X as [<-|X]; [lia|]. specialize (H2 _ X). lia.
    + intros _. apply in_map_iff. exists m. split; [lia|]. destruct H3 as [->|H3]; [left; auto|right; auto].
    + intros i j Hi Hj. set (f := fun x => (x - m)%Z).
      rewrite !(nth_indep (map f (d :: ds)) 0%Z (f 0%Z)) by (rewrite map_length; auto). rewrite !map_nth. unfold f. lia.
Qed.
Print Assumptions C77_day_stamps.
Example C77_case : day_stamps [413; 472; 400]%Z = [13; 72; 0]%Z.
Proof. reflexivity. Qed.
