(** Size of the permutation and Monte Carlo tests: share of the possible draws with a
    p-value of at most alpha when data and simulations come from the same source. *)
From Coq Require Import ZArith QArith Qminmax List Bool Arith Lia Permutation Factorial Reals Lqa.
From Verif Require Import Base BaseLemmas Quadrat_model Spacetime_model Spacetime_spec Pairs_proofs Spacetime_proofs Spacetime2_proofs
  Hyper_proofs Perms_proofs Spacetime_props Spacetime3_props KnoxLocal_props DistStats_model Ripley_model Size_spec Size_proofs Size2_proofs.
Import ListNotations.
Local Open Scope Q_scope.

(** What is counted: every list once per choice of its entries. *)
Theorem C137_draws : forall (A : Type) (E : list A) P,
  List.length (draws E P) = (List.length E ^ S P)%nat /\
  (forall x xs, In (x, xs) (draws E P) <-> In x E /\ List.length xs = P /\ forall y, In y xs -> In y E).
Proof.
  intros A E P. split; [apply draws_length|]. intros x xs. unfold draws. rewrite in_prod_iff, tuples_in. tauto.
Qed.
Print Assumptions C137_draws.

Lemma Qle_nat : forall x y a b, x == Qnat a -> y == Qnat b -> Qle_bool x y = Nat.leb a b.
Proof.
  intros x y a b X Y. apply eq_true_iff_eq. rewrite Qle_bool_iff, Nat.leb_le, X, Y. unfold Qnat. rewrite <- Zle_Qle. lia.
Qed.
Lemma permuted_id : forall n t, List.length t = n -> permuted t (seq 0 n) = t.
Proof. intros n t <-. apply map_nth_seq. Qed.

(** ** Knox *)
Definition global_p (r : res knox_out) : option Q :=
  match r with Ok k => match k_sim k with Some (p, _, _) => Some p | None => None end | Raise _ => None end.
Theorem C137_knox : forall ball, Ball ball -> forall s t delta tau E P alpha, List.length s = List.length t ->
  Enum (seq 0 (List.length s)) E -> 0 <= alpha ->
  rate (fun d => small alpha (global_p (knox_global ball s (permuted t (fst d)) delta tau (snd d)))) (draws E P) <= alpha.
Proof.
  intros ball HB s t delta tau E P alpha L HE HA. set (n := List.length s) in *.
  set (W := fun r => upper (fun i j => ind (nbst s (permuted t r) delta tau i j)) n).
  apply (size_relabel (fun a b : nat => Nat.leb b a) n E HE W P alpha (fun d => global_p (knox_global ball s (permuted t (fst d)) delta tau (snd d)))); auto.
  - apply nat_order.
  - intros r rs Hr Hrs. cbn [fst snd]. apply HE in Hr. destruct (perm_facts _ _ Hr) as [LR _].
    assert (L' : n = List.length (permuted t r)) by (rewrite permuted_length; auto).
    apply tuples_in in Hrs. destruct Hrs as [LP Hrs].
    destruct (proj1 (proj2 (proj2 (C62_knox_total ball s (permuted t r) delta tau rs))) L') as [k K]. rewrite K.
    destruct (knox_inv ball HB _ _ _ _ _ _ K) as [_ [_ [_ [_ [_ [_ [_ [N3 _]]]]]]]]. fold n in N3. change (k_nst k == Qnat (W r)) in N3.
    unfold knox_global in K. fold n in K. rewrite <- L', Nat.eqb_refl in K. injection K as K. subst k. cbn [global_p k_sim k_nst] in *.
    destruct rs as [|g0 rs0]; [right; reflexivity|]. left. rewrite <- LP. f_equal. f_equal.
    set (RS := g0 :: rs0) in *. clearbody RS. rewrite !count_map. apply count_ext. intros g G. apply Hrs, HE in G.
    apply (Qle_nat _ _ (W r) (W (comp r g))); [exact N3|].
    rewrite (knox_perm_upper ball HB s (permuted t r) delta tau g L' G). fold n. rewrite (permuted_comp n) by auto. reflexivity.
Qed.
Print Assumptions C137_knox.

(** ** KnoxLocal *)
Definition local_p (i : nat) (r : res local_out) : option Q :=
  match r with Ok l => match l_p_sims l with Some ps => nth_error ps i | None => None end | Raise _ => None end.
Theorem C137_local : forall ball, Ball ball -> forall s t delta tau gperms E P alpha i, List.length s = List.length t ->
  Enum (seq 0 (List.length s)) E -> 0 <= alpha -> (i < List.length s)%nat ->
  rate (fun d => small alpha (local_p i (knox_local ball s (permuted t (fst d)) delta tau gperms (snd d)))) (draws E P) <= alpha.
Proof.
  intros ball HB s t delta tau gperms E P alpha i L HE HA Hi. set (n := List.length s) in *.
  set (W := fun r => list_sum (map (fun j => ind (nbst s (permuted t r) delta tau i j)) (seq 0 n))).
  apply (size_conditional (fun a b : nat => Nat.leb b a) n E HE i W P alpha (fun d => local_p i (knox_local ball s (permuted t (fst d)) delta tau gperms (snd d)))); auto.
  - apply nat_order.
  - intros r rs Hr Hrs. cbn [fst snd]. apply HE in Hr. destruct (perm_facts _ _ Hr) as [LR _].
    assert (L' : n = List.length (permuted t r)) by (rewrite permuted_length; auto).
    apply tuples_in in Hrs. destruct Hrs as [LP Hrs].
    destruct (knox_local ball s (permuted t r) delta tau gperms rs) as [l|] eqn:K; [|right; reflexivity].
    destruct (local_inv _ _ _ _ _ _ _ _ K) as [KG [_ [SP [PS _]]]]. destruct (knox_inv ball HB _ _ _ _ _ _ KG) as [_ [Sn [Tn _]]].
    destruct (C68_local_counts ball HB _ _ _ _ _ _ _ K) as [_ [CN _]].
    cbn [local_p]. rewrite PS. destruct rs as [|g0 rs0]; [right; reflexivity|]. left.
    set (RS := g0 :: rs0) in *. clearbody RS.
    rewrite nth_error_map. rewrite (nth_error_nth' _ 0%nat) by (rewrite seq_length; exact Hi). cbn [option_map].
    rewrite seq_nth by exact Hi. cbn [plus]. rewrite LP. f_equal. f_equal.
    assert (NI : nth i (l_nsti l) 0%nat = W r).
    { apply CN; auto. exists (filter (fun j => nbst s (permuted t r) delta tau i j) (seq 0 n)).
      split; [apply NoDup_filter, seq_NoDup|]. split; [intro j; rewrite filter_In, in_seq, near_nbst; fold n; intuition lia|].
      unfold W. rewrite <- count_sum. reflexivity. }
    rewrite NI, SP, nth_map_seq by exact Hi. rewrite !count_map. apply count_ext. intros g G. apply Hrs, HE in G.
    destruct (conditional_perm n g i G Hi) as [CP CI]. unfold local_count. cbv zeta. rewrite Sn, Tn.
    pose proof (perm_count ball HB s (permuted t r) delta tau (conditional g i) i L' CP Hi) as PC. rewrite CI in PC. rewrite PC. fold n.
    rewrite (permuted_comp n) by auto. reflexivity.
Qed.
Print Assumptions C137_local.

(** ** Jacquez, for any rule that picks neighbours *)
Theorem C137_jacquez : forall knn s t k E P alpha, Enum (seq 0 (List.length t)) E -> 0 <= alpha ->
  rate (fun d => small alpha (snd (jacquez knn s (permuted t (fst d)) k (snd d)))) (draws E P) <= alpha.
Proof.
  intros knn s t k E P alpha HE HA. set (n := List.length t) in *.
  set (W := fun r => jacquez_stat (knn (permuted t r) k) (knn s k) n).
  apply (size_relabel (fun a b : nat => Nat.leb b a) n E HE W P alpha (fun d => snd (jacquez knn s (permuted t (fst d)) k (snd d)))); auto.
  - apply nat_order.
  - intros r rs Hr Hrs. cbn [fst snd]. apply HE in Hr. destruct (perm_facts _ _ Hr) as [LR _].
    apply tuples_in in Hrs. destruct Hrs as [LP Hrs]. unfold jacquez. rewrite permuted_length, LR.
    destruct rs as [|g0 rs0]; [right; reflexivity|]. left. rewrite <- LP. cbn [snd]. f_equal. f_equal.
    set (RS := g0 :: rs0) in *. clearbody RS. rewrite !count_map. apply count_ext. intros g G. apply Hrs, HE in G.
    change (map (fun i => row (permuted t r) i) g) with (permuted (permuted t r) g). rewrite (permuted_comp n) by auto. reflexivity.
Qed.
Print Assumptions C137_jacquez.

(** ** Mantel, when no correlation is NaN *)
Definition mantel_value {A : Type} (d : A) (ft fs : A -> A) (pearson : list A -> list A -> xq) (D : vec -> vec -> A) (t : list vec)
    (distmat : list (list A)) : xq := fst (mantel d ft fs pearson (matrix D t) distmat []).
Lemma shuffled_matrix : forall A (d : A) (D : vec -> vec -> A) n t r g, List.length t = n -> perm_of n r -> perm_of n g ->
  shuffle_matrix d (matrix D (permuted t r)) g = matrix D (permuted t (comp r g)).
Proof.
  intros A d D n t r g L HR HG. destruct (perm_facts _ _ HR) as [LR _].
  rewrite C74_relabelled_times by (rewrite permuted_length, LR; auto). rewrite (permuted_comp n) by auto. reflexivity.
Qed.
Theorem C137_mantel : forall (A : Type) (d : A) ft fs pearson (D : vec -> vec -> A) t distmat E P alpha,
  Enum (seq 0 (List.length t)) E -> 0 <= alpha ->
  (forall r, In r E -> mantel_value d ft fs pearson D (permuted t r) distmat <> NaN) ->
  rate (fun x => small alpha (snd (mantel d ft fs pearson (matrix D (permuted t (fst x))) distmat (snd x)))) (draws E P) <= alpha.
Proof.
  intros A d ft fs pearson D t distmat E P alpha HE HA NN. set (n := List.length t) in *.
  set (W := fun r => mantel_value d ft fs pearson D (permuted t r) distmat).
  apply (size_relabel xgeb n E HE W P alpha (fun x => snd (mantel d ft fs pearson (matrix D (permuted t (fst x))) distmat (snd x)))); auto.
  - apply xgeb_order. intro X. apply in_map_iff in X. destruct X as [r [X1 X2]]. apply (NN r X2 X1).
  - intros r rs Hr Hrs. cbn [fst snd]. apply HE in Hr.
    apply tuples_in in Hrs. destruct Hrs as [LP Hrs]. unfold mantel.
    destruct rs as [|g0 rs0]; [right; reflexivity|]. left. rewrite <- LP. cbn [snd]. unfold masked_pvalue. rewrite map_length. f_equal. f_equal.
    set (RS := g0 :: rs0) in *. clearbody RS. rewrite !count_map. apply count_ext. intros g G. apply Hrs, HE in G.
    rewrite (shuffled_matrix A d D n) by auto. reflexivity.
Qed.
Print Assumptions C137_mantel.
(** When they are all NaN (for example equal times), the smallest possible p-value is always reported. *)
Theorem C137_mantel_nan : forall (A : Type) (d : A) ft fs pearson (D : vec -> vec -> A) t distmat E P, (0 < P)%nat ->
  Enum (seq 0 (List.length t)) E ->
  (forall r, In r E -> mantel_value d ft fs pearson D (permuted t r) distmat = NaN) ->
  rate (fun x => small (1 / Qnat (S P)) (snd (mantel d ft fs pearson (matrix D (permuted t (fst x))) distmat (snd x)))) (draws E P) == 1.
Proof.
  intros A d ft fs pearson D t distmat E P HP HE NN. set (n := List.length t) in *.
  assert (NE : (0 < List.length (draws E P))%nat).
  { rewrite draws_length. apply Nat.neq_0_lt_0, Nat.pow_nonzero. rewrite (enum_length (seq 0 n)); auto; [|apply seq_NoDup]. apply fact_neq_0. }
  unfold rate. rewrite count_all.
  - field. apply Qnat_pos in NE. intro Z. rewrite Z in NE. apply (Qlt_irrefl _ NE).
  - intros [r rs] H. apply in_prod_iff in H. destruct H as [Hr Hrs]. apply tuples_in in Hrs. destruct Hrs as [LP Hrs]. cbn [fst snd].
    pose proof (NN r Hr) as X. unfold mantel_value, mantel in X. cbn [fst] in X. unfold mantel. rewrite X.
    destruct rs as [|g0 rs0]; [cbn in LP; lia|]. cbn [snd small]. unfold masked_pvalue. rewrite map_length, LP.
    rewrite count_none by (intros v _; destruct v; reflexivity). apply Qle_bool_iff. unfold perm_pvalue. rewrite Qnat_S.
    setoid_replace (Qnat 0 + 1) with 1 by reflexivity. apply Qle_refl.
Qed.
Print Assumptions C137_mantel_nan.

(** ** modified_knox *)
Lemma mk_not_nan : forall sm tm n, n <> 1%nat -> mk_stat sm tm n <> NaN.
Proof.
  intros sm tm n N. unfold mk_stat, xdiv. destruct (Qeq_bool (Qnat n - 1) 0) eqn:HZ; [|discriminate].
  exfalso. apply N. apply Qeq_bool_iff in HZ. assert (X : Qnat n == Qnat 1) by (setoid_replace (Qnat n) with (Qnat n - 1 + 1) by ring; rewrite HZ; reflexivity).
  unfold Qnat in X. apply (proj1 (inject_Z_injective _ _)) in X. apply Nat2Z.inj, X.
Qed.
Theorem C137_modified_knox : forall s t delta tau E P alpha, List.length t <> 1%nat -> Enum (seq 0 (List.length t)) E -> 0 <= alpha ->
  rate (fun d => small alpha (snd (modified_knox s (permuted t (fst d)) delta tau (snd d)))) (draws E P) <= alpha.
Proof.
  intros s t delta tau E P alpha N1 HE HA. set (n := List.length t) in *.
  set (W := fun r => mk_stat (close_matrix s delta) (close_matrix (permuted t r) tau) n).
  apply (size_relabel xgeb n E HE W P alpha (fun d => snd (modified_knox s (permuted t (fst d)) delta tau (snd d)))); auto.
  - apply xgeb_order. intro X. apply in_map_iff in X. destruct X as [r [X1 X2]]. apply (mk_not_nan _ _ _ N1 X1).
  - intros r rs Hr Hrs. cbn [fst snd]. apply HE in Hr. destruct (perm_facts _ _ Hr) as [LR _].
    apply tuples_in in Hrs. destruct Hrs as [LP Hrs]. unfold modified_knox. rewrite permuted_length, LR.
    destruct rs as [|g0 rs0]; [right; reflexivity|]. left. rewrite <- LP. cbn [snd]. unfold masked_pvalue. rewrite map_length. f_equal. f_equal.
    set (RS := g0 :: rs0) in *. clearbody RS. rewrite !count_map. apply count_ext. intros g G. apply Hrs, HE in G.
    change (close_matrix (permuted t r) tau) with (matrix (within tau) (permuted t r)) at 1.
    rewrite (shuffled_matrix bool false (within tau) n) by auto. reflexivity.
Qed.
Print Assumptions C137_modified_knox.

(** ** Monte Carlo tests: observed value and simulations drawn from the same finite list *)
Theorem C137_quadrat : forall E m, ~ In NaN E ->
  (forall alpha, 0 <= alpha -> rate (fun d => Qle_bool (mc_pvalue (snd d) (fst d) (Z.of_nat m)) alpha) (draws E m) <= alpha) /\
  (forall k, (k <= S m)%nat -> filter (no_tie xgeb) (draws E m) <> [] ->
     rate (fun d => Qle_bool (mc_pvalue (snd d) (fst d) (Z.of_nat m)) (Qnat k / Qnat (S m))) (filter (no_tie xgeb) (draws E m)) == Qnat k / Qnat (S m)).
Proof.
  intros E m NN. pose proof (xgeb_order E NN) as T.
  assert (X : forall alpha d, 0 <= alpha -> Qle_bool (mc_pvalue (snd d) (fst d) (Z.of_nat m)) alpha = Nat.leb (S (above xgeb (fst d) (snd d))) (level alpha m)).
  { intros alpha d HA. apply (pvalue_level alpha m (above xgeb (fst d) (snd d)) HA). }
  split.
  - intros alpha HA. apply rate_le; auto. rewrite (count_ext _ _ (fun d => Nat.leb (S (above xgeb (fst d) (snd d))) (level alpha m))) by (intros; apply X; auto).
    apply rank_upper, T.
  - intros k K NE. apply rate_eq; auto.
    assert (LK : level (Qnat k / Qnat (S m)) m = k).
    { unfold level. setoid_replace (Qnat k / Qnat (S m) * Qnat (S m)) with (Qnat k) by (field; pose proof (Qnat_pos (S m) (Nat.lt_0_succ _)) as Y; intro Z; rewrite Z in Y; apply (Qlt_irrefl _ Y)).
      unfold Qnat. rewrite Qround.Qfloor_Z. apply Nat2Z.id. }
    rewrite (count_ext _ _ (fun d => Nat.leb (S (above xgeb (fst d) (snd d))) k)).
    2:{ intros d _. rewrite X, LK; auto. apply Qle_shift_div_l; [apply Qnat_pos; lia|]. rewrite Qmult_0_l. apply (Qnat_le 0). lia. }
    rewrite (rank_untied xgeb E m (fun r => Nat.leb r k) T). f_equal. rewrite count_seq. lia.
Qed.
Print Assumptions C137_quadrat.

(** ** Folded p-values of the Ripley tests *)
Section Folded.
Context {V : Type} (ge : V -> V -> bool) (nan : V).
Definition curve_untied (j : nat) (d : list V * list (list V)) : bool := untied ge (nth j (fst d) nan :: map (fun v => nth j v nan) (snd d)).
Lemma folded_size : forall E j m k, E <> [] -> total_order ge (map (fun v => nth j v nan) E) -> (k <= m)%nat ->
  Qnat (S k) / Qnat (S m) <= rate (fun d => Qle_bool (pvalue_of ge nan (Z.of_nat m) (snd d) (fst d) j) (Qnat k / Qnat (S m))) (draws E m) /\
  (filter (curve_untied j) (draws E m) <> [] ->
   rate (fun d => Qle_bool (pvalue_of ge nan (Z.of_nat m) (snd d) (fst d) j) (Qnat k / Qnat (S m))) (filter (curve_untied j) (draws E m)) ==
   Qnat (Nat.min (S m) (2 * k + 1)) / Qnat (S m)).
Proof.
  intros E j m k NE T K. set (h := fun v : list V => nth j v nan) in *.
  set (f := fun r => Nat.leb r k || Nat.leb (S m - k) r).
  assert (X : forall d, In d (draws E m) -> Qle_bool (pvalue_of ge nan (Z.of_nat m) (snd d) (fst d) j) (Qnat k / Qnat (S m)) = f (S (above ge (h (fst d)) (map h (snd d))))).
  { intros [x xs] D. apply in_prod_iff in D. destruct D as [_ D]. apply tuples_in in D. cbn [fst snd]. unfold pvalue_of.
    rewrite folded_level.
    - unfold f, above. rewrite count_map. reflexivity.
    - rewrite <- (proj1 D). apply count_le_length. }
  assert (DM : forall q, count (fun d => q (h (fst d), map h (snd d))) (draws E m) = count q (draws (map h E) m)) by (intro q; rewrite draws_map, count_map; reflexivity).
  split.
  - apply rate_ge.
    + intro Z. apply NE. pose proof (draws_length _ E m) as Y. rewrite Z in Y. cbn [List.length] in Y. destruct E; auto. symmetry in Y. apply Nat.pow_nonzero in Y; [contradiction|discriminate].
    + rewrite (count_ext _ _ _ _ X), draws_length.
      apply Nat.le_trans with (S m * count (fun d => Nat.leb (S m - S k) (above ge (fst d) (snd d))) (draws (map h E) m))%nat.
      * pose proof (rank_lower ge (map h E) m (S k) T ltac:(lia)) as Y. rewrite map_length in Y. exact Y.
      * apply Nat.mul_le_mono_l. rewrite <- DM. apply count_mono. intros d _ G. apply Nat.leb_le in G. cbn [fst snd] in G. unfold f.
        apply orb_true_iff. right. apply Nat.leb_le. lia.
  - intro N. apply rate_eq; auto.
    rewrite (count_ext _ _ (fun d => f (S (above ge (h (fst d)) (map h (snd d)))))) by (intros d D; apply filter_In in D; apply X, D).
    pose proof (rank_untied ge (map h E) m f T) as Y. rewrite draws_map, filter_map', count_map, map_length in Y. cbn [fst snd] in Y.
    unfold curve_untied. fold h. unfold no_tie in Y. cbn [fst snd] in Y. etransitivity; [exact Y|]. f_equal.
    unfold f. rewrite count_outside by lia. lia.
Qed.
End Folded.
Lemma xge_order : forall L, ~ In NaN L -> total_order xge L.
Proof.
  intros L N. assert (D : forall x, In x L -> x <> NaN) by (intros x X E; subst; contradiction).
  split.
  - intros x y X Y. apply D in X. apply D in Y. destruct x, y; cbn; auto; try contradiction.
    rewrite !Qle_bool_iff. destruct (Qlt_le_dec q q0); [right; apply Qlt_le_weak|left]; auto.
  - intros x y z X Y Z. apply D in X. apply D in Y. apply D in Z. destruct x, y, z; cbn; auto; try contradiction; try discriminate.
    rewrite !Qle_bool_iff. intros A B. apply (Qle_trans _ _ _ B A).
Qed.
Lemma rge_order : forall L, ~ In None L -> total_order rge L.
Proof.
  intros L N. assert (D : forall x, In x L -> exists v, x = Some v) by (intros [v|] X; [eauto|contradiction]).
  split.
  - intros x y X Y. apply D in X. apply D in Y. destruct X as [x' ->]. destruct Y as [y' ->]. cbn.
    destruct (Rle_dec y' x'); auto. right. destruct (Rle_dec x' y'); auto. destruct (Rle_or_lt x' y'); [contradiction|]. apply Rlt_le in H. contradiction.
  - intros x y z X Y Z. apply D in X. apply D in Y. apply D in Z. destruct X as [x' ->]. destruct Y as [y' ->]. destruct Z as [z' ->]. cbn.
    destruct (Rle_dec y' x'); [|discriminate]. destruct (Rle_dec z' y'); [|discriminate]. intros _ _. destruct (Rle_dec z' x'); auto.
    exfalso. apply n. apply (Rle_trans _ y'); auto.
Qed.
(** F, G, J and K: curves of numbers. *)
Theorem C137_folded_refuted : forall E j m k, E <> [] -> (forall v, In v E -> nth j v NaN <> NaN) -> (k <= m)%nat ->
  Qnat k / Qnat (S m) < rate (fun d => Qle_bool (pvalue_of xge NaN (Z.of_nat m) (snd d) (fst d) j) (Qnat k / Qnat (S m))) (draws E m) /\
  Qnat (S k) / Qnat (S m) <= rate (fun d => Qle_bool (pvalue_of xge NaN (Z.of_nat m) (snd d) (fst d) j) (Qnat k / Qnat (S m))) (draws E m) /\
  (filter (curve_untied xge NaN j) (draws E m) <> [] ->
   rate (fun d => Qle_bool (pvalue_of xge NaN (Z.of_nat m) (snd d) (fst d) j) (Qnat k / Qnat (S m))) (filter (curve_untied xge NaN j) (draws E m)) ==
   Qnat (Nat.min (S m) (2 * k + 1)) / Qnat (S m)).
Proof.
  intros E j m k NE NN K. destruct (folded_size xge NaN E j m k NE) as [A B]; auto.
  { apply xge_order. intro X. apply in_map_iff in X. destruct X as [v [X1 X2]]. apply (NN v X2 X1). }
  split; [|split; auto]. eapply Qlt_le_trans; [|exact A]. unfold Qdiv. apply Qmult_lt_compat_r; [apply Qinv_lt_0_compat, Qnat_pos; lia|].
  rewrite Qnat_S. lra.
Qed.
Print Assumptions C137_folded_refuted.
(** L: curves of real numbers. *)
Theorem C137_folded_L_refuted : forall E j m k, E <> [] -> (forall v, In v E -> nth j v None <> None) -> (k <= m)%nat ->
  Qnat (S k) / Qnat (S m) <= rate (fun d => Qle_bool (pvalue_of rge None (Z.of_nat m) (snd d) (fst d) j) (Qnat k / Qnat (S m))) (draws E m) /\
  (filter (curve_untied rge None j) (draws E m) <> [] ->
   rate (fun d => Qle_bool (pvalue_of rge None (Z.of_nat m) (snd d) (fst d) j) (Qnat k / Qnat (S m))) (filter (curve_untied rge None j) (draws E m)) ==
   Qnat (Nat.min (S m) (2 * k + 1)) / Qnat (S m)).
Proof.
  intros E j m k NE NN K. apply (folded_size rge None E j m k NE); auto.
  apply rge_order. intro X. apply in_map_iff in X. destruct X as [v [X1 X2]]. apply (NN v X2 X1).
Qed.
Print Assumptions C137_folded_L_refuted.

(** ** The deprecated knox, with its folded count *)
Definition old_p (r : res (nat * option Q)) : option Q := match r with Ok (_, p) => p | Raise _ => None end.
Definition old_untied (qpairs : list (nat * nat)) (tau : Q) (t : list Q) (d : list nat * list (list nat)) : bool :=
  untied (fun a b => Nat.leb b a) (pairs_close (shuffle (fst d) t) tau qpairs ::
                                   map (fun u => pairs_close u tau qpairs) (after (shuffle (fst d) t) (snd d))).
Lemma shuffle_comp : forall n t r g, perm_of n r -> perm_of n g -> shuffle g (shuffle r t) = shuffle (comp r g) t.
Proof.
  intros n t r g HR HG. unfold shuffle, comp. rewrite map_map. apply map_ext_in. intros j J.
  apply (Permutation_in _ HG), in_seq in J. destruct (perm_facts _ _ HR) as [L _].
  rewrite (nth_indep _ 0 (nth 0%nat t 0)) by (rewrite map_length; lia). apply (map_nth (fun j => nth j t 0)).
Qed.
Lemma joint_chain : forall n ids tau t gs r, perm_of n r -> (forall g, In g gs -> perm_of n g) ->
  fst (knox_joint ids tau (map shuffle gs) (shuffle r t)) = map (fun g => pairs_close (shuffle g t) tau ids) (chain r gs) /\
  after (shuffle r t) gs = map (fun g => shuffle g t) (chain r gs).
Proof.
  intros n ids tau t. induction gs as [|g gs IH]; intros r HR HG; [split; reflexivity|]. cbn [map knox_joint chain after].
  assert (G : perm_of n g) by (apply HG; left; auto). rewrite (shuffle_comp n) by auto.
  destruct (IH (comp r g)) as [I1 I2]; [apply comp_perm; auto|intros; apply HG; right; auto|].
  destruct (knox_joint ids tau (map shuffle gs) (shuffle (comp r g) t)) as [js t'] eqn:J. cbn [fst] in *. rewrite I1, I2. split; reflexivity.
Qed.
Lemma chain_length : forall gs r, List.length (chain r gs) = List.length gs.
Proof. induction gs as [|g gs IH]; intro r; [reflexivity|]. cbn [chain List.length]. rewrite IH. reflexivity. Qed.
Lemma nat_div_le : forall a b m, Qnat a / Qnat (S m) <= Qnat b / Qnat (S m) <-> (a <= b)%nat.
Proof.
  intros a b m. unfold Qdiv. rewrite (Qmult_le_r _ _ (/ Qnat (S m))) by (apply Qinv_lt_0_compat, Qnat_pos; lia). unfold Qnat. rewrite <- Zle_Qle. lia.
Qed.
Lemma old_shape : forall qpairs t tau fs, qpairs <> [] -> fs <> [] ->
  old_p (fst (knox_old qpairs t tau fs)) =
  Some (perm_pvalue (let c := count (fun j => Nat.leb (pairs_close t tau qpairs) j) (fst (knox_joint qpairs tau fs t)) in
                     if Nat.ltb (List.length fs - c) c then (List.length fs - c)%nat else c) (List.length fs)).
Proof.
  intros [|p0 q0] t tau fs NQ NF; [contradiction|]. unfold knox_old. destruct (knox_joint (p0 :: q0) tau fs t) as [js t'].
  destruct fs as [|f0 fs0]; [contradiction|]. reflexivity.
Qed.
Theorem C137_old_knox_refuted : forall qpairs t tau E P k, qpairs <> [] -> (0 < P)%nat -> Enum (seq 0 (List.length t)) E -> (k <= S P)%nat ->
  let f := fun d => small (Qnat k / Qnat (S P)) (old_p (fst (knox_old qpairs (shuffle (fst d) t) tau (map shuffle (snd d))))) in
  Qnat k / Qnat (S P) <= rate f (draws E P) /\
  (filter (old_untied qpairs tau t) (draws E P) <> [] ->
   rate f (filter (old_untied qpairs tau t) (draws E P)) == Qnat (Nat.min (S P) (2 * k)) / Qnat (S P)).
Proof.
  intros qpairs t tau E P k NQ HP HE K f. set (n := List.length t) in *.
  set (W := fun r => pairs_close (shuffle r t) tau qpairs). set (ge := fun a b : nat => Nat.leb b a).
  set (q := fun r => Nat.leb r k || Nat.leb (S (S P) - k) r).
  set (G := fun d : nat * list nat => q (S (above ge (fst d) (snd d)))).
  set (val := fun d : list nat * list (list nat) => (W (fst d), map W (snd d))).
  set (go := fun d : list nat * list (list nat) => (fst d, chain (fst d) (snd d))).
  assert (X : forall d, In d (draws E P) -> f d = G (val (go d)) /\ old_untied qpairs tau t d = no_tie ge (val (go d))).
  { intros [r rs] D. apply in_prod_iff in D. destruct D as [D1 D2]. apply HE in D1. apply tuples_in in D2. destruct D2 as [LP D2].
    assert (D3 : forall g, In g rs -> perm_of n g) by (intros g Y; apply HE, D2, Y).
    destruct (joint_chain n qpairs tau t rs r D1 D3) as [J1 J2]. split.
    - unfold f, val, go, G. cbn [fst snd]. rewrite old_shape; [|exact NQ|destruct rs; [cbn in LP; lia|discriminate]].
      rewrite J1, map_length, LP. cbn [small]. cbv zeta.
      change (count (fun j => Nat.leb (pairs_close (shuffle r t) tau qpairs) j) (map (fun g => pairs_close (shuffle g t) tau qpairs) (chain r rs))) with
        (above ge (W r) (map W (chain r rs))).
      assert (CL : (above ge (W r) (map W (chain r rs)) <= P)%nat).
      { unfold above. etransitivity; [apply count_le_length|]. rewrite map_length, chain_length. lia. }
      set (c := above ge (W r) (map W (chain r rs))) in *. clearbody c.
      apply eq_true_iff_eq. rewrite Qle_bool_iff. unfold perm_pvalue. rewrite <- !Qnat_S, nat_div_le. unfold q. rewrite orb_true_iff, !Nat.leb_le.
      destruct (Nat.ltb_spec (P - c) c); lia.
    - unfold old_untied, val, go, no_tie. cbn [fst snd]. rewrite J2, map_map. reflexivity. }
  assert (CH : forall g, tot (draws E P) (fun d => g (go d)) = tot (draws E P) g).
  { intro g. unfold draws. rewrite !tot_prod. apply tot_ext. intros r Hr. unfold go. cbn [fst snd].
    apply (chain_sum n E P r (fun l => g (r, l)) HE). apply HE, Hr. }
  assert (NE : draws E P <> []).
  { intro Z. pose proof (draws_length _ E P) as Y. rewrite Z in Y. cbn [List.length] in Y. symmetry in Y. apply Nat.pow_nonzero in Y; auto.
    rewrite (enum_length (seq 0 n)); auto; [|apply seq_NoDup]. apply fact_neq_0. }
  assert (DM : forall g : nat * list nat -> bool, tot (draws E P) (fun d => ind (g (val d))) = count g (draws (map W E) P)).
  { intro g. rewrite draws_map. rewrite <- tot_count, tot_map. reflexivity. }
  assert (T : total_order ge (map W E)) by (apply nat_order).
  assert (CF : forall (p g : list nat * list (list nat) -> bool) L, count g (filter p L) = tot L (fun d => ind (p d && g d))).
  { intros p g L. induction L as [|d L IH]; [reflexivity|]. cbn [filter]. rewrite tot_cons. destruct (p d); cbn [andb ind]; [|exact IH].
    rewrite count_cons, IH. destruct (g d); reflexivity. }
  assert (CF' : forall (p g : nat * list nat -> bool) L, count g (filter p L) = tot L (fun d => ind (p d && g d))).
  { intros p g L. induction L as [|d L IH]; [reflexivity|]. cbn [filter]. rewrite tot_cons. destruct (p d); cbn [andb ind]; [|exact IH].
    rewrite count_cons, IH. destruct (g d); reflexivity. }
  split.
  - apply rate_ge; auto. rewrite (count_ext _ f (fun d => G (val (go d)))) by (intros d D; apply X, D).
    rewrite <- tot_count, (CH (fun d => ind (G (val d)))), DM, draws_length.
    pose proof (rank_lower ge (map W E) P k T K) as Y. rewrite map_length in Y. etransitivity; [exact Y|].
    apply Nat.mul_le_mono_l, count_mono. intros d _ H. unfold G, q. apply orb_true_iff. right. apply Nat.leb_le in H. apply Nat.leb_le. lia.
  - intro N. apply rate_eq; auto.
    pose proof (rank_untied ge (map W E) P q T) as Y. rewrite <- (count_all _ (fun _ => true) (filter (no_tie ge) _)) in Y by auto.
    rewrite !CF' in Y. rewrite !tot_count in Y. rewrite <- !DM in Y.
    rewrite <- (CH (fun d => ind (no_tie ge (val d) && q (S (above ge (fst (val d)) (snd (val d))))))) in Y.
    rewrite <- (CH (fun d => ind (no_tie ge (val d) && true))) in Y.
    rewrite <- (count_all _ (fun _ => true) (filter (old_untied qpairs tau t) _)) by auto. rewrite !CF.
    rewrite (tot_ext _ _ (fun d => ind (old_untied qpairs tau t d && f d)) (fun d => ind (no_tie ge (val (go d)) && q (S (above ge (fst (val (go d))) (snd (val (go d)))))))).
    2:{ intros d D. destruct (X d D) as [X1 X2]. rewrite X1, X2. reflexivity. }
    rewrite (tot_ext _ _ (fun d => ind (old_untied qpairs tau t d && true)) (fun d => ind (no_tie ge (val (go d)) && true))).
    2:{ intros d D. destruct (X d D) as [X1 X2]. rewrite X2. reflexivity. }
    rewrite Y. f_equal. unfold q. rewrite count_outside by lia. lia.
Qed.
Print Assumptions C137_old_knox_refuted.

(** Three events, two of them close: all 216 choices of the data and of two relabellings. *)
Example C137_case :
  let s := [[0;0];[1;0];[9;9]] in let t := [[0];[1];[9]] in let E := all_perms (seq 0 3) in
  map (fun a => Qred (rate (fun d => small a (global_p (knox_global ball_up s (permuted t (fst d)) 1 1 (snd d)))) (draws E 2))) [1#3;2#3;1] = [4#27;8#27;1] /\
  map (fun a => Qred (rate (fun d => small a (local_p 0 (knox_local ball_up s (permuted t (fst d)) 1 1 [] (snd d)))) (draws E 2))) [1#3;2#3;1] = [1#12;1#4;1] /\
  map (fun a => Qred (rate (fun d => small a (snd (modified_knox s (permuted t (fst d)) 1 1 (snd d)))) (draws E 2))) [1#3;2#3;1] = [4#27;8#27;1] /\
  map (fun k => Qred (rate (fun d => small (Qnat k / 3) (old_p (fst (knox_old [(0,1)]%nat (shuffle (fst d) [0;1;9]) 1 (map shuffle (snd d)))))) (draws E 2)))
    [1;2]%nat = [23#27;1].
Proof. vm_compute. repeat split; reflexivity. Qed.
(** Four curves of one value, three simulations: the folded p-value is 0 in a quarter of the draws without ties. *)
Example C137_folded_case :
  let E := [[Fin 0];[Fin 1];[Fin 2];[Fin 3]] in
  map (fun k => Qred (rate (fun d => Qle_bool (pvalue_of xge NaN 3 (snd d) (fst d) 0) (Qnat k / 4)) (draws E 3))) [0;1;2]%nat = [25#64;49#64;1] /\
  map (fun k => Qred (rate (fun d => Qle_bool (pvalue_of xge NaN 3 (snd d) (fst d) 0) (Qnat k / 4)) (filter (curve_untied xge NaN 0) (draws E 3)))) [0;1;2]%nat =
    [1#4;3#4;1] /\
  map (fun k => Qred (rate (fun d => Qle_bool (mc_pvalue (snd d) (fst d) 2) (Qnat k / 3)) (draws [Fin 0;Fin 1;Fin 2] 2))) [1;2]%nat = [5#27;13#27].
Proof. vm_compute. repeat split; reflexivity. Qed.
