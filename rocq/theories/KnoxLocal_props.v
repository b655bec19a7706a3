(** Theorems about the local Knox statistics. *)
From Coq Require Import ZArith QArith List Bool Arith Lia Lqa Permutation Sorting.Sorted.
From Verif Require Import Base BaseLemmas Spec Quadrat_model Spacetime_model Spacetime_spec Pairs_proofs Spacetime_proofs
  Spacetime2_proofs Hyper_proofs Spacetime_props.
Import ListNotations.
Local Open Scope Q_scope.

Lemma local_inv : forall ball s t delta tau gperms perms l, knox_local ball s t delta tau gperms perms = Ok l ->
  knox_global ball s t delta tau gperms = Ok (l_knox l) /\
  l_nsti l = nsti_of (List.length s) (k_st_pairs (l_knox l)) /\
  l_sti_perm l = map (fun i => map (fun rids => local_count (k_sn (l_knox l)) (k_tn (l_knox l)) rids i) perms) (seq 0 (List.length s)) /\
  l_p_sims l = match perms with [] => None | _ =>
      Some (map (fun i => perm_pvalue (count (fun c => Nat.leb (nth i (l_nsti l) 0%nat) c) (nth i (l_sti_perm l) [])) (List.length perms)) (seq 0 (List.length s))) end /\
  l_p_hg l = map (fun i => hg_pvalue (List.length s) (nth i (l_nsti l) 0%nat) (List.length (nth i (k_sn (l_knox l)) []))
                   (map (@List.length nat) (k_tn (l_knox l)))) (seq 0 (List.length s)) /\
  adjlist_of t (k_st_pairs (l_knox l)) = Ok (l_adj l).
Proof.
  intros ball s t delta tau gperms perms l H. unfold knox_local in H.
  destruct (knox_global ball s t delta tau gperms) as [k|] eqn:K; cbn [bind] in H; [|discriminate].
  destruct (adjlist_of t (k_st_pairs k)) as [adj|] eqn:A; cbn [bind] in H; [|discriminate].
  injection H as H. subst l. cbn [l_knox l_nsti l_sti_perm l_p_sims l_p_hg l_adj].
  repeat (split; [reflexivity|]). exact A.
Qed.
Lemma near_nbst : forall s t delta tau i j, Near s t delta tau i j <-> (j < List.length s)%nat /\ nbst s t delta tau i j = true.
Proof.
  intros. unfold Near, nbst, nb. rewrite !andb_true_iff, negb_true_iff, Nat.eqb_neq, !within_iff. tauto.
Qed.
Lemma card_near : forall s t delta tau i c, Card (Near s t delta tau i) c ->
  c = list_sum (map (fun j => ind (nbst s t delta tau i j)) (seq 0 (List.length s))).
Proof.
  intros s t delta tau i c [l [N [I <-]]]. apply length_ind; auto. intro j. rewrite I, near_nbst. tauto.
Qed.

(** ** C68 *)
Theorem C68_local_counts : forall ball, Ball ball -> forall s t delta tau gperms perms l,
  knox_local ball s t delta tau gperms perms = Ok l ->
  List.length (l_nsti l) = List.length s /\
  (forall i c, (i < List.length s)%nat -> Card (Near s t delta tau i) c -> nth i (l_nsti l) 0%nat = c) /\
  Qnat (list_sum (l_nsti l)) == 2 * k_nst (l_knox l) /\
  (forall i, (i < List.length s)%nat ->
     (nth i (l_nsti l) 0 <= List.length (nth i (k_sn (l_knox l)) []))%nat /\
     (nth i (l_nsti l) 0 <= List.length (nth i (k_tn (l_knox l)) []))%nat).
Proof.
  intros ball HB s t delta tau gperms perms l H.
  destruct (local_inv _ _ _ _ _ _ _ _ H) as [K [A _]].
  destruct (knox_inv ball HB _ _ _ _ _ _ K) as [E [Sn [Tn [_ [P [_ [_ [N3 _]]]]]]]].
  assert (I : forall a b, In (a, b) (k_st_pairs (l_knox l)) <-> (a < b < List.length s)%nat /\ nbst s t delta tau a b = true).
  { intros a b. rewrite P. apply st_pairs_in; auto. }
  destruct (nsti_facts (List.length s) (k_st_pairs (l_knox l))) as [F1 [F2 F3]].
  { intros [a b] X. apply I in X. cbn [fst snd]. lia. }
  assert (T : forall i, (i < List.length s)%nat -> nth i (l_nsti l) 0%nat = list_sum (map (fun j => ind (nbst s t delta tau i j)) (seq 0 (List.length s)))).
  { intros i Hi. rewrite A, F2. apply touch_count; auto.
    - rewrite P. apply st_pairs_nodup.
    - intros; apply nbst_sym.
    - intros; apply nbst_irrefl. }
  split; [rewrite A; auto|]. split; [|split].
  - intros i c Hi C. rewrite (T i Hi). symmetry. apply card_near; auto.
  - rewrite A, F3, N3.
    assert (L : List.length (k_st_pairs (l_knox l)) = upper (fun i j => ind (nbst s t delta tau i j)) (List.length s)).
    { refine (Card_unique _ _ _ _ _ (card_upper (nbst s t delta tau) (List.length s))).
      exists (k_st_pairs (l_knox l)). split; [rewrite P; apply st_pairs_nodup|]. split; [|reflexivity]. intros [a b]. apply I. }
    rewrite L. change (2 * upper ?g ?n)%nat with (upper g n + (upper g n + 0))%nat. rewrite !Qnat_plus. change (Qnat 0) with 0. ring.
  - intros i Hi. rewrite (T i Hi), Sn, Tn. rewrite !neighbors_len by (auto; lia). rewrite <- E.
    split; apply list_sum_le; intros j _; unfold nbst; destruct (nb s delta i j), (nb t tau i j); cbn; lia.
Qed.
Print Assumptions C68_local_counts.

(** ** C69 *)
Theorem C69_conditional : forall n rids i, perm_of n rids -> (i < n)%nat ->
  perm_of n (conditional rids i) /\ nth i (conditional rids i) 0%nat = i /\
  (forall j, (j < n)%nat -> j <> i -> nth j rids 0%nat <> i -> nth j (conditional rids i) 0%nat = nth j rids 0%nat) /\
  (forall j, (j < n)%nat -> j <> i -> nth j rids 0%nat = i -> nth j (conditional rids i) 0%nat = nth i rids 0%nat).
Proof.
  intros n rids i P Hi. destruct (conditional_perm n rids i P Hi) as [A B]. destruct (perm_facts _ _ P) as [L _].
  split; auto. split; auto. split; intros j Hj D R; rewrite conditional_nth by lia;
    apply Nat.eqb_neq in D; rewrite D.
  - apply Nat.eqb_neq in R. rewrite R. reflexivity.
  - apply Nat.eqb_eq in R. rewrite R. reflexivity.
Qed.
Print Assumptions C69_conditional.

(** Every stored count is the local count with the times relabelled so that the focal event keeps its own. *)
Theorem C69_stored_counts : forall ball, Ball ball -> forall s t delta tau gperms perms l i m rids c,
  knox_local ball s t delta tau gperms perms = Ok l -> (i < List.length s)%nat -> nth_error perms m = Some rids ->
  perm_of (List.length s) rids ->
  Card (Near s (permuted t (conditional rids i)) delta tau i) c ->
  nth m (nth i (l_sti_perm l) []) 0%nat = c /\ row (permuted t (conditional rids i)) i = row t i.
Proof.
  intros ball HB s t delta tau gperms perms l i m rids c H Hi M P C.
  destruct (local_inv _ _ _ _ _ _ _ _ H) as [K [_ [S _]]].
  destruct (knox_inv ball HB _ _ _ _ _ _ K) as [E [Sn [Tn _]]].
  destruct (conditional_perm _ _ _ P Hi) as [CP CI]. destruct (perm_facts _ _ CP) as [L _]. split.
  - rewrite S, nth_map_seq by auto.
    assert (X : nth m (map (fun rids => local_count (k_sn (l_knox l)) (k_tn (l_knox l)) rids i) perms) 0%nat =
                local_count (k_sn (l_knox l)) (k_tn (l_knox l)) rids i).
    { apply nth_error_nth. rewrite nth_error_map, M. reflexivity. }
    rewrite X. unfold local_count. rewrite Sn, Tn. apply card_near in C. subst c.
    rewrite <- (perm_count ball HB s t delta tau (conditional rids i) i E CP Hi). rewrite CI. reflexivity.
  - rewrite permuted_row by lia. rewrite CI. reflexivity.
Qed.
Print Assumptions C69_stored_counts.

(** ** C65 for the local statistic *)
Theorem C65_local_pvalue : forall ball s t delta tau gperms perms l ps i,
  knox_local ball s t delta tau gperms perms = Ok l -> l_p_sims l = Some ps -> (i < List.length s)%nat ->
  perms <> [] /\ List.length ps = List.length s /\ List.length (nth i (l_sti_perm l) []) = List.length perms /\
  (forall c, Counts (fun v => (nth i (l_nsti l) 0 <= v)%nat) (nth i (l_sti_perm l) []) c ->
     nth i ps 0 * (Qnat (List.length perms) + 1) == Qnat c + 1) /\
  / (Qnat (List.length perms) + 1) <= nth i ps 0 <= 1 /\
  (Forall (fun v => (nth i (l_nsti l) 0 <= v)%nat) (nth i (l_sti_perm l) []) -> nth i ps 0 == 1).
Proof.
  intros ball s t delta tau gperms perms l ps i H PS Hi.
  destruct (local_inv _ _ _ _ _ _ _ _ H) as [K [_ [S [Q _]]]]. rewrite PS in Q.
  assert (NE : perms <> []) by (intro; subst; discriminate).
  assert (PE : ps = map (fun i => perm_pvalue (count (fun c => Nat.leb (nth i (l_nsti l) 0%nat) c) (nth i (l_sti_perm l) [])) (List.length perms)) (seq 0 (List.length s))).
  { destruct perms; [contradiction|]. injection Q as Q. exact Q. }
  assert (L : List.length (nth i (l_sti_perm l) []) = List.length perms) by (rewrite S, nth_map_seq, map_length by auto; reflexivity).
  assert (V : nth i ps 0 = perm_pvalue (count (fun c => Nat.leb (nth i (l_nsti l) 0%nat) c) (nth i (l_sti_perm l) [])) (List.length perms)).
  { rewrite PE, nth_map_seq by auto. reflexivity. }
  split; auto. split; [rewrite PE, map_length, seq_length; auto|]. split; auto.
  pose proof (count_le_length _ (fun c => Nat.leb (nth i (l_nsti l) 0%nat) c) (nth i (l_sti_perm l) [])) as B. rewrite L in B.
  destruct (perm_pvalue_range _ _ B) as [X1 [X2 X3]]. rewrite <- V in X1, X2, X3. split; [|split; auto].
  - intros c C. rewrite X1. apply (Counts_unique _ _ _ _ _ (Counts_filter _ (fun v => (nth i (l_nsti l) 0 <= v)%nat) (fun c => Nat.leb (nth i (l_nsti l) 0%nat) c) _ ltac:(intros; rewrite Nat.leb_le; tauto))) in C.
    unfold count. rewrite C. reflexivity.
  - intro F. apply X3. rewrite count_all; auto. intros v Hv. apply Nat.leb_le. rewrite Forall_forall in F. auto.
Qed.
Print Assumptions C65_local_pvalue.

(** ** C70 *)
Lemma mapM_forall2 : forall A B (f : A -> res B) l l', mapM f l = Ok l' -> Forall2 (fun a b => f a = Ok b) l l'.
Proof.
  induction l as [|a l IH]; intros l' H; cbn in H; [injection H as <-; constructor|].
  destruct (f a) as [b|] eqn:F; cbn in H; [|discriminate]. destruct (mapM f l) as [bs|] eqn:M; cbn in H; [|discriminate].
  injection H as <-. constructor; auto.
Qed.
Lemma mapM_ok : forall A B (f : A -> res B) l, (forall a, In a l -> exists b, f a = Ok b) -> exists l', mapM f l = Ok l'.
Proof.
  induction l as [|a l IH]; intros H; cbn; [eexists; reflexivity|].
  destruct (H a (or_introl eq_refl)) as [b ->]. cbn. destruct IH as [bs ->]; [intros; apply H; right; auto|]. cbn. eexists; reflexivity.
Qed.
Lemma orient_one : forall t i j, List.length (row t i) = 1%nat -> List.length (row t j) = 1%nat -> exists o, orient t i j = Ok o.
Proof.
  intros t i j H1 H2. unfold orient. destruct (row t i) as [|a [|? ?]]; try discriminate.
  destruct (row t j) as [|b [|? ?]]; try discriminate. eexists; reflexivity.
Qed.
Lemma orient_spec : forall t i j o, orient t i j = Ok o ->
  (o = Lead <-> time_of t i < time_of t j) /\ (o = Lag <-> time_of t j < time_of t i) /\
  (o = Coincident <-> time_of t i == time_of t j).
Proof.
  intros t i j o H. unfold orient, time_of in *. destruct (row t i) as [|a [|? ?]]; try discriminate.
  destruct (row t j) as [|b [|? ?]]; try discriminate. injection H as <-. cbn [nth].
  destruct (Qltb a b) eqn:X; [apply Qltb_lt in X|apply Qltb_ge in X];
    [|destruct (Qltb b a) eqn:Y; [apply Qltb_lt in Y|apply Qltb_ge in Y]]; repeat split; intros; try discriminate; try lra; try reflexivity.
Qed.
Lemma orient_det : forall t i j o o', orient t i j = Ok o -> orient t i j = Ok o' -> o = o'.
Proof. intros. congruence. Qed.
Lemma adj_rows : forall t ps adj, adjlist_of t ps = Ok adj ->
  map fst adj = sort_pairs (flat_map (fun p => [p; (snd p, fst p)]) ps) /\
  (forall i j o, In (i, j, o) adj -> orient t i j = Ok o).
Proof.
  intros t ps adj H. unfold adjlist_of in H. apply mapM_forall2 in H. revert H.
  generalize (sort_pairs (flat_map (fun p => [p; (snd p, fst p)]) ps)). intros l F.
  induction F as [|[i j] [[i' j'] o] l adj X F [IH1 IH2]].
  - split; [reflexivity|intros ? ? ? []].
  - cbn [fst snd] in X. destruct (orient t i j) as [o'|] eqn:O; cbn [bind] in X; [|discriminate]. injection X as <- <- <-.
    split; [cbn; rewrite IH1; reflexivity|]. intros a b o [Y|Y]; [injection Y as <- <- <-; auto|apply IH2; auto].
Qed.
Lemma doubled_in : forall (ps : list (nat * nat)) i j, In (i, j) (flat_map (fun p => [p; (snd p, fst p)]) ps) <-> In (i, j) ps \/ In (j, i) ps.
Proof.
  intros. rewrite in_flat_map. split.
  - intros [[a b] [H [E|[E|[]]]]]; cbn in E; injection E as <- <-; auto.
  - intros [H|H]; [exists (i, j)|exists (j, i)]; split; auto; simpl; auto.
Qed.
Lemma doubled_nodup : forall (ps : list (nat * nat)), NoDup ps -> (forall a b, In (a, b) ps -> (a < b)%nat) ->
  NoDup (flat_map (fun p => [p; (snd p, fst p)]) ps).
Proof.
  induction ps as [|[a b] ps IH]; intros N L; [constructor|]. inversion N; subst.
  cbn [flat_map app fst snd]. assert (X : (a < b)%nat) by (apply L; left; auto).
  constructor.
  - intros [E|Y]; [injection E as E1 E2; lia|]. apply doubled_in in Y. destruct Y as [Y|Y]; [contradiction|].
    assert ((b < a)%nat) by (apply L; right; auto). lia.
  - constructor; [|apply IH; auto; intros; apply L; right; auto].
    intros Y. apply doubled_in in Y. destruct Y as [Y|Y]; [|contradiction].
    assert ((b < a)%nat) by (apply L; right; auto). lia.
Qed.
Theorem C70_adjlist : forall ball, Ball ball -> forall s t delta tau gperms perms l,
  knox_local ball s t delta tau gperms perms = Ok l ->
  (forall i j, (exists o, In (i, j, o) (l_adj l)) <-> (i < List.length s)%nat /\ Near s t delta tau i j) /\
  (forall i j o, In (i, j, o) (l_adj l) ->
     (o = Lead <-> time_of t i < time_of t j) /\ (o = Lag <-> time_of t j < time_of t i) /\
     (o = Coincident <-> time_of t i == time_of t j)) /\
  NoDup (map fst (l_adj l)) /\ StronglySorted ple (map fst (l_adj l)) /\
  (forall i, (i < List.length s)%nat -> List.length (filter (fun r => Nat.eqb (fst (fst r)) i) (l_adj l)) = nth i (l_nsti l) 0%nat).
Proof.
  intros ball HB s t delta tau gperms perms l H.
  destruct (C68_local_counts ball HB _ _ _ _ _ _ _ H) as [_ [CN _]].
  destruct (local_inv _ _ _ _ _ _ _ _ H) as [K [_ [_ [_ [_ A]]]]].
  destruct (knox_inv ball HB _ _ _ _ _ _ K) as [E [_ [_ [_ [P _]]]]].
  destruct (adj_rows _ _ _ A) as [R1 R2].
  assert (I : forall a b, In (a, b) (k_st_pairs (l_knox l)) <-> (a < b < List.length s)%nat /\ nbst s t delta tau a b = true).
  { intros a b. rewrite P. apply st_pairs_in; auto. }
  assert (M : forall i j, In (i, j) (map fst (l_adj l)) <-> (i < List.length s)%nat /\ Near s t delta tau i j).
  { intros i j. rewrite R1. rewrite (Permutation_in' eq_refl (sort_pairs_perm _)). rewrite doubled_in, !I, near_nbst, (nbst_sym s t delta tau j i). split.
    - intros [[X Y]|[X Y]]; (split; [lia|split; [lia|auto]]).
    - intros [X [Y Z]]. destruct (Nat.lt_trichotomy i j) as [D|[D|D]]; [left; split; [lia|auto]| |right; split; [lia|auto]].
      subst. rewrite nbst_irrefl in Z. discriminate. }
  assert (N : NoDup (map fst (l_adj l))).
  { rewrite R1. apply (Permutation_NoDup (Permutation_sym (sort_pairs_perm _))). apply doubled_nodup.
    - rewrite P. apply st_pairs_nodup.
    - intros a b X. apply I in X. lia. }
  split; [|split; [|split; [auto|split]]].
  - intros i j. rewrite <- M, in_map_iff. split.
    + intros [o X]. exists (i, j, o). auto.
    + intros [[[a b] o] [X Y]]. cbn in X. injection X as -> ->. exists o. auto.
  - intros i j o X. apply orient_spec. apply R2. auto.
  - rewrite R1. apply sort_pairs_sorted.
  - intros i Hi. symmetry. apply CN; auto.
    exists (map (fun r => snd (fst r)) (filter (fun r => Nat.eqb (fst (fst r)) i) (l_adj l))). split; [|split].
    + apply NoDup_map_in; [apply NoDup_filter; eapply NoDup_map_inv; eauto|].
      intros [[a b] o] [[a' b'] o'] X Y Z. apply filter_In in X, Y. cbn [fst snd] in *. destruct X as [X X'], Y as [Y Y'].
      apply Nat.eqb_eq in X', Y'. subst. assert (o = o') by (eapply orient_det; apply R2; eauto). subst. auto.
    + intro j. rewrite in_map_iff. split.
      * intros [[[a b] o] [X Y]]. apply filter_In in Y. cbn [fst snd] in *. destruct Y as [Y Y']. apply Nat.eqb_eq in Y'. subst.
        apply (M i j). apply in_map_iff. exists (i, j, o). auto.
      * intro X. assert (Y : In (i, j) (map fst (l_adj l))) by (apply M; auto). apply in_map_iff in Y.
        destruct Y as [[[a b] o] [Y Z]]. cbn in Y. injection Y as -> ->. exists (i, j, o). split; auto.
        apply filter_In. split; auto. apply Nat.eqb_refl.
    + apply map_length.
Qed.
Print Assumptions C70_adjlist.

(** Both directions are listed with opposite orientation. *)
Definition opposite (o : orientation) : orientation := match o with Lead => Lag | Lag => Lead | Coincident => Coincident end.
Theorem C70_dual : forall ball, Ball ball -> forall s t delta tau gperms perms l i j o,
  knox_local ball s t delta tau gperms perms = Ok l ->
  In (i, j, o) (l_adj l) -> In (j, i, opposite o) (l_adj l).
Proof.
  intros ball HB s t delta tau gperms perms l i j o H X.
  destruct (C70_adjlist ball HB _ _ _ _ _ _ _ H) as [A [B _]].
  assert (Y : exists o', In (j, i, o') (l_adj l)).
  { apply A. assert (Z : exists o, In (i, j, o) (l_adj l)) by eauto. apply A in Z. destruct Z as [Hi Z].
    destruct Z as [Hj [D [C1 C2]]]. split; auto. split; auto. split; auto. split; apply Close_sym; auto. }
  destruct Y as [o' Y]. destruct (B _ _ _ X) as [X1 [X2 X3]], (B _ _ _ Y) as [Y1 [Y2 Y3]].
  replace (opposite o) with o'; auto.
  destruct o; cbn [opposite].
  - apply Y2. apply X1. auto.
  - apply Y1. apply X2. auto.
  - apply Y3. symmetry. apply X3. auto.
Qed.
Print Assumptions C70_dual.

(** The function succeeds on equally long arrays with one time column. *)
Theorem C70_total : forall ball, Ball ball -> forall s t delta tau gperms perms,
  List.length s = List.length t -> Forall (fun r => List.length r = 1%nat) t ->
  exists l, knox_local ball s t delta tau gperms perms = Ok l.
Proof.
  intros ball HB s t delta tau gperms perms E F.
  destruct (proj1 (proj2 (proj2 (C62_knox_total ball s t delta tau gperms))) E) as [k K].
  destruct (knox_inv ball HB _ _ _ _ _ _ K) as [_ [_ [_ [_ [P _]]]]].
  unfold knox_local. rewrite K. cbn [bind].
  assert (A : exists adj, adjlist_of t (k_st_pairs k) = Ok adj).
  { unfold adjlist_of. apply mapM_ok. intros [i j] X. cbn [fst snd].
    apply (Permutation_in _ (sort_pairs_perm _)) in X. apply doubled_in in X.
    assert (B : (i < List.length t)%nat /\ (j < List.length t)%nat).
    { destruct X as [X|X]; rewrite P in X; apply st_pairs_in in X; auto; lia. }
    rewrite Forall_forall in F. destruct (orient_one t i j) as [o ->].
    - apply F. apply nth_In. exact (proj1 B).
    - apply F. apply nth_In. exact (proj2 B).
    - eexists. reflexivity. }
  destruct A as [adj ->]. cbn [bind]. eexists. reflexivity.
Qed.
Print Assumptions C70_total.

(** Ids given by the user. *)
Theorem C70_ids : forall ids adj i j o, NoDup ids -> (i < List.length ids)%nat -> (j < List.length ids)%nat ->
  (forall r, In r adj -> (fst (fst r) < List.length ids)%nat /\ (snd (fst r) < List.length ids)%nat) ->
  (In (nth i ids 0%Z, nth j ids 0%Z, o) (relabel_adj ids adj) <-> In (i, j, o) adj) /\
  (NoDup (map fst adj) -> NoDup (map fst (relabel_adj ids adj))).
Proof.
  intros ids adj i j o N Hi Hj B.
  assert (I : forall a b, (a < List.length ids)%nat -> (b < List.length ids)%nat -> nth a ids 0%Z = nth b ids 0%Z -> a = b).
  { intros a b Ha Hb. apply (proj1 (NoDup_nth ids 0%Z) N); auto. }
  unfold relabel_adj. split.
  - rewrite in_map_iff. split.
    + intros [[[a b] o'] [X Y]]. cbn [fst snd] in X. injection X as X1 X2 X3. destruct (B _ Y) as [B1 B2]. cbn [fst snd] in *.
      apply I in X1; auto. apply I in X2; auto. subst. auto.
    + intro X. exists (i, j, o). auto.
  - intro D. rewrite map_map.
    assert (X : map (fun x : nat * nat * orientation => fst (nth (fst (fst x)) ids 0%Z, nth (snd (fst x)) ids 0%Z, snd x)) adj =
      map (fun p : nat * nat => (nth (fst p) ids 0%Z, nth (snd p) ids 0%Z)) (map fst adj)) by (rewrite map_map; reflexivity).
    rewrite X. clear X.
    apply NoDup_map_in; auto. intros [a b] [a' b'] X Y Z. cbn [fst snd] in Z. injection Z as Z1 Z2.
    apply in_map_iff in X, Y. destruct X as [r [R1 R2]], Y as [q [Q1 Q2]].
    destruct (B _ R2) as [R3 R4], (B _ Q2) as [Q3 Q4]. rewrite R1 in R3, R4. rewrite Q1 in Q3, Q4. cbn [fst snd] in *.
    f_equal; apply I; auto.
Qed.
Print Assumptions C70_ids.

(** ** C88: analytic p-values *)
Lemma others_length : forall n j, (j < n)%nat -> List.length (filter (fun i => negb (Nat.eqb i j)) (seq 0 n)) = (n - 1)%nat.
Proof.
  intros n j H. rewrite filter_ind.
  assert (X : forall m, list_sum (map (fun i => ind (negb (Nat.eqb i j))) (seq 0 m)) = (m - ind (Nat.ltb j m))%nat).
  { induction m; [reflexivity|]. rewrite seq_S', map_app, list_sum_app', IHm. cbn [map list_sum fold_right].
    destruct (Nat.eqb_spec m j), (Nat.ltb_spec j m), (Nat.ltb_spec j (S m)); cbn [ind negb]; lia. }
  rewrite X. apply Nat.ltb_lt in H. rewrite H. reflexivity.
Qed.
(** The analytic p-value is the mean over j of the probability that a random set of
    nsi[i] events other than j contains at least nsti[i] events close to j in time. *)
Theorem C88_hypergeometric : forall ball, Ball ball -> forall s t delta tau gperms perms l i,
  knox_local ball s t delta tau gperms perms = Ok l -> (i < List.length s)%nat -> (2 <= List.length s)%nat ->
  nth i (l_p_hg l) 0 == Qmean (map (fun j =>
     prob_at_least (filter (fun e => negb (Nat.eqb e j)) (seq 0 (List.length s))) (fun e => within tau (row t j) (row t e))
       (List.length (nth i (k_sn (l_knox l)) [])) (nth i (l_nsti l) 0%nat)) (seq 0 (List.length s))) /\
  0 <= nth i (l_p_hg l) 0 <= 1 /\
  (nth i (l_nsti l) 0%nat = 0%nat -> nth i (l_p_hg l) 0 == 1).
Proof.
  intros ball HB s t delta tau gperms perms l i H Hi N2.
  destruct (local_inv _ _ _ _ _ _ _ _ H) as [K [_ [_ [_ [HG _]]]]].
  destruct (knox_inv ball HB _ _ _ _ _ _ K) as [E [Sn [Tn _]]].
  set (n := List.length s) in *. set (x := nth i (l_nsti l) 0%nat) in *.
  set (N := List.length (nth i (k_sn (l_knox l)) [])) in *.
  assert (NB : (N <= n - 1)%nat).
  { unfold N. rewrite Sn. rewrite <- (others_length n i Hi). apply NoDup_incl_length.
    - apply neighbors_nodup.
    - intros j X. apply neighbors_in in X; auto. destruct X as [X1 X2]. apply filter_In. split; [apply in_seq; lia|].
      unfold nb in X2. apply andb_true_iff in X2. tauto. }
  assert (LN : 0 < Qnat n) by (apply Qlt_le_trans with (Qnat 1); [reflexivity|apply Qnat_le; lia]).
  assert (V : nth i (l_p_hg l) 0 = hg_pvalue n x N (map (@List.length nat) (k_tn (l_knox l)))).
  { rewrite HG, nth_map_seq by auto. reflexivity. }
  assert (KT : k_tn (l_knox l) = map (fun j => nth j (neighbors ball t tau) []) (seq 0 n)).
  { rewrite Tn. rewrite E, <- (neighbors_length ball t tau). symmetry. apply map_nth_seq. }
  set (U := fun j => filter (fun e => negb (Nat.eqb e j)) (seq 0 n)).
  set (f := fun j e => within tau (row t j) (row t e)).
  assert (TC : forall j, (j < n)%nat -> List.length (nth j (neighbors ball t tau) []) = count (f j) (U j)).
  { intros j Hj. unfold count. apply Permutation_length. apply NoDup_Permutation.
    - apply neighbors_nodup.
    - apply NoDup_filter, NoDup_filter, seq_NoDup.
    - intro e. rewrite (neighbors_in ball HB t tau j e) by (rewrite <- E; auto). unfold U, f, nb.
      rewrite !filter_In, in_seq, andb_true_iff, <- E. fold n. intuition lia. }
  assert (M : nth i (l_p_hg l) 0 == Qmean (map (fun j => prob_at_least (U j) (f j) N x) (seq 0 n))).
  { rewrite V. unfold hg_pvalue. unfold Qmean. rewrite KT, !map_map.
    assert (EL : Qlen (map (fun j => hg_cdf_below x (n - 1) (List.length (nth j (neighbors ball t tau) [])) N) (seq 0 n)) == Qnat n).
    { unfold Qlen. rewrite map_length, seq_length. reflexivity. }
    assert (ER : Qlen (map (fun j => prob_at_least (U j) (f j) N x) (seq 0 n)) == Qnat n).
    { unfold Qlen. rewrite map_length, seq_length. reflexivity. }
    rewrite EL, ER.
    rewrite (Qsum_map_ext' _ (fun j => prob_at_least (U j) (f j) N x) (fun j => 1 + (-1) * hg_cdf_below x (n - 1) (List.length (nth j (neighbors ball t tau) [])) N)).
    - rewrite Qsum_map_plus, Qsum_map_scale, Qsum_map_const. unfold Qlen. rewrite seq_length. change (inject_Z (Z.of_nat n)) with (Qnat n). field. lra.
    - intros j Hj. apply in_seq in Hj. rewrite TC by lia. rewrite <- (others_length n j) by lia. fold (U j).
      rewrite <- hg_tail; [ring|]. unfold U. rewrite others_length by lia. auto. }
  split; [exact M|].
  assert (RG : forall j, In j (seq 0 n) -> 0 <= prob_at_least (U j) (f j) N x <= 1 /\ (x = 0%nat -> prob_at_least (U j) (f j) N x == 1)).
  { intros j Hj. apply in_seq in Hj. apply prob_range. unfold U. rewrite others_length by lia. auto. }
  assert (ER : Qlen (map (fun j => prob_at_least (U j) (f j) N x) (seq 0 n)) == Qnat n).
  { unfold Qlen. rewrite map_length, seq_length. reflexivity. }
  split.
  - rewrite M. unfold Qmean. rewrite ER. split.
    + apply Qle_shift_div_l; auto. rewrite Qmult_0_l. apply Qsum_nonneg. intros y Y. apply in_map_iff in Y.
      destruct Y as [j [<- Y]]. apply RG; auto.
    + apply Qle_shift_div_r; auto.
      apply Qle_trans with (Qsum (map (fun _ => 1) (seq 0 n))).
      * apply Qsum_map_le. intros j Hj. apply RG; auto.
      * rewrite Qsum_map_const. unfold Qlen. rewrite seq_length. apply Qle_refl.
  - intro Z. rewrite M. unfold Qmean. rewrite ER.
    rewrite (Qsum_map_ext' _ _ (fun _ => 1)) by (intros j Hj; apply RG; auto).
    rewrite Qsum_map_const. unfold Qlen. rewrite seq_length. change (inject_Z (Z.of_nat n)) with (Qnat n). field. lra.
Qed.
Print Assumptions C88_hypergeometric.

Example C68_case :
  exists l, knox_local ball_down s_ex t_ex 1 1 [] [[1%nat;2%nat;3%nat;0%nat]; [3%nat;2%nat;1%nat;0%nat]] = Ok l /\
    l_nsti l = [1; 1; 0; 0]%nat /\ l_adj l = [(0, 1, Lead); (1, 0, Lag)]%nat /\
    l_sti_perm l = [[0; 0]; [1; 1]; [0; 0]; [0; 0]]%nat /\
    Forall2 Qeq (l_p_hg l) [1 # 2; 3 # 4; 1; 1].
Proof.
  eexists. split; [vm_compute; reflexivity|]. repeat split; try (vm_compute; reflexivity).
  repeat constructor; vm_compute; reflexivity.
Qed.
(** The example of the source comment: rids = 2 0 1. *)
Example C69_case : map (conditional [2;0;1]%nat) [0;1;2]%nat = [[0;2;1]; [2;1;0]; [1;0;2]]%nat.
Proof. vm_compute. reflexivity. Qed.
