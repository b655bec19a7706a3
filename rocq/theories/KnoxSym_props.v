(** Theorems on the symmetries of the Knox statistics. *)
From Coq Require Import ZArith QArith List Bool Arith Lia Lqa Permutation Sorting.Sorted.
From Verif Require Import Base BaseLemmas Spec Quadrat_model Spacetime_model Spacetime_spec Pairs_proofs Spacetime_proofs
  Spacetime2_proofs Spacetime_props KnoxLocal_props KnoxSym_spec KnoxSym_proofs.
Import ListNotations.
Local Open Scope Q_scope.

(** ** C120 *)
(** The global statistic, its tables, its permutation distribution and its p-value. *)
Theorem C120_global : forall ball ball' n pi ks kt s t s' t' delta tau delta' tau' perms perms' k k',
  Ball ball -> Ball ball' -> perm_of n pi -> List.length s = n -> List.length t = n -> 0 < ks -> 0 < kt ->
  delta' == ks * delta -> tau' == kt * tau -> same_shape pi ks s s' -> same_shape pi kt t t' ->
  Forall2 (conjugate n pi) perms perms' ->
  knox_global ball s t delta tau perms = Ok k -> knox_global ball' s' t' delta' tau' perms' = Ok k' ->
  k_ns k' = k_ns k /\ k_nt k' = k_nt k /\ k_nst k' = k_nst k /\ k_pairs k' = k_pairs k /\
  k_obs k' = k_obs k /\ k_exp k' = k_exp k /\ k_sim k' = k_sim k /\ knox_nst k' = knox_nst k /\
  (forall i j, (i < j)%nat -> (j < n)%nat -> (In (i, j) (k_st_pairs k') <-> In (sorted_pair (old pi i) (old pi j)) (k_st_pairs k))) /\
  (forall i j, In (i, j) (k_st_pairs k') -> (i < j < n)%nat) /\
  List.length (k_st_pairs k') = List.length (k_st_pairs k).
Proof.
  intros ball ball' n pi ks kt s t s' t' delta tau delta' tau' perms perms' k k' HB HB' P Ls Lt Ks Kt Ds Dt Ss St F H H'.
  assert (Ls' : List.length s' = n) by (rewrite (proj1 Ss); exact Ls).
  assert (Lt' : List.length t' = n) by (rewrite (proj1 St); exact Lt).
  assert (E1 : nsum (map (@List.length nat) (neighbors ball' s' delta')) = nsum (map (@List.length nat) (neighbors ball s delta))).
  { rewrite !neighbors_total, Ls, Ls' by auto. apply (total_shape n pi P). intros. apply (nbs n pi ks); auto. }
  assert (E2 : nsum (map (@List.length nat) (neighbors ball' t' tau')) = nsum (map (@List.length nat) (neighbors ball t tau))).
  { rewrite !neighbors_total, Lt, Lt' by auto. apply (total_shape n pi P). intros. apply (nbt n pi kt); auto. }
  assert (BB : forall i j, (i < n)%nat -> (j < n)%nat -> nbst s' t' delta' tau' i j = nbst s t delta tau (old pi i) (old pi j)).
  { intros. apply (nbb n pi ks kt); auto. }
  assert (E3 : nsum (map (@List.length nat) (map (fun ab => inter (fst ab) (snd ab)) (combine (neighbors ball' s' delta') (neighbors ball' t' tau')))) =
               nsum (map (@List.length nat) (map (fun ab => inter (fst ab) (snd ab)) (combine (neighbors ball s delta) (neighbors ball t tau))))).
  { pose proof (stn_total ball' HB' s' t' delta' tau' ltac:(congruence)) as A.
    pose proof (stn_total ball HB s t delta tau ltac:(congruence)) as B.
    unfold stn_of in A, B. rewrite A, B, Ls, Ls'. apply (total_shape n pi P). exact BB. }
  assert (E4 := perms_shape ball ball' HB HB' n pi ks kt delta tau delta' tau' s t s' t' P Ls Lt Ks Kt Ds Dt Ss St perms perms' F).
  destruct (knox_inv ball HB _ _ _ _ _ _ H) as [_ [_ [_ [_ [P1 _]]]]].
  destruct (knox_inv ball' HB' _ _ _ _ _ _ H') as [_ [_ [_ [_ [P2 _]]]]].
  assert (I1 : forall i j, In (i, j) (k_st_pairs k) <-> (i < j < n)%nat /\ nbst s t delta tau i j = true).
  { intros i j. rewrite P1, <- Ls. apply st_pairs_in; auto. congruence. }
  assert (I2 : forall i j, In (i, j) (k_st_pairs k') <-> (i < j < n)%nat /\ nbst s' t' delta' tau' i j = true).
  { intros i j. rewrite P2, <- Ls'. apply st_pairs_in; auto. congruence. }
  assert (LP : List.length (k_st_pairs k') = List.length (k_st_pairs k)).
  { assert (C1 : Card (fun ij => (fst ij < snd ij < n)%nat /\ nbst s t delta tau (fst ij) (snd ij) = true) (List.length (k_st_pairs k))).
    { exists (k_st_pairs k). split; [rewrite P1; apply st_pairs_nodup|]. split; [|reflexivity]. intros [a b]. apply I1. }
    assert (C2 : Card (fun ij => (fst ij < snd ij < n)%nat /\ nbst s' t' delta' tau' (fst ij) (snd ij) = true) (List.length (k_st_pairs k'))).
    { exists (k_st_pairs k'). split; [rewrite P2; apply st_pairs_nodup|]. split; [|reflexivity]. intros [a b]. apply I2. }
    rewrite (Card_unique _ _ _ _ C1 (card_upper (nbst s t delta tau) n)).
    rewrite (Card_unique _ _ _ _ C2 (card_upper (nbst s' t' delta' tau') n)).
    rewrite <- (upper_relabel (fun i j => ind (nbst s t delta tau i j)) n (old pi) (perm_relabel _ _ P)).
    2: { intros. rewrite nbst_sym. reflexivity. }
    apply upper_ext. intros i j X. rewrite BB by lia. reflexivity. }
  assert (LL : perms = [] <-> perms' = []) by (inversion F; subst; split; intro X; try reflexivity; discriminate).
  assert (LE : List.length perms' = List.length perms).
  { clear - F. induction F; cbn; auto. }
  assert (OUT : k_ns k' = k_ns k /\ k_nt k' = k_nt k /\ k_nst k' = k_nst k /\ k_pairs k' = k_pairs k /\
    k_obs k' = k_obs k /\ k_exp k' = k_exp k /\ k_sim k' = k_sim k).
  { unfold knox_global in H, H'. rewrite Ls, Lt, Nat.eqb_refl in H. rewrite Ls', Lt', Nat.eqb_refl in H'.
    injection H as <-. injection H' as <-. cbn [k_ns k_nt k_nst k_pairs k_obs k_exp k_sim]. rewrite E1, E2, E3, E4, LE.
    do 6 (split; [reflexivity|]). destruct F; reflexivity. }
  destruct OUT as (O1 & O2 & O3 & O4 & O5 & O6 & O7). do 7 (split; [assumption|]).
  split; [unfold knox_nst; rewrite O3; reflexivity|]. split; [|split; [|exact LP]].
  - intros i j Hij Hj. rewrite I2.
    assert (Oi := old_lt n pi P i ltac:(lia)). assert (Oj := old_lt n pi P j ltac:(lia)).
    destruct (perm_facts _ _ P) as [_ [_ I]].
    assert (D : old pi i <> old pi j) by (intro X; apply I in X; lia).
    unfold sorted_pair. destruct (Nat.leb_spec (old pi i) (old pi j)); rewrite I1, (BB i j) by lia.
    + split; intros [_ X]; split; auto; lia.
    + rewrite (nbst_sym s t delta tau (old pi j)). split; intros [_ X]; split; auto; lia.
  - intros i j X. apply I2 in X. tauto.
Qed.
Print Assumptions C120_global.

(** The local statistics: every event keeps its numbers. *)
Theorem C120_local : forall ball ball' n pi ks kt s t s' t' delta tau delta' tau' gperms gperms' perms perms' l l' back,
  Ball ball -> Ball ball' -> perm_of n pi -> List.length s = n -> List.length t = n -> 0 < ks -> 0 < kt ->
  delta' == ks * delta -> tau' == kt * tau -> same_shape pi ks s s' -> same_shape pi kt t t' -> same_order back pi t t' ->
  Forall2 (conjugate n pi) gperms gperms' -> Forall2 (conjugate n pi) perms perms' ->
  knox_local ball s t delta tau gperms perms = Ok l -> knox_local ball' s' t' delta' tau' gperms' perms' = Ok l' ->
  k_sim (l_knox l') = k_sim (l_knox l) /\
  (forall i, (i < n)%nat ->
     nth i (l_nsti l') 0%nat = nth (old pi i) (l_nsti l) 0%nat /\
     nth i (l_sti_perm l') [] = nth (old pi i) (l_sti_perm l) [] /\
     (l_p_sims l = None <-> l_p_sims l' = None) /\
     (forall ps ps', l_p_sims l = Some ps -> l_p_sims l' = Some ps' -> nth i ps' 0 = nth (old pi i) ps 0) /\
     nth i (l_p_hg l') 0 == nth (old pi i) (l_p_hg l) 0) /\
  (forall i j o, (i < n)%nat -> (j < n)%nat -> (In (i, j, o) (l_adj l') <-> In (old pi i, old pi j, turned back o) (l_adj l))) /\
  (forall i j o, In (i, j, o) (l_adj l') -> (i < n)%nat /\ (j < n)%nat).
Proof.
  intros ball ball' n pi ks kt s t s' t' delta tau delta' tau' gperms gperms' perms perms' l l' back
    HB HB' P Ls Lt Ks Kt Ds Dt Ss St OR FG F H H'.
  assert (Ls' : List.length s' = n) by (rewrite (proj1 Ss); exact Ls).
  assert (Lt' : List.length t' = n) by (rewrite (proj1 St); exact Lt).
  destruct (local_inv _ _ _ _ _ _ _ _ H) as [K [A1 [A2 [A3 [A4 A5]]]]].
  destruct (local_inv _ _ _ _ _ _ _ _ H') as [K' [B1 [B2 [B3 [B4 B5]]]]].
  destruct (knox_inv ball HB _ _ _ _ _ _ K) as [_ [Sn [Tn [_ [P1 _]]]]].
  destruct (knox_inv ball' HB' _ _ _ _ _ _ K') as [_ [Sn' [Tn' [_ [P2 _]]]]].
  destruct (C120_global _ _ _ _ _ _ _ _ _ _ _ _ _ _ _ _ _ _ HB HB' P Ls Lt Ks Kt Ds Dt Ss St FG K K') as (_ & _ & _ & _ & _ & _ & O7 & _).
  assert (BB : forall i j, (i < n)%nat -> (j < n)%nat -> nbst s' t' delta' tau' i j = nbst s t delta tau (old pi i) (old pi j)).
  { intros. apply (nbb n pi ks kt); auto. }
  assert (I1 : forall i j, In (i, j) (k_st_pairs (l_knox l)) <-> (i < j < n)%nat /\ nbst s t delta tau i j = true).
  { intros i j. rewrite P1, <- Ls. apply st_pairs_in; auto. congruence. }
  assert (I2 : forall i j, In (i, j) (k_st_pairs (l_knox l')) <-> (i < j < n)%nat /\ nbst s' t' delta' tau' i j = true).
  { intros i j. rewrite P2, <- Ls'. apply st_pairs_in; auto. congruence. }
  assert (N1 : forall i, (i < n)%nat -> nth i (l_nsti l) 0%nat = list_sum (map (fun j => ind (nbst s t delta tau i j)) (seq 0 n))).
  { intros i Hi. rewrite A1, Ls. destruct (nsti_facts n (k_st_pairs (l_knox l))) as [_ [F2 _]].
    { intros [a b] X. apply I1 in X. cbn [fst snd]. lia. }
    rewrite F2. apply touch_count; auto; [rewrite P1; apply st_pairs_nodup|intros; apply nbst_sym|intros; apply nbst_irrefl]. }
  assert (N2 : forall i, (i < n)%nat -> nth i (l_nsti l') 0%nat = list_sum (map (fun j => ind (nbst s' t' delta' tau' i j)) (seq 0 n))).
  { intros i Hi. rewrite B1, Ls'. destruct (nsti_facts n (k_st_pairs (l_knox l'))) as [_ [F2 _]].
    { intros [a b] X. apply I2 in X. cbn [fst snd]. lia. }
    rewrite F2. apply touch_count; auto; [rewrite P2; apply st_pairs_nodup|intros; apply nbst_sym|intros; apply nbst_irrefl]. }
  assert (NN : forall i, (i < n)%nat -> nth i (l_nsti l') 0%nat = nth (old pi i) (l_nsti l) 0%nat).
  { intros i Hi. rewrite N2, N1 by (auto using old_lt). apply (row_shape n pi P (nbst s t delta tau)); auto. }
  assert (SS : forall i, (i < n)%nat -> nth i (l_sti_perm l') [] = nth (old pi i) (l_sti_perm l) []).
  { intros i Hi. rewrite A2, B2, Ls, Ls', !nth_map_seq by (auto using old_lt). rewrite Sn, Tn, Sn', Tn'.
    clear - HB HB' P Ls Lt Ks Kt Ds Dt Ss St Ls' Lt' F Hi. induction F as [|a b la lb C F IH]; [reflexivity|]. cbn [map]. rewrite IH. f_equal.
    apply (local_shape ball ball' HB HB' n pi ks kt); auto. }
  assert (LE : List.length perms' = List.length perms) by (clear - F; induction F; cbn; auto).
  split; [exact O7|]. split; [|split].
  - intros i Hi. split; [auto|]. split; [auto|]. split; [|split].
    + rewrite A3, B3. destruct F; [tauto|]. split; discriminate.
    + intros ps ps' E E'. rewrite A3 in E. rewrite B3 in E'. destruct F as [|a b la lb C F]; [discriminate|].
      injection E as <-. injection E' as <-. rewrite Ls, Ls', !nth_map_seq by (auto using old_lt).
      rewrite (SS i Hi), (NN i Hi). cbn [List.length] in LE |- *. rewrite LE. reflexivity.
    + rewrite A4, B4, Ls, Ls', !nth_map_seq by (auto using old_lt). rewrite (NN i Hi). unfold hg_pvalue.
      assert (LS : List.length (nth i (k_sn (l_knox l')) []) = List.length (nth (old pi i) (k_sn (l_knox l)) [])).
      { rewrite Sn, Sn'. rewrite !neighbors_len by (rewrite ?Ls, ?Ls'; auto using old_lt). rewrite Ls, Ls'.
        apply (row_shape n pi P (nb s delta)); auto. intros. apply (nbs n pi ks); auto. }
      rewrite LS. set (g := fun K => hg_cdf_below (nth (old pi i) (l_nsti l) 0%nat) (n - 1) K (List.length (nth (old pi i) (k_sn (l_knox l)) []))).
      assert (PM : Permutation (map (@List.length nat) (k_tn (l_knox l'))) (map (@List.length nat) (k_tn (l_knox l)))).
      { rewrite Tn, Tn'. rewrite <- (map_nth_seq _ [] (neighbors ball' t' tau')), <- (map_nth_seq _ [] (neighbors ball t tau)).
        rewrite !map_map, !neighbors_length, Lt, Lt'.
        rewrite (map_ext_in _ (fun i => list_sum (map (fun j => ind (nb t tau (old pi i) j)) (seq 0 n))) (seq 0 n)).
        2: { intros a Ha. apply in_seq in Ha. rewrite neighbors_len by (auto; lia). rewrite Lt'.
             apply (row_shape n pi P (nb t tau)); [|lia]. intros. apply (nbt n pi kt); auto. }
        rewrite <- (map_map (old pi) (fun i => list_sum (map (fun j => ind (nb t tau i j)) (seq 0 n)))).
        rewrite (map_ext_in (fun i => List.length (nth i (neighbors ball t tau) [])) (fun i => list_sum (map (fun j => ind (nb t tau i j)) (seq 0 n))) (seq 0 n)).
        2: { intros a Ha. apply in_seq in Ha. rewrite neighbors_len by (auto; lia). rewrite Lt. reflexivity. }
        apply Permutation_map. apply perm_relabel. exact P. }
      unfold Qmean, Qlen. rewrite (Permutation_length (Permutation_map g PM)).
      rewrite (Qsum_perm _ _ (Permutation_map g PM)). reflexivity.
  - assert (D : forall q nn lv, (forall i j, In (i, j) (k_st_pairs (l_knox lv)) <-> (i < j < nn)%nat /\ nbst (fst (fst q)) (snd (fst q)) (fst (snd q)) (snd (snd q)) i j = true) ->
      forall tt, adjlist_of tt (k_st_pairs (l_knox lv)) = Ok (l_adj lv) ->
      forall i j o, In (i, j, o) (l_adj lv) <-> (i < nn)%nat /\ (j < nn)%nat /\
        nbst (fst (fst q)) (snd (fst q)) (fst (snd q)) (snd (snd q)) i j = true /\ orient tt i j = Ok o).
    { intros [[qs qt] [qd qu]] nn lv. cbn [fst snd]. intros I tt A i j o. destruct (adj_rows _ _ _ A) as [R1 R2].
      assert (M : forall i j, In (i, j) (map fst (l_adj lv)) <-> (i < nn)%nat /\ (j < nn)%nat /\ nbst qs qt qd qu i j = true).
      { intros a b. rewrite R1. split.
        - intro X. apply (Permutation_in _ (sort_pairs_perm _)) in X. apply doubled_in in X. destruct X as [X|X]; apply I in X.
          + intuition lia.
          + rewrite nbst_sym. intuition lia.
        - intros (X1 & X2 & X3). apply (Permutation_in _ (Permutation_sym (sort_pairs_perm _))). apply doubled_in.
          assert (a <> b) by (intro; subst; rewrite nbst_irrefl in X3; discriminate).
          destruct (Nat.lt_ge_cases a b); [left; apply I; split; auto; lia|right; apply I; rewrite nbst_sym; split; auto; lia]. }
      split.
      - intro X. assert (Y : In (i, j) (map fst (l_adj lv))) by (apply in_map_iff; exists (i, j, o); auto).
        apply M in Y. destruct Y as (Y1 & Y2 & Y3). repeat split; auto.
      - intros (Y1 & Y2 & Y3 & Y4). assert (Y : In (i, j) (map fst (l_adj lv))) by (apply M; auto).
        apply in_map_iff in Y. destruct Y as [[[a b] o'] [E Y]]. cbn [fst] in E. injection E as -> ->.
        pose proof (R2 _ _ _ Y) as Z. rewrite Y4 in Z. injection Z as <-. exact Y. }
    intros i j o Hi Hj.
    rewrite (D ((s', t'), (delta', tau')) n l' I2 t' B5 i j o), (D ((s, t), (delta, tau)) n l I1 t A5 (old pi i) (old pi j) (turned back o)). cbn [fst snd].
    rewrite (BB i j Hi Hj). pose proof (old_lt n pi P i Hi) as Oi. pose proof (old_lt n pi P j Hj) as Oj.
    assert (OO : forall o, nbst s t delta tau (old pi i) (old pi j) = true -> orient t' i j = Ok o -> orient t (old pi i) (old pi j) = Ok (turned back o)).
    { intros o0 NB X.
      assert (W : exists o1, orient t (old pi i) (old pi j) = Ok o1).
      { destruct (adj_rows _ _ _ A5) as [R1 R2].
        assert (Y : In (old pi i, old pi j) (map fst (l_adj l))).
        { rewrite R1. apply (Permutation_in _ (Permutation_sym (sort_pairs_perm _))). apply doubled_in.
          assert (old pi i <> old pi j) by (intro Z; rewrite Z, nbst_irrefl in NB; discriminate).
          destruct (Nat.lt_ge_cases (old pi i) (old pi j)); [left; apply I1; split; auto; lia|right; apply I1; rewrite nbst_sym; split; auto; lia]. }
        apply in_map_iff in Y. destruct Y as [[[a b] o'] [E Y]]. cbn [fst] in E. injection E as -> ->. exists o'. apply R2. exact Y. }
      destruct W as [o1 W]. rewrite W. f_equal.
      destruct (orient_spec _ _ _ _ X) as (X1 & X2 & X3). destruct (orient_spec _ _ _ _ W) as (W1 & W2 & W3).
      pose proof (OR i j ltac:(lia) ltac:(lia)) as Q1. pose proof (OR j i ltac:(lia) ltac:(lia)) as Q2.
      destruct back; cbn [turned]; destruct o0.
      - apply W2. apply Q1. apply X1. reflexivity.
      - apply W1. apply Q2. apply X2. reflexivity.
      - apply W3. assert (X4 := proj1 X3 eq_refl). destruct o1; try (apply W3; reflexivity).
        + exfalso. assert (Z := proj1 W1 eq_refl). apply Q2 in Z. lra.
        + exfalso. assert (Z := proj1 W2 eq_refl). apply Q1 in Z. lra.
      - apply W1. apply Q1. apply X1. reflexivity.
      - apply W2. apply Q2. apply X2. reflexivity.
      - apply W3. assert (X4 := proj1 X3 eq_refl). destruct o1; try (apply W3; reflexivity).
        + exfalso. assert (Z := proj1 W1 eq_refl). apply Q1 in Z. lra.
        + exfalso. assert (Z := proj1 W2 eq_refl). apply Q2 in Z. lra. }
    split.
    + intros (_ & _ & NB & X). repeat split; auto.
    + intros (_ & _ & NB & X). repeat split; auto.
      assert (W : exists o1, orient t' i j = Ok o1).
      { destruct (adj_rows _ _ _ B5) as [R1 R2].
        assert (Y : In (i, j) (map fst (l_adj l'))).
        { rewrite R1. apply (Permutation_in _ (Permutation_sym (sort_pairs_perm _))). apply doubled_in.
          assert (i <> j) by (intro Z; rewrite Z, nbst_irrefl in NB; discriminate).
          destruct (Nat.lt_ge_cases i j); [left; apply I2; rewrite BB; auto; split; auto; lia|right; apply I2; rewrite BB, nbst_sym; auto; split; auto; lia]. }
        apply in_map_iff in Y. destruct Y as [[[a b] o'] [E Y]]. cbn [fst] in E. injection E as -> ->. exists o'. apply R2. exact Y. }
      destruct W as [o1 W]. rewrite W. f_equal. pose proof (OO _ NB W) as Z. rewrite X in Z. injection Z as Z.
      destruct back, o, o1; cbn in Z; congruence.
  - intros i j o X.
    destruct (adj_rows _ _ _ B5) as [R1 _]. assert (Y : In (i, j) (map fst (l_adj l'))) by (apply in_map_iff; exists (i, j, o); auto).
    rewrite R1 in Y. apply (Permutation_in _ (sort_pairs_perm _)) in Y. apply doubled_in in Y. destruct Y as [Y|Y]; apply I2 in Y; lia.
Qed.
Print Assumptions C120_local.

(** Every rearrangement has exactly one counterpart in the new numbering, so the events
    may be listed in any order as far as the distribution over all rearrangements goes. *)
Theorem C120_rearrangements : forall n pi rids, perm_of n pi -> perm_of n rids ->
  exists rids', conjugate n pi rids rids' /\ forall r, conjugate n pi rids r -> r = rids'.
Proof.
  intros n pi rids P R. destruct (perm_facts _ _ P) as [LP [BP IP]]. destruct (perm_facts _ _ R) as [LR [BR IR]].
  assert (SU : forall x, (x < n)%nat -> exists j, (j < n)%nat /\ old pi j = x).
  { intros x Hx. assert (X : In x pi) by (apply (Permutation_in _ (Permutation_sym P)); apply in_seq; lia).
    apply (In_nth _ _ 0%nat) in X. destruct X as [j [Hj E]]. exists j. split; [lia|exact E]. }
  assert (CH : forall m, (m <= n)%nat -> exists l, List.length l = m /\ forall i, (i < m)%nat -> (nth i l 0 < n)%nat /\ old pi (nth i l 0%nat) = nth (old pi i) rids 0%nat).
  { induction m as [|m IH]; intro Hm; [exists []; split; [reflexivity|intros; lia]|]. destruct (IH ltac:(lia)) as [l [L H]].
    destruct (SU (nth (old pi m) rids 0%nat)) as [j [Hj E]]; [apply BR, BP; lia|].
    exists (l ++ [j]). split; [rewrite app_length, L; cbn; lia|]. intros i Hi. destruct (Nat.eq_dec i m) as [->|D].
    - rewrite app_nth2, L, Nat.sub_diag by lia. cbn [nth]. auto.
    - rewrite app_nth1 by lia. apply H. lia. }
  destruct (CH n (le_n n)) as [l [L H]]. exists l.
  assert (C : conjugate n pi rids l).
  { split; [exact R|]. split; [|intros i Hi; apply H; auto]. apply perm_of_inj; [exact L|intros i Hi; apply H; auto|].
    intros i j Hi Hj E. apply IP; auto. apply IR; [apply BP; auto|apply BP; auto|].
    change (nth (old pi i) rids 0%nat = nth (old pi j) rids 0%nat). rewrite <- (proj2 (H i Hi)), <- (proj2 (H j Hj)), E. reflexivity. }
  split; [exact C|]. intros r (_ & C2 & C3). destruct (perm_facts _ _ C2) as [L2 [B2 _]].
  apply (nth_ext _ _ 0%nat 0%nat); [lia|]. intros i Hi. rewrite L2 in Hi. apply IP; [apply B2; auto|apply H; auto|].
  change (old pi (nth i r 0%nat) = old pi (nth i l 0%nat)). rewrite (C3 i Hi). symmetry. apply H. exact Hi.
Qed.
Print Assumptions C120_rearrangements.

Lemma sqdist_moved : forall k p q sh p' q', List.length p = List.length sh -> List.length q = List.length sh ->
  Forall2 Qeq p' (map (fun ab => k * fst ab + snd ab) (combine p sh)) ->
  Forall2 Qeq q' (map (fun ab => k * fst ab + snd ab) (combine q sh)) -> sqdist p' q' == k * k * sqdist p q.
Proof.
  intros k. induction p as [|a p IH]; intros q [|c sh] p' q' Lp Lq Hp Hq; cbn [List.length] in Lp, Lq; try discriminate.
  - destruct q; [|discriminate]. inversion Hp. inversion Hq. cbn. ring.
  - destruct q as [|b q]; [discriminate|]. cbn [combine map fst snd] in Hp, Hq.
    destruct p' as [|a' p']; [inversion Hp|]. destruct q' as [|b' q']; [inversion Hq|].
    assert (H3 : a' == k * a + c /\ Forall2 Qeq p' (map (fun ab => k * fst ab + snd ab) (combine p sh))) by (inversion Hp; auto).
    assert (H5 : b' == k * b + c /\ Forall2 Qeq q' (map (fun ab => k * fst ab + snd ab) (combine q sh))) by (inversion Hq; auto).
    destruct H3 as [H3 H4], H5 as [H5 H6].
    cbn [sqdist]. rewrite (IH q sh p' q') by (auto; lia). rewrite H3, H5. ring.
Qed.

(** Motions that satisfy the conditions: other units and origins, rotations, reflections;
    a negative factor for the times turns the order round. *)
Theorem C120_motions : forall n pi c c', perm_of n pi -> List.length c = n ->
  (forall k m shift, moved_rows pi k shift c c' -> m * m == k * k -> same_shape pi m c c') /\
  (forall u v mirror, turned_rows pi u v mirror c c' -> u * u + v * v == 1 -> same_shape pi 1 c c') /\
  (forall k b, moved_rows pi k [b] c c' -> (0 < k -> same_order false pi c c') /\ (k < 0 -> same_order true pi c c')).
Proof.
  intros n pi c c' P L. split; [|split].
  - intros k m shift [L' H] M. split; [exact L'|]. intros i j Hi Hj. destruct (H i Hi) as [A1 A2]. destruct (H j Hj) as [B1 B2].
    rewrite M. apply (sqdist_moved k _ _ shift); auto.
  - intros u v mirror [L' H] U. split; [exact L'|]. intros i j Hi Hj. destruct (H i Hi) as (x & y & E & A). destruct (H j Hj) as (x' & y' & E' & B).
    rewrite E, E'. inversion A as [|a1 ? ra ? A1 A2]; subst. inversion A2 as [|a2 ? ra' ? A3 A4]; subst. inversion A4; subst.
    inversion B as [|b1 ? rb ? B1 B2]; subst. inversion B2 as [|b2 ? rb' ? B3 B4]; subst. inversion B4; subst.
    cbn [sqdist]. rewrite A1, A3, B1, B3.
    setoid_replace (1 * 1 * ((x - x') * (x - x') + ((y - y') * (y - y') + 0))) with ((u * u + v * v) * ((x - x') * (x - x') + (y - y') * (y - y'))) by (rewrite U; ring).
    destruct mirror; ring.
  - intros k b [L' H].
    assert (T : forall i, (i < List.length c)%nat -> time_of c' i == k * time_of c (old pi i) + b).
    { intros i Hi. destruct (H i Hi) as [A1 A2]. unfold time_of. destruct (row c (old pi i)) as [|x [|? ?]]; try discriminate.
      cbn [combine map fst snd] in A2. inversion A2 as [|a1 ? ra ? A3 A4]; subst. cbn [nth]. exact A3. }
    split; intros K i j Hi Hj; rewrite (T i Hi), (T j Hj); split; intro X; nra.
Qed.
Print Assumptions C120_motions.

(** With the same rearrangements, that is the same seed, listing the events in another
    order can change the p-value. *)
Theorem C120_seed_refuted : exists s t s' t' pi k k' p p',
  perm_of 4 pi /\ same_shape pi 1 s s' /\ same_shape pi 1 t t' /\
  knox_global ball_up s t 1 1 [[0; 1; 3; 2]%nat] = Ok k /\ knox_global ball_up s' t' 1 1 [[0; 1; 3; 2]%nat] = Ok k' /\
  k_nst k' == k_nst k /\ option_map (fun x => fst (fst x)) (k_sim k) = Some p /\
  option_map (fun x => fst (fst x)) (k_sim k') = Some p' /\ ~ p == p'.
Proof.
  exists [[0; 0]; [1; 0]; [10; 0]; [20; 0]], [[0]; [1]; [10]; [20]], [[0; 0]; [10; 0]; [1; 0]; [20; 0]], [[0]; [10]; [1]; [20]], [0; 2; 1; 3]%nat.
  assert (SH : forall c : list vec, same_shape [0; 2; 1; 3]%nat 1 c (map (row c) [0; 2; 1; 3]%nat) \/ List.length c <> 4%nat).
  { intro c. destruct (Nat.eq_dec (List.length c) 4) as [E|]; [left|right; auto]. split; [rewrite E; reflexivity|].
    intros i j Hi Hj. rewrite E in Hi, Hj. unfold old. destruct i as [|[|[|[|i]]]]; try lia; destruct j as [|[|[|[|j]]]]; try lia; cbn [nth map row]; ring. }
  eexists _, _, _, _. split; [|split; [|split; [|split; [|split]]]].
  - apply perm_of_inj; [reflexivity| |].
    + intros i Hi. destruct i as [|[|[|[|i]]]]; cbn; lia.
    + intros i j Hi Hj. destruct i as [|[|[|[|i]]]]; try lia; destruct j as [|[|[|[|j]]]]; try lia; cbn; intro; congruence.
  - destruct (SH [[0; 0]; [1; 0]; [10; 0]; [20; 0]]) as [X|X]; [exact X|contradiction X; reflexivity].
  - destruct (SH [[0]; [1]; [10]; [20]]) as [X|X]; [exact X|contradiction X; reflexivity].
  - vm_compute; reflexivity.
  - vm_compute; reflexivity.
  - split; [vm_compute; reflexivity|]. split; [vm_compute; reflexivity|]. split; [vm_compute; reflexivity|]. vm_compute. discriminate.
Qed.
Print Assumptions C120_seed_refuted.

(** The four events of [C62_case], rotated by 3-4-5, in units of 1/2, listed backwards,
    with time running backwards in units of 1/3. *)
Definition s_turned : list vec := [[2 * (27 / 5 - 36 / 5); 2 * (36 / 5 + 27 / 5)]; [2 * (3 / 5 - 4 / 5); 2 * (4 / 5 + 3 / 5)]; [2 * (3 / 5); 2 * (4 / 5)]; [0; 0]].
Definition t_turned : list vec := [[7 - 3 * 1]; [7 - 3 * 5]; [7 - 3 * 1]; [7 - 3 * 0]].
Example C120_case :
  (exists k, knox_global ball_down s_turned t_turned 2 3 [[3; 2; 1; 0]%nat] = Ok k /\ k_ns k == 2 /\ k_nt k == 3 /\ k_nst k == 1 /\ k_st_pairs k = [(2, 3)%nat]) /\
  (exists l l', knox_local ball_up s_ex t_ex 1 1 [] [[1; 0; 2; 3]%nat] = Ok l /\ knox_local ball_down s_turned t_turned 2 3 [] [[0; 1; 3; 2]%nat] = Ok l' /\
     l_nsti l = [1; 1; 0; 0]%nat /\ l_nsti l' = [0; 0; 1; 1]%nat /\ l_adj l = [(0, 1, Lead); (1, 0, Lag)]%nat /\ l_adj l' = [(2, 3, Lead); (3, 2, Lag)]%nat) /\
  conjugate 4 [3; 2; 1; 0]%nat [1; 0; 2; 3]%nat [0; 1; 3; 2]%nat.
Proof.
  split; [eexists; split; [vm_compute; reflexivity|]; repeat split; vm_compute; reflexivity|].
  split; [do 2 eexists; split; [vm_compute; reflexivity|]; split; [vm_compute; reflexivity|]; repeat split; vm_compute; reflexivity|].
  assert (PF : forall l : list nat, List.length l = 4%nat -> (forall i, (i < 4)%nat -> (nth i l 0 < 4)%nat) ->
    (forall i j, (i < 4)%nat -> (j < 4)%nat -> nth i l 0%nat = nth j l 0%nat -> i = j) -> perm_of 4 l) by (intros; apply perm_of_inj; auto).
  split; [|split].
  - apply PF; [reflexivity|intros [|[|[|[|i]]]] Hi; cbn; lia|].
    intros i j Hi Hj. destruct i as [|[|[|[|i]]]]; try lia; destruct j as [|[|[|[|j]]]]; try lia; cbn; intro; congruence.
  - apply PF; [reflexivity|intros [|[|[|[|i]]]] Hi; cbn; lia|].
    intros i j Hi Hj. destruct i as [|[|[|[|i]]]]; try lia; destruct j as [|[|[|[|j]]]]; try lia; cbn; intro; congruence.
  - intros [|[|[|[|i]]]] Hi; try lia; reflexivity.
Qed.
