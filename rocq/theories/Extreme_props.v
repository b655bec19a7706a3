(** C130: the space-time tests at thresholds that tell no two pairs apart. *)
From Coq Require Import ZArith QArith Qabs List Bool Arith Lia Lqa Permutation.
From Verif Require Import Base BaseLemmas Spec Quadrat_model Spacetime_model Spacetime_spec Pairs_proofs Spacetime_proofs
  Spacetime2_proofs Spacetime_props Spacetime3_props KnoxLocal_props Hyper_proofs Extreme_spec.
Import ListNotations.
Local Open Scope Q_scope.

(** In terms of the matrix of closeness. *)
Lemma flat_nb : forall c r, Uninformative c r ->
  exists b, forall i j, (i < List.length c)%nat -> (j < List.length c)%nat -> i <> j -> nb c r i j = b.
Proof.
  intros c r [A|A].
  - exists true. intros i j Hi Hj D. unfold nb. rewrite (proj2 (within_iff r _ _) (A i j Hi Hj D)), andb_true_r.
    apply negb_true_iff, Nat.eqb_neq. congruence.
  - exists false. intros i j Hi Hj D. unfold nb. destruct (within r (row c i) (row c j)) eqn:W; [|apply andb_false_r].
    apply within_iff in W. exfalso. exact (A i j Hi Hj D W).
Qed.

Lemma flat_upper : forall s t delta tau rids, List.length s = List.length t -> perm_of (List.length s) rids ->
  Uninformative s delta \/ Uninformative t tau ->
  upper (fun i j => ind (nbst s (permuted t rids) delta tau i j)) (List.length s) =
  upper (fun i j => ind (nbst s t delta tau i j)) (List.length s).
Proof.
  intros s t delta tau rids E P U. destruct (perm_facts _ _ P) as (L & B & I).
  assert (PT : perm_of (List.length t) rids) by (rewrite <- E; exact P). destruct U as [U|U].
  - destruct (flat_nb _ _ U) as (b & F).
    assert (X : forall u, upper (fun i j => ind (nbst s u delta tau i j)) (List.length s) =
                          upper (fun i j => ind (b && nb u tau i j)) (List.length s)).
    { intro u. apply upper_ext. intros i j H. unfold nbst. rewrite F by lia. reflexivity. }
    rewrite !X. destruct b; cbn [andb].
    + rewrite (upper_permuted t tau rids); auto.
    + reflexivity.
  - destruct (flat_nb _ _ U) as (b & F). apply upper_ext. intros i j H. unfold nbst.
    rewrite nb_permuted by (auto; lia).
    rewrite F; [|rewrite <- E; apply B; lia|rewrite <- E; apply B; lia|].
    + rewrite F by lia. reflexivity.
    + intro Q. apply I in Q; lia.
Qed.

(** ** The global test *)
Theorem C130_global : forall ball, Ball ball -> forall s t delta tau perms k,
  knox_global ball s t delta tau perms = Ok k -> Uninformative s delta \/ Uninformative t tau ->
  Forall (perm_of (List.length s)) perms ->
  (forall p e sims, k_sim k = Some (p, e, sims) -> Forall (fun v => v == k_nst k) sims /\ p == 1) /\
  ((2 <= List.length s)%nat -> exists e00 e01 e10 e11, k_exp k = Some (e00, e01, e10, e11) /\ e00 == k_nst k) /\
  (AllClose s delta -> k_nst k == k_nt k) /\ (AllClose t tau -> k_nst k == k_ns k) /\
  (NoneClose s delta \/ NoneClose t tau -> k_nst k == 0).
Proof.
  intros ball HB s t delta tau perms k H U F.
  destruct (knox_inv ball HB _ _ _ _ _ _ H) as [E [Sn [Tn [_ [_ [N1 [N2 [N3 NP]]]]]]]].
  assert (AS : AllClose s delta -> forall i j, (i < j < List.length s)%nat -> nb s delta i j = true).
  { intros A i j X. unfold nb. rewrite (proj2 (within_iff delta _ _) (A i j ltac:(lia) ltac:(lia) ltac:(lia))), andb_true_r.
    apply negb_true_iff, Nat.eqb_neq. lia. }
  assert (AT : AllClose t tau -> forall i j, (i < j < List.length s)%nat -> nb t tau i j = true).
  { intros A i j X. unfold nb. rewrite (proj2 (within_iff tau _ _) (A i j ltac:(lia) ltac:(lia) ltac:(lia))), andb_true_r.
    apply negb_true_iff, Nat.eqb_neq. lia. }
  assert (NS : NoneClose s delta -> forall i j, (i < j < List.length s)%nat -> nb s delta i j = false).
  { intros A i j X. unfold nb. destruct (within delta (row s i) (row s j)) eqn:W; [|apply andb_false_r].
    apply within_iff in W. exfalso. apply (A i j ltac:(lia) ltac:(lia) ltac:(lia) W). }
  assert (NT : NoneClose t tau -> forall i j, (i < j < List.length s)%nat -> nb t tau i j = false).
  { intros A i j X. unfold nb. destruct (within tau (row t i) (row t j)) eqn:W; [|apply andb_false_r].
    apply within_iff in W. exfalso. apply (A i j ltac:(lia) ltac:(lia) ltac:(lia) W). }
  set (n := List.length s) in *.
  assert (Z0 : upper (fun _ _ => 0%nat) n = 0%nat).
  { clear. induction n as [|m IH]; [reflexivity|]. rewrite upper_S, IH, list_sum_const. lia. }
  assert (G1 : AllClose s delta -> k_nst k == k_nt k).
  { intro A. rewrite N3, N2. rewrite (upper_ext _ (fun i j => ind (nb t tau i j))); [reflexivity|].
    intros i j X. unfold nbst. rewrite (AS A i j X). reflexivity. }
  assert (G2 : AllClose t tau -> k_nst k == k_ns k).
  { intro A. rewrite N3, N1. rewrite (upper_ext _ (fun i j => ind (nb s delta i j))); [reflexivity|].
    intros i j X. unfold nbst. rewrite (AT A i j X), andb_true_r. reflexivity. }
  assert (G3 : NoneClose s delta \/ NoneClose t tau -> k_nst k == 0).
  { intros A. rewrite N3. rewrite (upper_ext _ (fun _ _ => 0%nat)); [rewrite Z0; reflexivity|].
    intros i j X. unfold nbst. destruct A as [A|A]; [rewrite (NS A i j X)|rewrite (NT A i j X), andb_false_r]; reflexivity. }
  split; [|split; [|split; [exact G1|split; [exact G2|exact G3]]]].
  - intros p e sims S.
    assert (V : Forall (fun v => v == k_nst k) sims).
    { assert (X : sims = map (knox_perm (neighbors ball s delta) (neighbors ball t tau)) perms).
      { unfold knox_global in H. fold n in H. rewrite E, Nat.eqb_refl in H. injection H as H. subst k. cbn [k_sim] in S.
        destruct perms; [discriminate|]. injection S as _ _ S. auto. }
      subst sims. clear S H. apply Forall_forall. intros v Q. apply in_map_iff in Q. destruct Q as (rids & <- & Q).
      pose proof (proj1 (Forall_forall _ _) F rids Q) as P.
      rewrite knox_perm_upper by auto. fold n. unfold n at 1. rewrite flat_upper by auto. symmetry. exact N3. }
    split; [exact V|].
    destruct (C65_knox_pvalue ball s t delta tau perms k p e sims H S) as (_ & _ & _ & _ & X). apply X.
    eapply Forall_impl; [|exact V]. cbv beta. intros v Q. rewrite Q. apply Qle_refl.
  - intro N2'. destruct (C63_expected ball HB _ _ _ _ _ _ H) as [_ X]. destruct (X N2') as (e00 & e01 & e10 & e11 & EE & PP & E0 & _).
    exists e00, e01, e10, e11. split; [exact EE|].
    assert (PU : k_pairs k == Qnat (upper (fun _ _ => 1%nat) n)) by (rewrite NP; apply upper_pairs).
    assert (C : ~ k_pairs k == 0) by lra.
    assert (D : forall x y, x * k_pairs k == y * k_pairs k -> x == y).
    { intros x y Q. apply Qmult_inj_r in Q; assumption. }
    apply D. rewrite E0. clear D E0.
    assert (O1 : AllClose s delta -> k_ns k == k_pairs k).
    { intro A. rewrite N1, PU. rewrite (upper_ext _ (fun _ _ => 1%nat)); [reflexivity|]. intros i j Y. rewrite (AS A i j Y). reflexivity. }
    assert (O2 : AllClose t tau -> k_nt k == k_pairs k).
    { intro A. rewrite N2, PU. rewrite (upper_ext _ (fun _ _ => 1%nat)); [reflexivity|]. intros i j Y. rewrite (AT A i j Y). reflexivity. }
    destruct U as [[A|A]|[A|A]].
    + rewrite (O1 A), (G1 A). ring.
    + rewrite (G3 (or_introl A)). assert (Q : k_ns k == 0).
      { rewrite N1. rewrite (upper_ext _ (fun _ _ => 0%nat)); [rewrite Z0; reflexivity|]. intros i j Y. rewrite (NS A i j Y). reflexivity. }
      rewrite Q. ring.
    + rewrite (O2 A), (G2 A). ring.
    + rewrite (G3 (or_intror A)). assert (Q : k_nt k == 0).
      { rewrite N2. rewrite (upper_ext _ (fun _ _ => 0%nat)); [rewrite Z0; reflexivity|]. intros i j Y. rewrite (NT A i j Y). reflexivity. }
      rewrite Q. ring.
Qed.
Print Assumptions C130_global.

(** ** The local test *)
Lemma near_total : forall s t delta tau i,
  Card (Near s t delta tau i) (list_sum (map (fun j => ind (nbst s t delta tau i j)) (seq 0 (List.length s)))).
Proof.
  intros. exists (filter (nbst s t delta tau i) (seq 0 (List.length s))). split; [apply NoDup_filter, seq_NoDup|].
  split; [|apply filter_ind]. intro j. rewrite filter_In, near_nbst, in_seq. intuition lia.
Qed.

Lemma flat_row : forall s t delta tau rids i, List.length s = List.length t -> perm_of (List.length s) rids ->
  (i < List.length s)%nat -> nth i rids 0%nat = i -> Uninformative s delta \/ Uninformative t tau ->
  list_sum (map (fun j => ind (nbst s (permuted t rids) delta tau i j)) (seq 0 (List.length s))) =
  list_sum (map (fun j => ind (nbst s t delta tau i j)) (seq 0 (List.length s))).
Proof.
  intros s t delta tau rids i E P Hi FX U. destruct (perm_facts _ _ P) as (L & B & I).
  assert (PT : perm_of (List.length t) rids) by (rewrite <- E; exact P). destruct U as [U|U].
  - destruct (flat_nb _ _ U) as (b & F).
    assert (X : forall u, list_sum (map (fun j => ind (nbst s u delta tau i j)) (seq 0 (List.length s))) =
                          list_sum (map (fun j => ind (b && nb u tau i j)) (seq 0 (List.length s)))).
    { intro u. apply list_sum_map_ext. intros j H. apply in_seq in H. unfold nbst. destruct (Nat.eq_dec i j) as [<-|D].
      - rewrite !nb_irrefl. destruct b; reflexivity.
      - rewrite F by lia. reflexivity. }
    rewrite !X. destruct b; cbn [andb]; [|reflexivity].
    rewrite E. pose proof (deg_permuted t tau rids i PT ltac:(lia)) as DP. unfold deg in DP.
    rewrite permuted_length, L, E in DP. rewrite DP, FX. reflexivity.
  - destruct (flat_nb _ _ U) as (b & F). apply list_sum_map_ext. intros j H. apply in_seq in H. unfold nbst.
    destruct (Nat.eq_dec i j) as [<-|D]; [rewrite !nb_irrefl; reflexivity|].
    rewrite nb_permuted by (auto; lia).
    rewrite F; [|rewrite <- E; apply B; lia|rewrite <- E; apply B; lia|].
    + rewrite F by lia. reflexivity.
    + intro Q. apply I in Q; lia.
Qed.

Theorem C130_local : forall ball, Ball ball -> forall s t delta tau gperms perms l,
  knox_local ball s t delta tau gperms perms = Ok l -> Uninformative s delta \/ Uninformative t tau ->
  Forall (perm_of (List.length s)) perms ->
  forall i, (i < List.length s)%nat ->
  Forall (fun v => v = nth i (l_nsti l) 0%nat) (nth i (l_sti_perm l) []) /\
  (forall ps, l_p_sims l = Some ps -> nth i ps 0 == 1).
Proof.
  intros ball HB s t delta tau gperms perms l H U F i Hi.
  destruct (local_inv _ _ _ _ _ _ _ _ H) as [K [_ [S _]]].
  destruct (knox_inv ball HB _ _ _ _ _ _ K) as [E _].
  destruct (C68_local_counts ball HB _ _ _ _ _ _ _ H) as (_ & N & _).
  assert (LEN : List.length (nth i (l_sti_perm l) []) = List.length perms) by (rewrite S, nth_map_seq, map_length by auto; reflexivity).
  assert (V : Forall (fun v => v = nth i (l_nsti l) 0%nat) (nth i (l_sti_perm l) [])).
  { apply Forall_forall. intros v Q. apply (In_nth _ _ 0%nat) in Q. destruct Q as (m & M & <-). rewrite LEN in M.
    destruct (nth_error perms m) as [rids|] eqn:R; [|apply nth_error_None in R; lia].
    pose proof (proj1 (Forall_forall _ _) F rids (nth_error_In _ _ R)) as P.
    destruct (conditional_perm _ _ _ P Hi) as [CP CI].
    destruct (C69_stored_counts ball HB _ _ _ _ _ _ _ i m rids _ H Hi R P (near_total _ _ _ _ _)) as [X _].
    rewrite X. rewrite (N i _ Hi (near_total _ _ _ _ _)). apply flat_row; auto. }
  split; [exact V|]. intros ps PS. apply (C65_local_pvalue _ _ _ _ _ _ _ _ _ i H PS Hi).
  eapply Forall_impl; [|exact V]. cbv beta. intros v ->. lia.
Qed.
Print Assumptions C130_local.

(** ** The hypergeometric p-values *)
Lemma choose_over : forall A (l : list A) k, (List.length l < k)%nat -> choose k l = [].
Proof.
  induction l as [|a l IH]; intros [|k] H; cbn [List.length] in H; try lia; [reflexivity|].
  cbn [choose]. rewrite !IH by lia. reflexivity.
Qed.
Lemma choose_all : forall A (l : list A), choose (List.length l) l = [l].
Proof.
  induction l as [|a l IH]; [reflexivity|]. cbn [List.length choose]. rewrite IH, choose_over by lia. reflexivity.
Qed.
Lemma prob_all : forall A (l : list A) f x, prob_at_least l f (List.length l) x == if Nat.leb x (count f l) then 1 else 0.
Proof.
  intros A l f x. unfold prob_at_least. rewrite choose_all. unfold count at 1. cbn [filter List.length].
  destruct (Nat.leb x (count f l)); reflexivity.
Qed.
Lemma prob_certain : forall A (l : list A) f k x, (k <= List.length l)%nat -> (x <= k)%nat ->
  (forall e, In e l -> f e = true) -> prob_at_least l f k x == 1.
Proof.
  intros A l f k x K X F. unfold prob_at_least.
  rewrite count_all.
  - pose proof (binom_pos _ _ K) as B. rewrite <- (choose_length _ l k) in B.
    assert (Q : 1 <= Qnat (List.length (choose k l))) by (apply (Qnat_le 1); lia). field. lra.
  - intros S I. destruct (choose_sub _ _ _ _ I) as [L C]. apply Nat.leb_le. rewrite count_all; [lia|]. intros e Q. apply F, C, Q.
Qed.
Lemma Qsum_ind : forall A (f : A -> bool) l, Qsum (map (fun x => if f x then 1 else 0) l) == Qnat (count f l).
Proof.
  induction l as [|a l IH]; [reflexivity|]. cbn [map Qsum fold_right]. change (fold_right Qplus 0) with Qsum. rewrite IH.
  unfold count. cbn [filter]. destruct (f a); cbn [List.length]; [|ring]. change (S (length (filter f l))) with (1 + length (filter f l))%nat.
  rewrite Qnat_plus. reflexivity.
Qed.
Lemma deg_total : forall c r i, Card (fun e => (e < List.length c)%nat /\ e <> i /\ Close r (row c i) (row c e)) (deg c r i).
Proof.
  intros. exists (filter (nb c r i) (seq 0 (List.length c))). split; [apply NoDup_filter, seq_NoDup|].
  split; [|apply filter_ind]. intro j. rewrite filter_In, in_seq. unfold nb. rewrite andb_true_iff, negb_true_iff, Nat.eqb_neq, within_iff. intuition lia.
Qed.

Theorem C130_hypergeometric : forall ball, Ball ball -> forall s t delta tau gperms perms l i,
  knox_local ball s t delta tau gperms perms = Ok l -> (i < List.length s)%nat -> (2 <= List.length s)%nat ->
  (AllClose t tau \/ NoneClose s delta \/ NoneClose t tau -> nth i (l_p_hg l) 0 == 1) /\
  (AllClose s delta -> forall m, Card (AtLeastAsBusy t tau i) m -> nth i (l_p_hg l) 0 * Qnat (List.length s) == Qnat m).
Proof.
  intros ball HB s t delta tau gperms perms l i H Hi N2.
  destruct (C88_hypergeometric ball HB _ _ _ _ _ _ _ i H Hi N2) as (M & _ & Z).
  destruct (local_inv _ _ _ _ _ _ _ _ H) as [K [_ _]].
  destruct (knox_inv ball HB _ _ _ _ _ _ K) as [E [Sn [Tn _]]].
  destruct (C68_local_counts ball HB _ _ _ _ _ _ _ H) as (_ & N & _ & LE). destruct (LE i Hi) as [LE1 _]. clear LE.
  pose proof (N i _ Hi (near_total _ _ _ _ _)) as NI. clear N.
  assert (SN : List.length (nth i (k_sn (l_knox l)) []) = deg s delta i) by (rewrite Sn; apply (neighbors_len ball HB); exact Hi).
  set (n := List.length s) in *. set (x := nth i (l_nsti l) 0%nat) in *.
  assert (LN : 0 < Qnat n) by (apply Qlt_le_trans with (Qnat 1); [reflexivity|apply Qnat_le; lia]).
  assert (QL : forall g : nat -> Q, Qlen (map g (seq 0 n)) == Qnat n) by (intro g; unfold Qlen; rewrite map_length, seq_length; reflexivity).
  assert (DU : (deg s delta i <= n - 1)%nat).
  { unfold deg. fold n. rewrite <- filter_ind. rewrite <- (others_length n i Hi). apply NoDup_incl_length; [apply NoDup_filter, seq_NoDup|].
    intros j Q. apply filter_In in Q. destruct Q as [Q1 Q2]. apply filter_In. split; [exact Q1|]. unfold nb in Q2.
    apply andb_true_iff in Q2. tauto. }
  split.
  - intros [A|[A|A]].
    + rewrite M. unfold Qmean. rewrite QL.
      rewrite (Qsum_map_ext' _ _ (fun _ => 1)).
      * rewrite Qsum_map_const. unfold Qlen. rewrite seq_length. change (inject_Z (Z.of_nat n)) with (Qnat n). field. lra.
      * intros j Hj. apply in_seq in Hj. apply prob_certain; [rewrite others_length by lia; lia|lia|].
        intros e He. apply filter_In in He. destruct He as [H1 H2]. apply in_seq in H1. apply negb_true_iff, Nat.eqb_neq in H2.
        apply within_iff, A; lia.
    + apply Z. rewrite NI. rewrite (list_sum_map_ext _ _ (fun _ => 0%nat)); [rewrite list_sum_const; lia|].
      intros j Hj. apply in_seq in Hj. unfold nbst. destruct (nb s delta i j) eqn:B; [|reflexivity]. exfalso.
      unfold nb in B. apply andb_true_iff in B. destruct B as [B1 B2]. apply negb_true_iff, Nat.eqb_neq in B1. apply within_iff in B2.
      apply (A i j); auto; fold n; lia.
    + apply Z. rewrite NI. rewrite (list_sum_map_ext _ _ (fun _ => 0%nat)); [rewrite list_sum_const; lia|].
      intros j Hj. apply in_seq in Hj. unfold nbst. destruct (nb t tau i j) eqn:B; [|rewrite andb_false_r; reflexivity]. exfalso.
      unfold nb in B. apply andb_true_iff in B. destruct B as [B1 B2]. apply negb_true_iff, Nat.eqb_neq in B1. apply within_iff in B2.
      apply (A i j); auto; lia.
  - intros A m C.
    assert (NBT : forall j, (j < n)%nat -> j <> i -> nb s delta i j = true).
    { intros j Hj D. unfold nb. rewrite (proj2 (within_iff delta _ _) (A i j Hi Hj ltac:(congruence))), andb_true_r.
      apply negb_true_iff, Nat.eqb_neq. congruence. }
    assert (DS : deg s delta i = (n - 1)%nat).
    { unfold deg. fold n. rewrite <- filter_ind, <- (others_length n i Hi). f_equal. apply filter_ext_in. intros j Hj. apply in_seq in Hj.
      destruct (Nat.eqb_spec j i) as [->|D]; [apply nb_irrefl|]. apply NBT; auto; lia. }
    assert (X : x = deg t tau i).
    { rewrite NI. unfold deg. rewrite <- E. fold n. apply list_sum_map_ext. intros j Hj. apply in_seq in Hj. unfold nbst.
      destruct (Nat.eq_dec j i) as [->|D]; [rewrite !nb_irrefl; reflexivity|]. rewrite NBT by (auto; lia). reflexivity. }
    rewrite M. unfold Qmean. rewrite QL.
    rewrite (Qsum_map_ext' _ _ (fun j => if Nat.leb (deg t tau i) (deg t tau j) then 1 else 0)).
    + rewrite Qsum_ind.
      assert (MC : m = count (fun j => Nat.leb (deg t tau i) (deg t tau j)) (seq 0 n)).
      { refine (Card_unique _ _ _ _ C _). unfold count. eexists. split; [|split; [|reflexivity]]; [apply NoDup_filter, seq_NoDup|].
        intro j. rewrite filter_In, in_seq, Nat.leb_le. unfold AtLeastAsBusy. split.
        - intros [J1 J2]. split; [lia|]. exists (deg t tau i), (deg t tau j). split; [apply deg_total|]. split; [apply deg_total|exact J2].
        - intros (J1 & a & b & CA & CB & AB). split; [lia|].
          rewrite (Card_unique _ _ _ _ (deg_total t tau i) CA), (Card_unique _ _ _ _ (deg_total t tau j) CB). exact AB. }
      rewrite MC. field. lra.
    + intros j Hj. apply in_seq in Hj. rewrite SN, DS.
      rewrite <- (others_length n j) by lia. rewrite prob_all. rewrite X.
      replace (count (fun e => within tau (row t j) (row t e)) (filter (fun e => negb (Nat.eqb e j)) (seq 0 n))) with (deg t tau j); [reflexivity|].
      unfold deg. rewrite <- filter_ind, <- E. fold n. unfold count. apply Permutation_length, NoDup_Permutation.
      * apply NoDup_filter, seq_NoDup.
      * apply NoDup_filter, NoDup_filter, seq_NoDup.
      * intro e. rewrite !filter_In. unfold nb. rewrite andb_true_iff. tauto.
Qed.
Print Assumptions C130_hypergeometric.

(** ** The modified Knox test *)
Lemma flat_permuted : forall t tau ids, perm_of (List.length t) ids -> Uninformative t tau -> Uninformative (permuted t ids) tau.
Proof.
  intros t tau ids P U. destruct (perm_facts _ _ P) as (L & B & I).
  destruct U as [A|A]; [left|right]; intros i j Hi Hj D; rewrite permuted_length in Hi, Hj;
    rewrite !permuted_row by lia; apply A; try (apply B; lia); intro Q; apply I in Q; lia.
Qed.
Lemma flat_deg : forall c r b, (forall i j, (i < List.length c)%nat -> (j < List.length c)%nat -> i <> j -> nb c r i j = b) ->
  forall i, (i < List.length c)%nat -> deg c r i = (ind b * (List.length c - 1))%nat.
Proof.
  intros c r b F i Hi. unfold deg. rewrite (list_sum_map_ext _ _ (fun j => (ind b * ind (negb (Nat.eqb j i)))%nat)).
  - destruct b; cbn [ind].
    + rewrite (list_sum_map_ext _ _ (fun j => ind (negb (Nat.eqb j i)))) by (intros; lia).
      rewrite <- filter_ind, others_length by exact Hi. lia.
    + rewrite (list_sum_map_ext _ _ (fun _ => 0%nat)) by (intros; reflexivity). rewrite list_sum_const. lia.
  - intros j Hj. apply in_seq in Hj. destruct (Nat.eqb_spec j i) as [->|D]; [rewrite nb_irrefl; cbn [ind negb]; lia|].
    rewrite F by lia. cbn [ind negb]. lia.
Qed.
Lemma deg_upper : forall c r, list_sum (map (deg c r) (seq 0 (List.length c))) =
  (2 * upper (fun i j => ind (nb c r i j)) (List.length c))%nat.
Proof.
  intros c r. change (total (fun i j => ind (nb c r i j)) (List.length c) = (2 * upper (fun i j => ind (nb c r i j)) (List.length c))%nat).
  rewrite total_upper by (intros; rewrite nb_sym; reflexivity). rewrite diagonal_nb by (intro; apply nb_irrefl). lia.
Qed.
Lemma upper_scale : forall b g n, upper (fun i j => ind (b && g i j)) n = (ind b * upper (fun i j => ind (g i j)) n)%nat.
Proof.
  intros [|] g n; cbn [andb ind]; [lia|]. induction n as [|m IH]; [reflexivity|]. rewrite upper_S, IH, list_sum_const. lia.
Qed.
Lemma list_sum_scale : forall A (f : A -> nat) k l, list_sum (map (fun x => (k * f x)%nat) l) = (k * list_sum (map f l))%nat.
Proof. induction l as [|a l IH]; cbn [map list_sum fold_right]; [lia|]. change (fold_right Init.Nat.add 0%nat) with list_sum. rewrite IH. lia. Qed.

Lemma mk_flat : forall s t delta tau, 0 <= delta -> 0 <= tau -> List.length s = List.length t -> (2 <= List.length s)%nat ->
  Uninformative s delta \/ Uninformative t tau ->
  exists v, fst (modified_knox s t delta tau []) = Fin v /\ v == 0.
Proof.
  intros s t delta tau Hd Ht E N2 U. destruct (mk_value s t delta tau Hd Ht E N2) as (v & V & W). exists v.
  split; [rewrite stat_fst; exact V|]. rewrite W. clear V W. set (n := List.length s) in *.
  assert (LN : 2 <= Qnat n) by (apply (Qnat_le 2); exact N2).
  assert (N1 : Qnat n - 1 == Qnat (n - 1)).
  { assert (X : Qnat n == Qnat (n - 1) + Qnat 1) by (rewrite <- Qnat_plus; replace (n - 1 + 1)%nat with n by lia; reflexivity).
    rewrite X. change (Qnat 1) with 1. ring. }
  assert (G : exists k, upper (fun i j => ind (nbst s t delta tau i j)) n = k /\ degsum s t delta tau = ((n - 1) * (2 * k))%nat).
  { destruct U as [U|U]; destruct (flat_nb _ _ U) as (b & F).
    - exists (ind b * upper (fun i j => ind (nb t tau i j)) n)%nat. split.
      + rewrite <- upper_scale. apply upper_ext. intros i j H. unfold nbst. rewrite F by (fold n; lia). reflexivity.
      + unfold degsum. fold n. rewrite (list_sum_map_ext _ _ (fun i => (ind b * (n - 1) * deg t tau i)%nat)).
        * rewrite list_sum_scale. replace (seq 0 n) with (seq 0 (List.length t)) by (rewrite <- E; reflexivity).
          rewrite deg_upper, <- E. fold n. lia.
        * intros i Hi. apply in_seq in Hi. rewrite (flat_deg _ _ _ F) by (fold n; lia). reflexivity.
    - exists (ind b * upper (fun i j => ind (nb s delta i j)) n)%nat. split.
      + rewrite <- upper_scale. apply upper_ext. intros i j H. unfold nbst. rewrite F by lia. apply f_equal, andb_comm.
      + unfold degsum. fold n. rewrite (list_sum_map_ext _ _ (fun i => (ind b * (n - 1) * deg s delta i)%nat)).
        * rewrite list_sum_scale. unfold n at 2. rewrite deg_upper. fold n. lia.
        * intros i Hi. apply in_seq in Hi. rewrite (flat_deg _ _ _ F) by lia. rewrite <- E. fold n. lia. }
  destruct G as (k & -> & ->).
  assert (QM : forall a b, Qnat (a * b) == Qnat a * Qnat b).
  { intros a b. unfold Qnat. rewrite Nat2Z.inj_mul, inject_Z_mult. reflexivity. }
  rewrite !QM, <- N1. change (Qnat 2) with 2. field. lra.
Qed.

Theorem C130_modified_knox : forall s t delta tau perms, 0 <= delta -> 0 <= tau -> List.length s = List.length t ->
  (2 <= List.length s)%nat -> Uninformative s delta \/ Uninformative t tau -> Forall (perm_of (List.length s)) perms ->
  (exists v, fst (modified_knox s t delta tau perms) = Fin v /\ v == 0) /\
  (perms <> [] -> exists p, snd (modified_knox s t delta tau perms) = Some p /\ p == 1).
Proof.
  intros s t delta tau perms Hd Ht E N2 U F. destruct (mk_flat s t delta tau Hd Ht E N2 U) as (v & V & W). split.
  - exists v. split; [|exact W]. rewrite stat_fst. rewrite stat_fst in V. exact V.
  - intro NE. rewrite E in F. rewrite (C73_permutations _ _ _ _ _ E F NE). eexists. split; [reflexivity|].
    destruct (C65_masked_pvalue (map (fun ids => fst (modified_knox s (permuted t ids) delta tau [])) perms) (fst (modified_knox s t delta tau [])))
      as (_ & _ & A & R). apply A. apply Forall_forall. intros x Q. apply in_map_iff in Q. destruct Q as (ids & <- & I).
    pose proof (proj1 (Forall_forall _ _) F ids I) as P. destruct (perm_facts _ _ P) as (L & _).
    destruct (mk_flat s (permuted t ids) delta tau Hd Ht) as (v' & V' & W'); [rewrite permuted_length, L; exact E|exact N2| |].
    + destruct U as [U|U]; [left; exact U|right; apply flat_permuted; assumption].
    + rewrite V, V'. apply R. rewrite W, W'. apply Qle_refl.
Qed.
Print Assumptions C130_modified_knox.

(** ** The deprecated knox *)
Definition one_column (t : list Q) : list vec := map (fun x => [x]) t.
Lemma one_column_row : forall t m, (m < List.length t)%nat -> row (one_column t) m = [nth m t 0].
Proof.
  intros t m Hm. unfold row, one_column. rewrite (nth_indep _ [] [0]) by (rewrite map_length; lia).
  change [0] with ((fun x => [x]) 0). rewrite map_nth. reflexivity.
Qed.
Lemma old_upper : forall s t delta tau ids, 0 <= tau -> List.length s = List.length t -> NoDup ids -> (forall ij, In ij ids <-> SPair s delta ij) ->
  pairs_close t tau ids = upper (fun i j => ind (nbst s (one_column t) delta tau i j)) (List.length s).
Proof.
  intros s t delta tau ids T0 L N I.
  destruct (proj1 (proj2 (C62_knox_total ball_up s (one_column t) delta tau []))) as [c C].
  rewrite <- (card_stpair _ _ _ _ _ C). apply (pairs_close_card s t delta tau); auto.
  refine (Card_ext _ _ _ _ _ C). intros [i j]. unfold STPair, OldPair, SPair. cbn [fst snd].
  split; intros [[Z1 Z2] Z3]; (split; [split; auto|]).
  - rewrite !one_column_row in Z3 by lia. destruct Z3 as [_ Z3]. cbn [sqdist] in Z3. apply sq_abs. lra.
  - rewrite !one_column_row by lia. split; auto. cbn [sqdist]. apply sq_abs in Z3. lra.
Qed.
Lemma shuffled_column : forall t u, Permutation u t -> exists rids, perm_of (List.length t) rids /\ one_column u = permuted (one_column t) rids.
Proof.
  intros t u P. destruct (proj1 (Permutation_nth t u 0) (Permutation_sym P)) as [L [f [B [J N]]]].
  exists (map f (seq 0 (List.length t))). split.
  - unfold perm_of. apply NoDup_Permutation_bis.
    + clear - B J. assert (G : forall l, NoDup l -> (forall x, In x l -> (x < List.length t)%nat) -> NoDup (map f l)).
      { induction l as [|a l IH]; intros ND LT; [constructor|]. inversion ND; subst. cbn [map]. constructor.
        - intro Q. apply in_map_iff in Q. destruct Q as (x & Q1 & Q2). apply J in Q1; [subst; contradiction|apply LT; right; auto|apply LT; left; auto].
        - apply IH; auto. intros x Q. apply LT. right. exact Q. }
      apply G; [apply seq_NoDup|]. intros x Q. apply in_seq in Q. lia.
    + rewrite map_length. lia.
    + intros x Q. apply in_map_iff in Q. destruct Q as (y & <- & Q). apply in_seq in Q. apply in_seq. specialize (B y ltac:(lia)). lia.
  - unfold permuted, one_column at 1. rewrite map_map. apply (nth_ext _ _ [] []); [rewrite !map_length, seq_length; exact L|].
    intros i Hi. rewrite map_length, L in Hi. rewrite nth_map_seq by exact Hi. rewrite one_column_row by (apply B; exact Hi).
    rewrite <- N by exact Hi. change (nth i (map (fun x => [x]) u) []) with (row (one_column u) i). apply one_column_row. lia.
Qed.
Lemma states_perm : forall shuffles t, (forall f u, In f shuffles -> Permutation (f u) u) ->
  forall u, In u (states shuffles t) -> Permutation u t.
Proof.
  induction shuffles as [|f fs IH]; intros t H u [].
  - subst u. apply H. left. reflexivity.
  - transitivity (f t); [apply (IH (f t)); auto; intros g v G; apply H; right; exact G|apply H; left; reflexivity].
Qed.

Theorem C130_knox_old_refuted : forall s t delta tau ids shuffles, 0 <= tau -> List.length s = List.length t ->
  NoDup ids -> (forall ij, In ij ids <-> SPair s delta ij) -> shuffles <> [] ->
  (forall f u, In f shuffles -> Permutation (f u) u) ->
  Uninformative s delta \/ Uninformative (one_column t) tau ->
  ((exists ij, SPair s delta ij) -> exists nst p, fst (knox_old ids t tau shuffles) = Ok (nst, Some p) /\
      p == / (Qnat (List.length shuffles) + 1)) /\
  (~ (exists ij, SPair s delta ij) -> fst (knox_old ids t tau shuffles) = Raise IndexError).
Proof.
  intros s t delta tau ids shuffles T0 E N I NE PS U. split.
  - intros (ij & X). unfold knox_old. rewrite joint_states.
    assert (J : map (fun u => pairs_close u tau ids) (states shuffles t) = map (fun _ => pairs_close t tau ids) (states shuffles t)).
    { apply map_ext_in. intros u Q. apply (states_perm _ _ PS) in Q. rewrite (old_upper s u delta tau ids) by (auto; rewrite E; symmetry; apply Permutation_length; exact Q). rewrite (old_upper s t delta tau ids) by auto.
      destruct (shuffled_column t u Q) as (rids & P & ->). apply flat_upper; [unfold one_column; rewrite map_length; exact E|rewrite E; exact P|exact U]. }
    rewrite J. destruct ids as [|ij0 ids]; [apply I in X; destruct X|].
    destruct shuffles as [|f fs]; [congruence|]. set (sh := f :: fs) in *. do 2 eexists. split; [reflexivity|].
    rewrite count_map. rewrite count_all by (intros; apply Nat.leb_refl). rewrite states_length.
    assert (Q : Nat.ltb (List.length sh - List.length sh) (List.length sh) = true) by (apply Nat.ltb_lt; unfold sh; cbn [List.length]; lia).
    rewrite Q, Nat.sub_diag. unfold perm_pvalue. change (Qnat 0) with 0.
    pose proof (Qnat_nonneg (List.length sh)). field. lra.
  - intro X. apply (C66_index_error s t delta tau ids shuffles I). exact X.
Qed.
Print Assumptions C130_knox_old_refuted.

(** ** Jacquez with all neighbours *)
Lemma all_others : forall knn, KOthers knn -> forall c i, (i < List.length c)%nat ->
  NoDup (knn c (List.length c - 1)%nat i) /\ List.length (knn c (List.length c - 1)%nat i) = (List.length c - 1)%nat /\
  forall j, In j (knn c (List.length c - 1)%nat i) <-> (j < List.length c)%nat /\ j <> i.
Proof.
  intros knn K c i Hi. destruct (K c (List.length c - 1)%nat i ltac:(lia) Hi) as (A & B & C). split; [exact A|]. split; [exact B|].
  intro j. split; [apply C|]. intros [J1 J2].
  assert (X : incl (filter (fun e => negb (Nat.eqb e i)) (seq 0 (List.length c))) (knn c (List.length c - 1)%nat i)).
  { apply NoDup_length_incl; [exact A| |].
    - rewrite others_length by exact Hi. lia.
    - intros e Q. apply C in Q. apply filter_In. split; [apply in_seq; lia|]. apply negb_true_iff, Nat.eqb_neq. tauto. }
  apply X. apply filter_In. split; [apply in_seq; lia|]. apply negb_true_iff, Nat.eqb_neq. exact J2.
Qed.
Lemma jac_all : forall knn, KOthers knn -> forall s t, List.length s = List.length t ->
  jacquez_stat (knn t (List.length t - 1)%nat) (knn s (List.length t - 1)%nat) (List.length t) = (List.length t * (List.length t - 1))%nat.
Proof.
  intros knn K s t E. unfold jacquez_stat. change nsum with list_sum. set (n := List.length t).
  rewrite (list_sum_map_ext _ _ (fun _ => (n - 1)%nat)); [rewrite list_sum_const, seq_length; lia|].
  intros i Hi. apply in_seq in Hi. destruct (all_others knn K t i ltac:(fold n; lia)) as (A1 & A2 & A3).
  destruct (all_others knn K s i ltac:(rewrite E; fold n; lia)) as (_ & _ & B3). rewrite E in B3. fold n in A1, A2, A3, B3.
  rewrite nodup_fixed_point by exact A1. rewrite <- A2 at 2. f_equal.
  transitivity (filter (fun _ => true) (knn t (n - 1)%nat i)).
  - apply filter_ext_in. intros j Q. apply mem_iff, B3, A3, Q.
  - clear. induction (knn t (n - 1)%nat i) as [|a l IH]; [reflexivity|]. cbn [filter]. rewrite IH. reflexivity.
Qed.
Theorem C130_jacquez : forall knn, KOthers knn -> forall s t perms, List.length s = List.length t ->
  Forall (perm_of (List.length t)) perms ->
  fst (jacquez knn s t (List.length t - 1) perms) = (List.length t * (List.length t - 1))%nat /\
  (perms <> [] -> exists p, snd (jacquez knn s t (List.length t - 1) perms) = Some p /\ p == 1).
Proof.
  intros knn K s t perms E F. split.
  - unfold jacquez. destruct perms; apply jac_all; auto.
  - intro NE. unfold jacquez. destruct perms as [|p0 ps]; [congruence|]. set (perms := p0 :: ps) in *. eexists. split; [reflexivity|].
    rewrite count_map. rewrite count_all.
    + unfold perm_pvalue. pose proof (Qnat_nonneg (List.length perms)). field. lra.
    + intros ids I. pose proof (proj1 (Forall_forall _ _) F ids I) as P. destruct (perm_facts _ _ P) as (L & _).
      apply Nat.leb_le. change (map (fun i => row t i) ids) with (permuted t ids).
      rewrite (jac_all knn K s t E).
      pose proof (jac_all knn K s (permuted t ids) ltac:(rewrite permuted_length, L; exact E)) as X.
      rewrite permuted_length, L in X. rewrite X. apply Nat.le_refl.
Qed.
Print Assumptions C130_jacquez.

(** ** Larger thresholds *)
Lemma nb_mono : forall c r r' i j, r <= r' -> nb c r i j = true -> nb c r' i j = true.
Proof.
  intros c r r' i j H. unfold nb. rewrite !andb_true_iff. intros [A B]. split; [exact A|]. apply within_iff in B. apply within_iff.
  destruct B as [B1 B2]. split; [lra|]. apply Qle_trans with (r * r); [exact B2|]. nra.
Qed.
Theorem C130_monotone : forall ball, Ball ball -> forall s t delta delta' tau tau' perms perms' k k',
  delta <= delta' -> tau <= tau' ->
  knox_global ball s t delta tau perms = Ok k -> knox_global ball s t delta' tau' perms' = Ok k' ->
  k_ns k <= k_ns k' /\ k_nt k <= k_nt k' /\ k_nst k <= k_nst k' /\
  (forall gp gp' lp lp' l l', knox_local ball s t delta tau gp lp = Ok l -> knox_local ball s t delta' tau' gp' lp' = Ok l' ->
     forall i, (nth i (l_nsti l) 0 <= nth i (l_nsti l') 0)%nat).
Proof.
  intros ball HB s t delta delta' tau tau' perms perms' k k' D T K K'.
  destruct (knox_inv ball HB _ _ _ _ _ _ K) as [E [_ [_ [_ [_ [N1 [N2 [N3 _]]]]]]]].
  destruct (knox_inv ball HB _ _ _ _ _ _ K') as [_ [_ [_ [_ [_ [M1 [M2 [M3 _]]]]]]]].
  assert (MS : forall i j, (ind (nb s delta i j) <= ind (nb s delta' i j))%nat).
  { intros i j. destruct (nb s delta i j) eqn:X; [rewrite (nb_mono _ _ _ _ _ D X); lia|cbn; lia]. }
  assert (MT : forall i j, (ind (nb t tau i j) <= ind (nb t tau' i j))%nat).
  { intros i j. destruct (nb t tau i j) eqn:X; [rewrite (nb_mono _ _ _ _ _ T X); lia|cbn; lia]. }
  assert (MST : forall i j, (ind (nbst s t delta tau i j) <= ind (nbst s t delta' tau' i j))%nat).
  { intros i j. unfold nbst. destruct (nb s delta i j) eqn:X; [|cbn; lia]. rewrite (nb_mono _ _ _ _ _ D X).
    destruct (nb t tau i j) eqn:Y; [rewrite (nb_mono _ _ _ _ _ T Y); lia|cbn; lia]. }
  split; [rewrite N1, M1; apply Qnat_le, upper_mono; intros; apply MS|].
  split; [rewrite N2, M2; apply Qnat_le, upper_mono; intros; apply MT|].
  split; [rewrite N3, M3; apply Qnat_le, upper_mono; intros; apply MST|].
  intros gp gp' lp lp' l l' H H' i.
  destruct (C68_local_counts ball HB _ _ _ _ _ _ _ H) as (L & C & _).
  destruct (C68_local_counts ball HB _ _ _ _ _ _ _ H') as (L' & C' & _).
  destruct (Nat.lt_ge_cases i (List.length s)) as [Hi|Hi].
  - rewrite (C i _ Hi (near_total _ _ _ _ _)), (C' i _ Hi (near_total _ _ _ _ _)). apply list_sum_le. intros j _. apply MST.
  - rewrite nth_overflow by lia. lia.
Qed.
Print Assumptions C130_monotone.

(** Three events at one place at times 0, 1 and 2: the middle one gets the
    hypergeometric p-value 1/3 and the pseudo p-value 1. *)
Example C130_case :
  (exists l ps, knox_local ball_down [[0; 0]; [0; 0]; [0; 0]] [[0]; [1]; [2]] 1 1 [] [[1;2;0]; [2;0;1]; [0;2;1]]%nat = Ok l /\
    l_nsti l = [1; 2; 1]%nat /\ Forall2 Qeq (l_p_hg l) [1; 1 # 3; 1] /\ l_p_sims l = Some ps /\ Forall2 Qeq ps [1; 1; 1]) /\
  AllClose [[0; 0]; [0; 0]; [0; 0]] 1 /\ NoneClose [[0]; [1]; [2]] (1 # 2) /\
  (exists p, fst (knox_old [(0, 1); (0, 2); (1, 2)]%nat [0; 1; 2] 1 [fun l => rev l; fun l => rev l]) = Ok (2%nat, Some p) /\ p == 1 # 3) /\
  (exists v, fst (modified_knox [[0; 0]; [0; 0]; [0; 0]] [[0]; [1]; [2]] 1 1 []) = Fin v /\ v == 0).
Proof.
  split; [do 2 eexists; split; [vm_compute; reflexivity|]; split; [vm_compute; reflexivity|];
    split; [repeat constructor; vm_compute; reflexivity|]; split; [reflexivity|repeat constructor; vm_compute; reflexivity]|].
  split; [|split; [|split; eexists; split; [vm_compute; reflexivity|vm_compute; reflexivity|vm_compute; reflexivity|vm_compute; reflexivity]]].
  - intros [|[|[|i]]] [|[|[|j]]] Hi Hj D; cbn [List.length] in Hi, Hj; try lia; split; vm_compute; discriminate.
  - intros [|[|[|i]]] [|[|[|j]]] Hi Hj D; cbn [List.length] in Hi, Hj; try lia; intros [_ X]; apply Qle_not_lt in X; apply X; reflexivity.
Qed.
