(** Theorems on the symmetries of the modified Knox, Jacquez and Mantel tests. *)
From Coq Require Import ZArith QArith Qreals Reals List Bool Arith Lia Lqa Lra Permutation.
From Verif Require Import Base BaseLemmas Spec Quadrat_model Spacetime_model Spacetime_spec Pairs_proofs Spacetime_proofs
  Spacetime2_proofs Spacetime_props Spacetime3_props CenterR_model CenterR_proofs PermMean_props KnoxSym_spec KnoxSym_proofs StSym_spec StSym_proofs PermLaw_props.
Import ListNotations.
Local Open Scope Q_scope.

(** ** C128 *)
(** modified_knox in another order, origin, orientation and unit: the same result. *)
Theorem C128_modified_knox : forall n pi ks kt s t s' t' delta tau delta' tau' perms perms',
  perm_of n pi -> List.length s = n -> List.length t = n -> 0 < ks -> 0 < kt ->
  delta' == ks * delta -> tau' == kt * tau -> same_shape pi ks s s' -> same_shape pi kt t t' ->
  Forall2 (conjugate n pi) perms perms' ->
  modified_knox s' t' delta' tau' perms' = modified_knox s t delta tau perms.
Proof.
  intros n pi ks kt s t s' t' delta tau delta' tau' perms perms' P Ls Lt Ks Kt Ds Dt Ss St F.
  assert (Ls' : List.length s' = n) by (rewrite (proj1 Ss); exact Ls).
  assert (Lt' : List.length t' = n) by (rewrite (proj1 St); exact Lt).
  assert (CM : forall k r r' c c', 0 < k -> r' == k * r -> List.length c = n -> same_shape pi k c c' ->
    forall i j, (i < n)%nat -> (j < n)%nat -> mget (close_matrix c' r') i j = mget (close_matrix c r) (old pi i) (old pi j)).
  { intros k r r' c c' K R L S i j Hi Hj. assert (Oi := old_lt n pi P i Hi). assert (Oj := old_lt n pi P j Hj).
    rewrite !mget_close by (rewrite ?(proj1 S); lia). apply eq_true_iff_eq. rewrite !within_iff. apply (close_shape pi k); auto; lia. }
  pose proof (CM ks delta delta' s s' Ks Ds Ls Ss) as CS. pose proof (CM kt tau tau' t t' Kt Dt Lt St) as CT.
  assert (ST : mk_stat (close_matrix s' delta') (close_matrix t' tau') n = mk_stat (close_matrix s delta) (close_matrix t tau) n).
  { apply (mk_stat_relabel n (old pi)); auto. apply KnoxSym_proofs.perm_relabel, P. }
  assert (D : map (fun ids => mk_stat (close_matrix s' delta') (shuffle_matrix false (close_matrix t' tau') ids) n) perms' =
              map (fun ids => mk_stat (close_matrix s delta) (shuffle_matrix false (close_matrix t tau) ids) n) perms).
  { apply (Forall2_map_eq _ _ _ (conjugate n pi)); auto. intros a b _ _ (C1 & C2 & C3).
    destruct (perm_facts _ _ C1) as [L1 [B1 _]]. destruct (perm_facts _ _ C2) as [L2 [B2 _]].
    apply (mk_stat_relabel n (old pi)); auto; [apply KnoxSym_proofs.perm_relabel, P|].
    intros i j Hi Hj. assert (Oi := old_lt n pi P i Hi). assert (Oj := old_lt n pi P j Hj).
    rewrite !mget_shuffle by lia. rewrite CT by auto. rewrite !C3 by auto. reflexivity. }
  unfold modified_knox. rewrite Lt, Lt', ST, D. destruct F; reflexivity.
Qed.
Print Assumptions C128_modified_knox.

(** Space and time may be exchanged, with the inverse rearrangements. *)
Theorem C128_modified_knox_exchange : forall n s t delta tau perms perms',
  List.length s = n -> List.length t = n -> Forall2 (inverse n) perms perms' ->
  modified_knox t s tau delta perms' = modified_knox s t delta tau perms.
Proof.
  intros n s t delta tau perms perms' Ls Lt F.
  assert (D : map (fun ids => mk_stat (close_matrix t tau) (shuffle_matrix false (close_matrix s delta) ids) n) perms' =
              map (fun ids => mk_stat (close_matrix s delta) (shuffle_matrix false (close_matrix t tau) ids) n) perms).
  { apply (Forall2_map_eq _ _ _ (inverse n)); auto. intros r r' _ _ (C1 & C2 & C3).
    destruct (perm_facts _ _ C1) as [L1 [B1 _]]. destruct (perm_facts _ _ C2) as [L2 [B2 _]].
    rewrite mk_stat_swap. apply (mk_stat_relabel n (fun i => nth i r' 0%nat)); [apply perm_relabel'; auto| |].
    - intros i j Hi Hj. rewrite mget_shuffle by lia. reflexivity.
    - intros i j Hi Hj. rewrite mget_shuffle by (rewrite L1; auto). rewrite !C3 by auto. reflexivity. }
  unfold modified_knox. rewrite Ls, Lt, mk_stat_swap, D. destruct F; reflexivity.
Qed.
Print Assumptions C128_modified_knox_exchange.

(** *** jacquez *)
Lemma nearest_shape : forall n pi m c c' k i A, perm_of n pi -> List.length c = n -> 0 < m -> same_shape pi m c c' -> (i < n)%nat ->
  KNearest c' k i A -> KNearest c k (old pi i) (map (old pi) A).
Proof.
  intros n pi m c c' k i A P L M [L' H] Hi [A1 [A2 [A3 A4]]]. destruct (perm_facts _ _ P) as [LP [B I]].
  rewrite L', L in A3, A4. rewrite L in H.
  assert (I' : forall x y, (x < n)%nat -> (y < n)%nat -> old pi x = old pi y -> x = y) by exact I.
  assert (B' : forall x, (x < n)%nat -> (old pi x < n)%nat) by exact B.
  split; [|split; [|split]].
  - apply NoDup_map_in; auto. intros x y X Y. apply I'; [apply A3 in X|apply A3 in Y]; lia.
  - rewrite map_length. auto.
  - intros j J. apply in_map_iff in J. destruct J as [x [<- X]]. destruct (A3 x X) as [X1 X2]. rewrite L. split; [apply B'; lia|].
    intro Z. apply X2, I'; auto; lia.
  - intros j y J Hm HM N. rewrite L in Hm. apply in_map_iff in J. destruct J as [x [<- X]]. destruct (A3 x X) as [X1 X2].
    assert (IM : In y pi) by (apply (Permutation_in _ (Permutation_sym P)), in_seq; lia).
    apply (In_nth _ _ 0%nat) in IM. destruct IM as [y' [M1 M2]]. rewrite LP in M1. change (old pi y' = y) in M2. subst y.
    assert (Q : sqdist (row c' i) (row c' x) <= sqdist (row c' i) (row c' y')).
    { apply A4; [exact X|exact M1|intros ->; contradiction|]. intro Z. apply N. apply (in_map (old pi)). auto. }
    rewrite (H i x), (H i y') in Q by auto. apply Qmult_le_l in Q; auto. Lqa.nra.
Qed.
Lemma meet_swap : forall a b : list nat, List.length (filter (fun j => mem j b) (nodup Nat.eq_dec a)) = List.length (filter (fun j => mem j a) (nodup Nat.eq_dec b)).
Proof.
  intros a b. apply Permutation_length. apply NoDup_Permutation; [apply NoDup_filter, NoDup_nodup|apply NoDup_filter, NoDup_nodup|].
  intro x. rewrite !filter_In, !nodup_In, !mem_iff. tauto.
Qed.
Lemma jac_swap : forall a b n, jacquez_stat b a n = jacquez_stat a b n.
Proof. intros a b n. unfold jacquez_stat. f_equal. apply map_ext. intro i. apply meet_swap. Qed.
(** The same neighbours in another numbering. *)
Lemma jac_relabel : forall n pi a b a' b', perm_of n pi ->
  (forall i j, (i < n)%nat -> In j (a' i) -> (j < n)%nat) -> (forall i j, (i < n)%nat -> In j (b' i) -> (j < n)%nat) ->
  (forall i x, (i < n)%nat -> (In x (map (old pi) (a' i)) <-> In x (a (old pi i)))) ->
  (forall i x, (i < n)%nat -> (In x (map (old pi) (b' i)) <-> In x (b (old pi i)))) ->
  jacquez_stat a' b' n = jacquez_stat a b n.
Proof.
  intros n pi a b a' b' P BA BB HA HB. destruct (perm_facts _ _ P) as [LP [B I]]. unfold jacquez_stat. change nsum with list_sum.
  rewrite <- (relabel_sum n (old pi) (fun i => List.length (filter (fun j => mem j (b i)) (nodup Nat.eq_dec (a i)))) (KnoxSym_proofs.perm_relabel _ _ P)).
  apply list_sum_map_ext. intros i Hi. apply in_seq in Hi.
  assert (HI : (i < n)%nat) by lia. clear Hi.
  rewrite <- (map_length (old pi)). apply Permutation_length. apply NoDup_Permutation.
  - apply NoDup_map_in; [apply NoDup_filter, NoDup_nodup|]. intros x y X Y. rewrite filter_In, nodup_In in X, Y.
    apply I; [apply (BA i); tauto|apply (BA i); tauto].
  - apply NoDup_filter, NoDup_nodup.
  - intro x. rewrite filter_In, nodup_In, mem_iff, <- (HA i x HI), <- (HB i x HI), !in_map_iff. split.
    + intros [y [<- Y]]. rewrite filter_In, nodup_In, mem_iff in Y. split; exists y; tauto.
    + intros [[y [<- Y]] [z [E Z]]]. exists y. split; [reflexivity|]. rewrite filter_In, nodup_In, mem_iff. split; [exact Y|].
      assert (z = y) by (apply I; [apply (BB i); auto|apply (BA i); auto|exact E]). congruence.
Qed.
Lemma nearest_same : forall knn knn' n pi m c c' k, perm_of n pi -> List.length c = n -> 0 < m -> same_shape pi m c c' -> NoTies c ->
  Knows knn k c -> Knows knn' k c' -> forall i x, (i < n)%nat -> (In x (map (old pi) (knn' c' k i)) <-> In x (knn c k (old pi i))).
Proof.
  intros knn knn' n pi m c c' k P L M S NT K K' i x Hi. assert (Oi := old_lt n pi P i Hi).
  assert (A : KNearest c k (old pi i) (map (old pi) (knn' c' k i))).
  { apply (nearest_shape n pi m c c'); auto. apply K'. rewrite (proj1 S). lia. }
  assert (B : KNearest c k (old pi i) (knn c k (old pi i))) by (apply K; lia).
  split; apply (nearest_unique c k (old pi i)); auto; lia.
Qed.
Lemma stat_same : forall knn knn' n pi ms mt s t s' t' k, perm_of n pi -> List.length s = n -> List.length t = n -> 0 < ms -> 0 < mt ->
  same_shape pi ms s s' -> same_shape pi mt t t' -> NoTies s -> NoTies t -> Knows knn k s -> Knows knn k t -> Knows knn' k s' -> Knows knn' k t' ->
  jacquez_stat (knn' t' k) (knn' s' k) n = jacquez_stat (knn t k) (knn s k) n.
Proof.
  intros knn knn' n pi ms mt s t s' t' k P Ls Lt Ms Mt Ss St Ns Nt Ks Kt Ks' Kt'. apply (jac_relabel n pi); auto.
  - intros i j Hi J. assert (X : (i < List.length t')%nat) by (rewrite (proj1 St); lia). destruct (Kt' i X) as [_ [_ [Y _]]].
    apply Y in J. rewrite (proj1 St) in J. lia.
  - intros i j Hi J. assert (X : (i < List.length s')%nat) by (rewrite (proj1 Ss); lia). destruct (Ks' i X) as [_ [_ [Y _]]].
    apply Y in J. rewrite (proj1 Ss) in J. lia.
  - intros. apply (nearest_same knn knn' n pi mt t t'); auto.
  - intros. apply (nearest_same knn knn' n pi ms s s'); auto.
Qed.
Lemma shape_conjugate : forall n pi m t t' r r', perm_of n pi -> List.length t = n -> same_shape pi m t t' -> conjugate n pi r r' ->
  same_shape pi m (permuted t r) (permuted t' r').
Proof.
  intros n pi m t t' r r' P L [L' H] (C1 & C2 & C3). destruct (perm_facts _ _ C1) as [L1 [B1 _]]. destruct (perm_facts _ _ C2) as [L2 [B2 _]].
  split; [rewrite !permuted_length; lia|]. rewrite permuted_length, L1. intros i j Hi Hj.
  assert (Oi := old_lt n pi P i Hi). assert (Oj := old_lt n pi P j Hj).
  rewrite !permuted_row by lia. rewrite H by (rewrite L; auto). rewrite !C3 by auto. reflexivity.
Qed.
Lemma ties_permuted : forall t r, perm_of (List.length t) r -> NoTies t -> NoTies (permuted t r).
Proof.
  intros t r P NT i j m Hi Hj Hm D1 D2 E. destruct (perm_facts _ _ P) as [L [B I]]. rewrite permuted_length, L in Hi, Hj, Hm.
  rewrite !permuted_row in E by lia. apply I; auto. apply (NT (nth i r 0%nat)); auto.
Qed.
(** Without ties the Jacquez test gives the same result, whatever search finds the neighbours. *)
Theorem C128_jacquez : forall knn knn' n pi ks kt s t s' t' k perms perms',
  perm_of n pi -> List.length s = n -> List.length t = n -> 0 < ks -> 0 < kt ->
  same_shape pi ks s s' -> same_shape pi kt t t' -> NoTies s -> NoTies t ->
  Knows knn k s -> Knows knn k t -> Forall (fun r => Knows knn k (permuted t r)) perms ->
  Knows knn' k s' -> Knows knn' k t' -> Forall (fun r => Knows knn' k (permuted t' r)) perms' ->
  Forall2 (conjugate n pi) perms perms' ->
  jacquez knn' s' t' k perms' = jacquez knn s t k perms.
Proof.
  intros knn knn' n pi ks kt s t s' t' k perms perms' P Ls Lt Ks Kt Ss St Ns Nt A1 A2 A3 B1 B2 B3 F.
  assert (Lt' : List.length t' = n) by (rewrite (proj1 St); exact Lt).
  assert (ST := stat_same knn knn' n pi ks kt s t s' t' k P Ls Lt Ks Kt Ss St Ns Nt A1 A2 B1 B2).
  assert (D : map (fun ids => jacquez_stat (knn' (map (fun i => row t' i) ids) k) (knn' s' k) n) perms' =
              map (fun ids => jacquez_stat (knn (map (fun i => row t i) ids) k) (knn s k) n) perms).
  { rewrite Forall_forall in A3, B3. apply (Forall2_map_eq _ _ _ (conjugate n pi)); auto. intros r r' R R' C.
    pose proof C as (C1 & C2 & C3). destruct (perm_facts _ _ C1) as [L1 _].
    apply (stat_same knn knn' n pi ks kt s (permuted t r) s' (permuted t' r')); auto.
    - rewrite permuted_length. exact L1.
    - apply (shape_conjugate n); auto.
    - apply ties_permuted; auto. rewrite Lt. exact C1. }
  assert (LE : List.length perms' = List.length perms) by (clear - F; induction F; cbn; auto).
  unfold jacquez. rewrite Lt, Lt', ST, D, LE. destruct F; reflexivity.
Qed.
Print Assumptions C128_jacquez.

Theorem C128_jacquez_exchange : forall knn knn' n s t k perms perms',
  List.length s = n -> List.length t = n -> NoTies s -> NoTies t ->
  Knows knn k s -> Knows knn k t -> Forall (fun r => Knows knn k (permuted t r)) perms ->
  Knows knn' k s -> Knows knn' k t -> Forall (fun r => Knows knn' k (permuted s r)) perms' ->
  Forall2 (inverse n) perms perms' ->
  jacquez knn' t s k perms' = jacquez knn s t k perms.
Proof.
  intros knn knn' n s t k perms perms' Ls Lt Ns Nt A1 A2 A3 B1 B2 B3 F.
  assert (ID : perm_of n (seq 0 n)) by apply Permutation_refl.
  assert (SI : forall c, List.length c = n -> same_shape (seq 0 n) 1 c c).
  { intros c L. split; [reflexivity|]. intros i j Hi Hj. unfold old. rewrite !seq_nth by lia. cbn [plus]. ring. }
  assert (ST : jacquez_stat (knn' s k) (knn' t k) n = jacquez_stat (knn t k) (knn s k) n).
  { rewrite jac_swap. apply (stat_same knn knn' n (seq 0 n) 1 1); auto; reflexivity. }
  assert (D : map (fun ids => jacquez_stat (knn' (map (fun i => row s i) ids) k) (knn' t k) n) perms' =
              map (fun ids => jacquez_stat (knn (map (fun i => row t i) ids) k) (knn s k) n) perms).
  { rewrite Forall_forall in A3, B3. apply (Forall2_map_eq _ _ _ (inverse n)); auto. intros r r' R R' (C1 & C2 & C3).
    destruct (perm_facts _ _ C1) as [L1 [Q1 _]]. destruct (perm_facts _ _ C2) as [L2 [Q2 _]].
    rewrite jac_swap. apply (stat_same knn knn' n r' 1 1 s (permuted t r) (permuted s r') t); auto; try reflexivity.
    - rewrite permuted_length. exact L1.
    - split; [rewrite permuted_length; lia|]. rewrite Ls. intros i j Hi Hj. rewrite !permuted_row by lia. unfold old. ring.
    - split; [rewrite permuted_length; lia|]. rewrite permuted_length, L1. intros i j Hi Hj. unfold old.
      rewrite !permuted_row by (rewrite L1; auto). rewrite !C3 by auto. ring.
    - apply ties_permuted; auto. rewrite Lt. exact C1. }
  assert (LE : List.length perms' = List.length perms) by (clear - F; induction F; cbn; auto).
  unfold jacquez. rewrite Ls, Lt, ST, D, LE. destruct F; reflexivity.
Qed.
Print Assumptions C128_jacquez_exchange.

(** With ties the statistic depends on the order in which the events are listed: the event
    at 0 has two neighbours at distance 1, and the search returns the first. *)
Definition first_nearest (c : list vec) (k i : nat) : list nat := nn1 c k i.
Theorem C128_jacquez_ties_refuted : exists pi s t s' t', perm_of 3 pi /\ same_shape pi 1 s s' /\ same_shape pi 1 t t' /\
  NoTies t /\ Knows first_nearest 1 s /\ Knows first_nearest 1 t /\ Knows first_nearest 1 s' /\ Knows first_nearest 1 t' /\
  fst (jacquez first_nearest s t 1 []) = 2%nat /\ fst (jacquez first_nearest s' t' 1 []) = 1%nat.
Proof.
  exists [0; 2; 1]%nat, [[0; 0]; [1; 0]; [-1; 0]], [[0]; [1]; [3]], [[0; 0]; [-1; 0]; [1; 0]], [[0]; [3]; [1]].
  assert (KN : forall c, List.length c = 3%nat -> Knows first_nearest 1 c).
  { intros c L i Hi. rewrite L in Hi. unfold first_nearest, nn1, KNearest. rewrite L.
    assert (C : i = 0%nat \/ i = 1%nat \/ i = 2%nat) by lia.
    assert (G : forall a b, (a < 3)%nat -> (b < 3)%nat -> a <> i -> b <> i -> a <> b -> forall y,
      y = (if Qle_bool (sqdist (row c i) (row c a)) (sqdist (row c i) (row c b)) then a else b) ->
      NoDup [y] /\ List.length [y] = 1%nat /\ (forall j, In j [y] -> (j < 3)%nat /\ j <> i) /\
      (forall j m, In j [y] -> (m < 3)%nat -> m <> i -> ~ In m [y] -> sqdist (row c i) (row c j) <= sqdist (row c i) (row c m))).
    { intros a b Ha Hb Da Db Dab y E. split; [constructor; [intros []|constructor]|]. split; [reflexivity|].
      destruct (Qle_bool (sqdist (row c i) (row c a)) (sqdist (row c i) (row c b))) eqn:Q.
      - split; [intros j [<-|[]]; subst y; auto|]. intros j m [<-|[]] Hm Dm N. subst y. assert (m = b) by (assert (m <> a) by (intro; apply N; left; auto); lia).
        subst m. apply Qle_bool_iff. exact Q.
      - split; [intros j [<-|[]]; subst y; auto|]. intros j m [<-|[]] Hm Dm N. subst y. assert (m = a) by (assert (m <> b) by (intro; apply N; left; auto); lia).
        subst m. destruct (Qlt_le_dec (sqdist (row c i) (row c b)) (sqdist (row c i) (row c a))) as [Z|Z]; [apply Qlt_le_weak; exact Z|].
        apply Qle_bool_iff in Z. congruence. }
    destruct C as [->|[->| ->]]; cbn [others filter seq negb Nat.eqb]; eapply G; try reflexivity; lia. }
  split; [|split; [|split; [|split; [|split; [|split; [|split; [|split; [|split]]]]]]]].
  - apply perm_of_inj; [reflexivity|intros [|[|[|i]]] Hi; cbn; lia|].
    intros i j Hi Hj. destruct i as [|[|[|i]]]; try lia; destruct j as [|[|[|j]]]; try lia; cbn; intro; congruence.
  - split; [reflexivity|]. intros i j Hi Hj. destruct i as [|[|[|i]]]; cbn [List.length] in *; try lia; destruct j as [|[|[|j]]]; try lia; vm_compute; reflexivity.
  - split; [reflexivity|]. intros i j Hi Hj. destruct i as [|[|[|i]]]; cbn [List.length] in *; try lia; destruct j as [|[|[|j]]]; try lia; vm_compute; reflexivity.
  - intros [|[|[|i]]] [|[|[|j]]] [|[|[|m]]] A B C D F G; cbn [List.length] in *; try lia; vm_compute in G; discriminate.
  - apply KN. reflexivity.
  - apply KN. reflexivity.
  - apply KN. reflexivity.
  - apply KN. reflexivity.
  - vm_compute. reflexivity.
  - vm_compute. reflexivity.
Qed.
Print Assumptions C128_jacquez_ties_refuted.

(** *** mantel *)
Local Open Scope R_scope.
Lemma matrix_len : forall A (D : vec -> vec -> A) c, List.length (matrix D c) = List.length c.
Proof. intros. apply map_length. Qed.
Lemma shuffle_len : forall A (d : A) x ids, List.length (shuffle_matrix d x ids) = List.length ids.
Proof. intros. apply map_length. Qed.
Lemma entries_shuffled : forall n h (D : vec -> vec -> R) c r, perm_of n r -> List.length c = n ->
  map h (tril 0 (shuffle_matrix 0 (matrix D c) r)) = below n (fun i j => h (D (row c (nth i r 0%nat)) (row c (nth j r 0%nat)))).
Proof.
  intros n h D c r P L. destruct (perm_facts _ _ P) as [LR [B _]]. rewrite (below_tril n); [|rewrite shuffle_len; exact LR].
  apply below_ext. intros i j H. rewrite shuffle_entry by lia. rewrite matrix_entry by (rewrite L; apply B; lia). reflexivity.
Qed.
Lemma entries_plain : forall n h (D : vec -> vec -> R) c, List.length c = n ->
  map h (tril 0 (matrix D c)) = below n (fun i j => h (D (row c i) (row c j))).
Proof.
  intros n h D c L. rewrite (below_tril n); [|rewrite matrix_len; exact L].
  apply below_ext. intros i j H. rewrite matrix_entry by lia. reflexivity.
Qed.
Lemma below_scale : forall n a f, below n (fun i j => a * f i j) = map (fun ij => a * f (fst ij) (snd ij)) (lower_idx n).
Proof. reflexivity. Qed.

(** Other units, when the constants are converted as well: the same result. *)
Theorem C128_mantel : forall rd n pi ks kt scon spow tcon tpow s t s' t' perms perms',
  perm_of n pi -> List.length s = n -> List.length t = n -> (0 < ks)%Q -> (0 < kt)%Q ->
  same_shape pi ks s s' -> same_shape pi kt t t' -> apart scon s -> apart tcon t ->
  Forall2 (conjugate n pi) perms perms' ->
  mantel_test rd (Q2R ks * scon) spow (Q2R kt * tcon) tpow s' t' perms' = mantel_test rd scon spow tcon tpow s t perms.
Proof.
  intros rd n pi ks kt scon spow tcon tpow s t s' t' perms perms' P Ls Lt Ks Kt Ss St As At F.
  assert (Ls' : List.length s' = n) by (rewrite (proj1 Ss); exact Ls).
  assert (Lt' : List.length t' = n) by (rewrite (proj1 St); exact Lt).
  assert (KR : forall k, (0 < k)%Q -> 0 < Q2R k). { intros k K. replace 0 with (Q2R 0) by (unfold Q2R; cbn; field). apply Qlt_Rlt. exact K. }
  assert (AP : forall con c, List.length c = n -> apart con c -> forall i j, (i < n)%nat -> (j < n)%nat -> i <> j -> 0 < edist (row c i) (row c j) + con).
  { intros con c L A i j Hi Hj D. destruct (Nat.lt_ge_cases j i) as [H|H]; [apply A; lia|]. rewrite edist_sym. apply A. lia. }
  assert (SC : forall k con pow c c', (0 < k)%Q -> List.length c = n -> same_shape pi k c c' -> apart con c -> forall i j, (i < n)%nat -> (j < n)%nat -> i <> j ->
    closeness (Q2R k * con) pow (edist (row c' i) (row c' j)) = Rpower (Q2R k) pow * closeness con pow (edist (row c (old pi i)) (row c (old pi j)))).
  { intros k con pow c c' K L S A i j Hi Hj D. rewrite (edist_shape pi k c c' i j) by (auto; lia).
    apply closeness_scale; [apply KR; exact K|]. apply AP; auto; try apply (old_lt n pi P); auto.
    intro E. destruct (perm_facts _ _ P) as [_ [_ I]]. apply D, I; auto. }
  set (G := fun i j => closeness scon spow (edist (row s i) (row s j))).
  assert (GS : symmetric G) by (intros i j; unfold G; rewrite edist_sym; reflexivity).
  assert (YS : map (closeness (Q2R ks * scon) spow) (tril 0 (matrix edist s')) = below n (fun i j => Rpower (Q2R ks) spow * G (old pi i) (old pi j))).
  { rewrite (entries_plain n) by exact Ls'. apply below_ext. intros i j H. apply SC; auto; lia. }
  assert (YO : map (closeness scon spow) (tril 0 (matrix edist s)) = below n G) by (apply entries_plain; exact Ls).
  assert (ONE : forall f x x', symmetric f -> x' = below n (fun i j => Rpower (Q2R kt) tpow * f (old pi i) (old pi j)) -> x = below n f ->
    coefficient rd x' (map (closeness (Q2R ks * scon) spow) (tril 0 (matrix edist s'))) = coefficient rd x (map (closeness scon spow) (tril 0 (matrix edist s)))).
  { intros f x x' FS -> ->. rewrite YS, YO. unfold below at 1 2.
    rewrite (coefficient_scale rd _ (fun ij => f (old pi (fst ij)) (old pi (snd ij))) (fun ij => G (old pi (fst ij)) (old pi (snd ij)))) by apply exp_pos.
    apply (coefficient_renumbered rd n pi f G); auto. }
  set (T := fun i j => closeness tcon tpow (edist (row t i) (row t j))).
  assert (ST : coefficient rd (map (closeness (Q2R kt * tcon) tpow) (tril 0 (matrix edist t'))) (map (closeness (Q2R ks * scon) spow) (tril 0 (matrix edist s'))) =
               coefficient rd (map (closeness tcon tpow) (tril 0 (matrix edist t))) (map (closeness scon spow) (tril 0 (matrix edist s)))).
  { apply (ONE T).
    - intros i j. unfold T. rewrite edist_sym. reflexivity.
    - rewrite (entries_plain n) by exact Lt'. apply below_ext. intros i j H. apply SC; auto; lia.
    - apply entries_plain. exact Lt. }
  assert (D : map (fun ids => coefficient rd (map (closeness (Q2R kt * tcon) tpow) (tril 0 (shuffle_matrix 0 (matrix edist t') ids))) (map (closeness (Q2R ks * scon) spow) (tril 0 (matrix edist s')))) perms' =
              map (fun ids => coefficient rd (map (closeness tcon tpow) (tril 0 (shuffle_matrix 0 (matrix edist t) ids))) (map (closeness scon spow) (tril 0 (matrix edist s)))) perms).
  { apply (Forall2_map_eq _ _ _ (conjugate n pi)); auto. intros r r' _ _ (C1 & C2 & C3).
    destruct (perm_facts _ _ C2) as [_ [B2 I2]].
    apply (ONE (fun i j => T (nth i r 0%nat) (nth j r 0%nat))).
    - intros i j. unfold T. rewrite edist_sym. reflexivity.
    - rewrite (entries_shuffled n) by auto. apply below_ext. intros i j H. rewrite (SC kt tcon tpow t t'); auto; try (apply B2; lia).
      + unfold T. rewrite !C3 by lia. reflexivity.
      + intro E. apply I2 in E; lia.
    - apply entries_shuffled; auto. }
  unfold mantel_test, mantel. rewrite ST, D. destruct F; reflexivity.
Qed.
Print Assumptions C128_mantel.

Theorem C128_mantel_exchange : forall rd n scon spow tcon tpow s t perms perms',
  List.length s = n -> List.length t = n -> Forall2 (inverse n) perms perms' ->
  mantel_test rd tcon tpow scon spow t s perms' = mantel_test rd scon spow tcon tpow s t perms.
Proof.
  intros rd n scon spow tcon tpow s t perms perms' Ls Lt F.
  set (G := fun i j => closeness scon spow (edist (row s i) (row s j))).
  set (T := fun i j => closeness tcon tpow (edist (row t i) (row t j))).
  assert (GS : symmetric G) by (intros i j; unfold G; rewrite edist_sym; reflexivity).
  assert (TS : symmetric T) by (intros i j; unfold T; rewrite edist_sym; reflexivity).
  unfold mantel_test, mantel. rewrite (entries_plain n (closeness scon spow)), (entries_plain n (closeness tcon tpow)) by auto. fold G T.
  assert (SW : forall f g, coefficient rd (below n g) (below n f) = coefficient rd (below n f) (below n g)).
  { intros f g. apply (coefficient_sym rd _ (fun ij => f (fst ij) (snd ij)) (fun ij => g (fst ij) (snd ij))). }
  assert (D : map (fun ids => coefficient rd (map (closeness scon spow) (tril 0 (shuffle_matrix 0 (matrix edist s) ids))) (below n T)) perms' =
              map (fun ids => coefficient rd (map (closeness tcon tpow) (tril 0 (shuffle_matrix 0 (matrix edist t) ids))) (below n G)) perms).
  { apply (Forall2_map_eq _ _ _ (inverse n)); auto. intros r r' _ _ (C1 & C2 & C3).
    rewrite (entries_shuffled n) by auto. rewrite (entries_shuffled n _ _ t r) by auto.
    change (coefficient rd (below n (fun i j => G (nth i r' 0%nat) (nth j r' 0%nat))) (below n T) =
            coefficient rd (below n (fun i j => T (nth i r 0%nat) (nth j r 0%nat))) (below n G)).
    rewrite <- (coefficient_renumbered rd n r' (fun i j => T (nth i r 0%nat) (nth j r 0%nat)) G C2) by (auto; intros i j; apply TS).
    rewrite (SW T (fun i j => G (nth i r' 0%nat) (nth j r' 0%nat))). f_equal. apply below_ext. intros i j H. rewrite !C3 by lia. reflexivity. }
  rewrite D, SW. destruct F; reflexivity.
Qed.
Print Assumptions C128_mantel_exchange.

(** With the constants left at 1 and the powers at -1 the unit matters: for the same three
    events the coefficient is positive in kilometres and negative in metres. *)
Lemma corr_sign : forall x y, dot (dev x) (dev x) <> 0 -> dot (dev y) (dev y) <> 0 ->
  (0 < dot (dev x) (dev y) -> 0 < corr x y) /\ (dot (dev x) (dev y) < 0 -> corr x y < 0).
Proof.
  intros x y A B. pose proof (dot_dev_nonneg x). pose proof (dot_dev_nonneg y).
  assert (0 < sqrt (dot (dev x) (dev x)) * sqrt (dot (dev y) (dev y))) as P by (apply Rmult_lt_0_compat; apply sqrt_lt_R0; lra).
  apply Rinv_0_lt_compat in P. unfold corr, Rdiv. split; intro; nra.
Qed.
Definition km : list vec := [[0; 0]; [19 # 1000; 0]; [-10 # 1000; 0]]%Q.
Definition metres : list vec := [[0; 0]; [19; 0]; [-10; 0]]%Q.
Definition days : list vec := [[0]; [0]; [1]]%Q.
Definition three (f : vec -> vec -> R) (c : list vec) : list R := [f (row c 1) (row c 0); f (row c 2) (row c 0); f (row c 2) (row c 1)].
Lemma closeness_inv : forall d, 0 <= d -> closeness 1 (-1) d = / (d + 1).
Proof. intros d H. unfold closeness. change (-1) with (Ropp 1). rewrite Rpower_Ropp, Rpower_1 by lra. reflexivity. Qed.
Lemma edist_val : forall p q (v : Q), (0 <= v)%Q -> (sqdist p q == v * v)%Q -> edist p q = Q2R v.
Proof.
  intros p q v V E. unfold edist. rewrite (Qeq_eqR _ _ E), Q2R_mult. apply sqrt_square.
  replace 0 with (Q2R 0) by (unfold Q2R; cbn; field). apply Qle_Rle. exact V.
Qed.
Theorem C128_mantel_units_refuted : same_shape (seq 0 3) 1000 km metres /\
  (let stat rd s := fst (mantel_test rd 1 (-1) 1 (-1) s days []) in
   (forall rd, exists a, stat rd km = rd a /\ 0 < a) /\ (forall rd, exists b, stat rd metres = rd b /\ b < 0)).
Proof.
  assert (T3 : forall c h, List.length c = 3%nat -> map h (tril 0 (matrix edist c)) = three (fun p q => h (edist p q)) c).
  { intros c h L. rewrite (entries_plain 3) by exact L. reflexivity. }
  assert (G : forall s a b c, List.length s = 3%nat ->
     (0 <= a)%Q -> (0 <= b)%Q -> (0 <= c)%Q -> (sqdist (row s 1) (row s 0) == a * a)%Q -> (sqdist (row s 2) (row s 0) == b * b)%Q -> (sqdist (row s 2) (row s 1) == c * c)%Q ->
     let x := [1; / 2; / 2] in let y := [/ (Q2R a + 1); / (Q2R b + 1); / (Q2R c + 1)] in
     forall rd, fst (mantel_test rd 1 (-1) 1 (-1) s days []) = coefficient rd x y).
  { intros s a b c L A B C Ea Eb Ec x y rd. unfold mantel_test, mantel. cbn [fst]. rewrite !T3 by (exact L || reflexivity). unfold three.
    assert (NN : forall v, (0 <= v)%Q -> 0 <= Q2R v). { intros v V. replace 0 with (Q2R 0) by (unfold Q2R; cbn; field). apply Qle_Rle. exact V. }
    rewrite (edist_val _ _ a A Ea), (edist_val _ _ b B Eb), (edist_val _ _ c C Ec).
    rewrite (edist_val (row days 1) (row days 0) 0) by (vm_compute; congruence || reflexivity).
    rewrite (edist_val (row days 2) (row days 0) 1) by (vm_compute; congruence || reflexivity).
    rewrite (edist_val (row days 2) (row days 1) 1) by (vm_compute; congruence || reflexivity).
    rewrite !closeness_inv by (apply NN; auto; vm_compute; congruence).
    unfold x, y. replace (Q2R 0) with 0 by (unfold Q2R; cbn; field). replace (Q2R 1) with 1 by (unfold Q2R; cbn; field).
    replace (/ (0 + 1)) with 1 by field. replace (/ (1 + 1)) with (/ 2) by field. reflexivity. }
  split.
  { split; [reflexivity|]. intros i j Hi Hj. destruct i as [|[|[|i]]]; cbn [List.length km] in *; try lia; destruct j as [|[|[|j]]]; try lia; vm_compute; reflexivity. }
  cbv zeta. split; intro rd.
  - rewrite (G km (19 # 1000) (10 # 1000) (29 # 1000)) by (vm_compute; congruence || reflexivity).
    set (x := [1; / 2; / 2]). set (y := [_; _; _]).
    assert (X : dot (dev x) (dev x) = / 6) by (unfold x, dot, dev, rmean, Rsum; cbn; field).
    assert (Y : dot (dev y) (dev y) <> 0) by (unfold y, dot, dev, rmean, Rsum, Q2R; cbn; lra).
    assert (Z : 0 < dot (dev x) (dev y)) by (unfold x, y, dot, dev, rmean, Rsum, Q2R; cbn; lra).
    exists (corr x y). split; [|apply corr_sign; auto; rewrite X; lra]. unfold coefficient. rewrite X.
    destruct (Req_EM_T (/ 6) 0); [lra|]. destruct (Req_EM_T (dot (dev y) (dev y)) 0); [contradiction|reflexivity].
  - rewrite (G metres 19%Q 10%Q 29%Q) by (vm_compute; congruence || reflexivity).
    set (x := [1; / 2; / 2]). set (y := [_; _; _]).
    assert (X : dot (dev x) (dev x) = / 6) by (unfold x, dot, dev, rmean, Rsum; cbn; field).
    assert (Y : dot (dev y) (dev y) <> 0) by (unfold y, dot, dev, rmean, Rsum, Q2R; cbn; lra).
    assert (Z : dot (dev x) (dev y) < 0) by (unfold x, y, dot, dev, rmean, Rsum, Q2R; cbn; lra).
    exists (corr x y). split; [|apply corr_sign; auto; rewrite X; lra]. unfold coefficient. rewrite X.
    destruct (Req_EM_T (/ 6) 0); [lra|]. destruct (Req_EM_T (dot (dev y) (dev y)) 0); [contradiction|reflexivity].
Qed.
Print Assumptions C128_mantel_units_refuted.

Example C128_case :
  modified_knox [[0; 0]; [3; 4]; [50; 0]]%Q [[0]; [2]; [3]]%Q 5 1 [[1; 2; 0]%nat] =
  modified_knox [[100; 0]; [8; 6]; [0; 0]]%Q [[9 # 2]; [3]; [0]]%Q 10 (3 # 2) [[2; 0; 1]%nat] /\
  conjugate 3 [2; 1; 0]%nat [1; 2; 0]%nat [2; 0; 1]%nat /\ inverse 3 [1; 2; 0]%nat [2; 0; 1]%nat /\
  modified_knox [[0; 0]; [3; 4]; [50; 0]]%Q [[0]; [2]; [3]]%Q 5 1 [[1; 2; 0]%nat] =
  modified_knox [[0]; [2]; [3]]%Q [[0; 0]; [3; 4]; [50; 0]]%Q 1 5 [[2; 0; 1]%nat] /\
  (exists v, fst (modified_knox [[0; 0]; [3; 4]; [50; 0]]%Q [[0]; [2]; [3]]%Q 5 1 []) = Fin v /\ v == - (1 # 4))%Q.
Proof.
  assert (PF : forall a b c, perm_of 3 [a; b; c] \/ ~ ((a < 3)%nat /\ (b < 3)%nat /\ (c < 3)%nat /\ a <> b /\ a <> c /\ b <> c)).
  { intros a b c. destruct (Nat.lt_ge_cases a 3), (Nat.lt_ge_cases b 3), (Nat.lt_ge_cases c 3), (Nat.eq_dec a b), (Nat.eq_dec a c), (Nat.eq_dec b c); try (right; lia).
    left. apply perm_of_inj; [reflexivity|intros [|[|[|i]]] Hi; cbn; lia|].
    intros i j Hi Hj. destruct i as [|[|[|i]]]; try lia; destruct j as [|[|[|j]]]; try lia; cbn; intro; congruence. }
  split; [vm_compute; reflexivity|]. split; [|split; [|split; [vm_compute; reflexivity|eexists; split; vm_compute; reflexivity]]].
  - split; [destruct (PF 1 2 0)%nat; [auto|lia]|]. split; [destruct (PF 2 0 1)%nat; [auto|lia]|]. intros [|[|[|i]]] Hi; try lia; reflexivity.
  - split; [destruct (PF 1 2 0)%nat; [auto|lia]|]. split; [destruct (PF 2 0 1)%nat; [auto|lia]|]. intros [|[|[|i]]] Hi; try lia; reflexivity.
Qed.
