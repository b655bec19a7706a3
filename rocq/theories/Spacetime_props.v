(** Theorems about the global Knox statistic. *)
From Coq Require Import ZArith QArith List Bool Arith Lia Lqa Permutation.
From Verif Require Import Base BaseLemmas Spec Quadrat_model Spacetime_model Spacetime_spec Pairs_proofs Spacetime_proofs.
Import ListNotations.
Local Open Scope Q_scope.

(** A tree that lists the neighbours in index order, and one in reverse order with repetitions. *)
Definition ball_up (c : list vec) (r : Q) (i : nat) : list nat :=
  filter (fun j => within r (row c i) (row c j)) (seq 0 (List.length c)).
Definition ball_down (c : list vec) (r : Q) (i : nat) : list nat := rev (ball_up c r i) ++ ball_up c r i.
Lemma ball_up_ok : Ball ball_up.
Proof. intros c r i j H. unfold ball_up. rewrite filter_In, in_seq, within_iff. intuition lia. Qed.
Lemma ball_down_ok : Ball ball_down.
Proof.
  intros c r i j H. unfold ball_down. rewrite in_app_iff, <- in_rev. pose proof (ball_up_ok c r i j H). tauto.
Qed.

(** ** C62 *)
Theorem C62_knox_counts : forall ball, Ball ball -> forall s t delta tau perms k a b c,
  knox_global ball s t delta tau perms = Ok k ->
  Card (SPair s delta) a -> Card (SPair t tau) b -> Card (STPair s t delta tau) c ->
  k_ns k == Qnat a /\ k_nt k == Qnat b /\ k_nst k == Qnat c /\ knox_nst k = Z.of_nat c /\
  NoDup (k_st_pairs k) /\ (forall ij, In ij (k_st_pairs k) <-> STPair s t delta tau ij) /\
  List.length (k_st_pairs k) = c.
Proof.
  intros ball HB s t delta tau perms k a b c H CA CB CC.
  destruct (knox_inv ball HB _ _ _ _ _ _ H) as [E [_ [_ [_ [P [N1 [N2 [N3 _]]]]]]]].
  apply card_spair in CA, CB. rewrite <- E in CB. pose proof CC as CC'. apply card_stpair in CC. subst a b.
  assert (I : forall ij, In ij (k_st_pairs k) <-> STPair s t delta tau ij).
  { intros [i j]. rewrite P, st_pairs_in by auto. rewrite nbst_stpair. tauto. }
  assert (D : NoDup (k_st_pairs k)) by (rewrite P; apply st_pairs_nodup).
  split; [auto|]. split; [auto|]. split; [rewrite CC; auto|]. split.
  - unfold knox_nst. rewrite N3. unfold Qnat. rewrite Qtrunc_inject, CC. reflexivity.
  - split; [auto|]. split; [auto|]. apply (Card_unique _ _ _ _ (ex_intro _ _ (conj D (conj I eq_refl))) CC').
Qed.
Print Assumptions C62_knox_counts.

(** The counts exist and the function succeeds exactly for equal lengths. *)
Theorem C62_knox_total : forall ball s t delta tau perms,
  (exists a, Card (SPair s delta) a) /\ (exists c, Card (STPair s t delta tau) c) /\
  (List.length s = List.length t -> exists k, knox_global ball s t delta tau perms = Ok k) /\
  (List.length s <> List.length t -> knox_global ball s t delta tau perms = Raise ValueError).
Proof.
  intros. split; [|split; [|split]].
  - eexists. refine (Card_ext _ _ _ _ _ (card_upper (nb s delta) (List.length s))). intros [i j]. cbn [fst snd]. rewrite nb_spair. tauto.
  - eexists. refine (Card_ext _ _ _ _ _ (card_upper (nbst s t delta tau) (List.length s))). intros [i j]. cbn [fst snd]. rewrite nbst_stpair. tauto.
  - intro E. unfold knox_global. rewrite E, Nat.eqb_refl. eexists. reflexivity.
  - intro E. unfold knox_global. apply Nat.eqb_neq in E. rewrite E. reflexivity.
Qed.
Print Assumptions C62_knox_total.

(** ** C64: permutations *)
Theorem C64_permuted_count : forall ball, Ball ball -> forall s t delta tau perms k p e sims,
  knox_global ball s t delta tau perms = Ok k -> k_sim k = Some (p, e, sims) ->
  Forall (perm_of (List.length s)) perms ->
  Forall2 (fun rids v => forall c, Card (STPair s (permuted t rids) delta tau) c -> v == Qnat c) perms sims.
Proof.
  intros ball HB s t delta tau perms k p e sims H S F.
  destruct (knox_inv ball HB _ _ _ _ _ _ H) as [E _].
  assert (X : sims = map (knox_perm (neighbors ball s delta) (neighbors ball t tau)) perms).
  { unfold knox_global in H. rewrite E, Nat.eqb_refl in H. injection H as H. subst k. cbn [k_sim] in S.
    destruct perms; [discriminate|]. injection S as _ _ S. auto. }
  subst sims. clear S H. induction F as [|rids perms P F IH]; cbn [map]; constructor; auto.
  intros c C. rewrite knox_perm_upper by auto. apply card_stpair in C. rewrite C. reflexivity.
Qed.
Print Assumptions C64_permuted_count.

(** The same as running the statistic on permuted times; only the joint count changes. *)
Theorem C64_permuted_run : forall ball, Ball ball -> forall s t delta tau perms k rids,
  knox_global ball s t delta tau perms = Ok k -> perm_of (List.length s) rids ->
  exists k', knox_global ball s (permuted t rids) delta tau [] = Ok k' /\
    knox_perm (k_sn k) (k_tn k) rids == k_nst k' /\ k_ns k' == k_ns k /\ k_nt k' == k_nt k /\
    0 <= knox_perm (k_sn k) (k_tn k) rids /\
    knox_perm (k_sn k) (k_tn k) rids <= k_ns k /\ knox_perm (k_sn k) (k_tn k) rids <= k_nt k.
Proof.
  intros ball HB s t delta tau perms k rids H P.
  destruct (knox_inv ball HB _ _ _ _ _ _ H) as [E [S [T [_ [_ [N1 [N2 [N3 _]]]]]]]].
  destruct (perm_facts _ _ P) as [L _].
  assert (L' : List.length s = List.length (permuted t rids)) by (rewrite permuted_length; lia).
  destruct (proj1 (proj2 (proj2 (C62_knox_total ball s (permuted t rids) delta tau []))) L') as [k' K].
  exists k'. split; auto. destruct (knox_inv ball HB _ _ _ _ _ _ K) as [_ [_ [_ [_ [_ [M1 [M2 [M3 _]]]]]]]].
  rewrite S, T. pose proof (knox_perm_upper ball HB s t delta tau rids E P) as V.
  rewrite V, M1, M2, M3, N1, N2. rewrite (upper_permuted t tau rids) by auto.
  split; [reflexivity|]. split; [reflexivity|]. split; [reflexivity|]. split; [apply Qnat_nonneg|].
  destruct (upper_st_le s (permuted t rids) delta tau (List.length s)) as [A B].
  rewrite (upper_permuted t tau rids) in B by auto. split; apply Qnat_le; auto.
Qed.
Print Assumptions C64_permuted_run.

Theorem C64_identity : forall ball, Ball ball -> forall s t delta tau perms k,
  knox_global ball s t delta tau perms = Ok k ->
  knox_perm (k_sn k) (k_tn k) (seq 0 (List.length s)) == k_nst k.
Proof.
  intros ball HB s t delta tau perms k H.
  destruct (knox_inv ball HB _ _ _ _ _ _ H) as [E [S [T [_ [_ [_ [_ [N3 _]]]]]]]].
  rewrite S, T, N3. rewrite knox_perm_upper; [|auto|auto|apply Permutation_refl].
  unfold permuted. replace (map (row t) (seq 0 (List.length s))) with t; [reflexivity|].
  rewrite E. symmetry. apply map_nth_seq.
Qed.
Print Assumptions C64_identity.

(** Order independence of the neighbour lists, including the p-value. *)
Theorem C62_order_independent : forall b1 b2, Ball b1 -> Ball b2 -> forall s t delta tau perms k1 k2,
  Forall (perm_of (List.length s)) perms ->
  knox_global b1 s t delta tau perms = Ok k1 -> knox_global b2 s t delta tau perms = Ok k2 ->
  k_ns k1 == k_ns k2 /\ k_nt k1 == k_nt k2 /\ k_nst k1 == k_nst k2 /\ knox_nst k1 = knox_nst k2 /\
  Permutation (k_st_pairs k1) (k_st_pairs k2) /\
  option_map fst (k_sim k1) = option_map fst (k_sim k2).
Proof.
  intros b1 b2 B1 B2 s t delta tau perms k1 k2 F H1 H2.
  destruct (knox_inv b1 B1 _ _ _ _ _ _ H1) as [E [_ [_ [_ [P1 [X1 [X2 [X3 _]]]]]]]].
  destruct (knox_inv b2 B2 _ _ _ _ _ _ H2) as [_ [_ [_ [_ [P2 [Y1 [Y2 [Y3 _]]]]]]]].
  assert (E1 : k_ns k1 == k_ns k2) by (rewrite X1, Y1; reflexivity).
  assert (E2 : k_nt k1 == k_nt k2) by (rewrite X2, Y2; reflexivity).
  assert (E3 : k_nst k1 == k_nst k2) by (rewrite X3, Y3; reflexivity).
  split; auto. split; auto. split; auto. split.
  { unfold knox_nst. rewrite X3, Y3. reflexivity. }
  split.
  { rewrite P1, P2. apply NoDup_Permutation; [apply st_pairs_nodup|apply st_pairs_nodup|].
    intros [i j]. rewrite !st_pairs_in by auto. tauto. }
  unfold knox_global in H1, H2. rewrite E, Nat.eqb_refl in H1, H2.
  injection H1 as H1. injection H2 as H2. subst k1 k2. cbn [k_nst k_sim] in E3 |- *.
  set (n1 := Qnat (nsum (map (@List.length nat) (map (fun ab => inter (fst ab) (snd ab)) (combine (neighbors b1 s delta) (neighbors b1 t tau))))) / 2) in *.
  set (n2 := Qnat (nsum (map (@List.length nat) (map (fun ab => inter (fst ab) (snd ab)) (combine (neighbors b2 s delta) (neighbors b2 t tau))))) / 2) in *.
  assert (C : forall l, Forall (perm_of (List.length s)) l ->
    count (fun st => Qle_bool n1 st) (map (knox_perm (neighbors b1 s delta) (neighbors b1 t tau)) l) =
    count (fun st => Qle_bool n2 st) (map (knox_perm (neighbors b2 s delta) (neighbors b2 t tau)) l)).
  { intros l G. rewrite !count_map. apply count_ext. intros r R. rewrite Forall_forall in G. specialize (G r R).
    apply eq_true_iff_eq. rewrite !Qle_bool_iff. rewrite E3, !knox_perm_upper by auto. reflexivity. }
  destruct perms as [|r rs]; [reflexivity|]. cbn [option_map fst]. rewrite (C _ F). reflexivity.
Qed.
Print Assumptions C62_order_independent.

(** Four events; 0-1 and 1-2 are close in space, 0-1, 0-3 and 1-3 in time. *)
Definition s_ex : list vec := [[0; 0]; [1; 0]; [1; 1]; [9; 9]].
Definition t_ex : list vec := [[0]; [1]; [5]; [1]].
Example C62_case :
  exists k, knox_global ball_down s_ex t_ex 1 1 [[0%nat;1%nat;2%nat;3%nat]; [0%nat;1%nat;3%nat;2%nat]] = Ok k /\
    k_ns k == 2 /\ k_nt k == 3 /\ k_nst k == 1 /\ k_st_pairs k = [(0, 1)%nat] /\
    k_sim k = Some (perm_pvalue 2 2, 2%nat, [2 / 2; 4 / 2]).
Proof. eexists. split; [vm_compute; reflexivity|]. repeat split; vm_compute; reflexivity. Qed.

(** ** C63 *)
Lemma qn_eq : forall a b c, (a + b = c)%nat -> Qnat c - Qnat b == Qnat a.
Proof. intros a b c <-. rewrite Qnat_plus. ring. Qed.
Lemma card_pairs_of : forall (f : nat -> nat -> bool) n (P : nat * nat -> Prop) k, Card P k ->
  (forall i j, P (i, j) <-> (i < j < n)%nat /\ f i j = true) -> k = upper (fun i j => ind (f i j)) n.
Proof.
  intros f n P k H I. apply (Card_unique _ _ _ _ H). refine (Card_ext _ _ _ _ _ (card_upper _ _)).
  intros [i j]. cbn [fst snd]. rewrite I. tauto.
Qed.
Definition Both (s t : list vec) (P : Prop -> Prop -> Prop) (delta tau : Q) (ij : nat * nat) : Prop :=
  (fst ij < snd ij < List.length s)%nat /\
  P (Close delta (row s (fst ij)) (row s (snd ij))) (Close tau (row t (fst ij)) (row t (snd ij))).

(** Every observed cell counts the pairs it should. *)
Theorem C63_observed : forall ball, Ball ball -> forall s t delta tau perms k c00 c01 c10 c11,
  knox_global ball s t delta tau perms = Ok k ->
  Card (Both s t (fun a b => a /\ b) delta tau) c00 -> Card (Both s t (fun a b => a /\ ~ b) delta tau) c01 ->
  Card (Both s t (fun a b => ~ a /\ b) delta tau) c10 -> Card (Both s t (fun a b => ~ a /\ ~ b) delta tau) c11 ->
  let '(o00, o01, o10, o11) := k_obs k in
  o00 == Qnat c00 /\ o01 == Qnat c01 /\ o10 == Qnat c10 /\ o11 == Qnat c11 /\
  o00 + o01 == k_ns k /\ o00 + o10 == k_nt k /\ o10 + o11 == k_pairs k - k_ns k /\ o01 + o11 == k_pairs k - k_nt k /\
  o00 + o01 + o10 + o11 == Qnat (List.length s) * (Qnat (List.length s) - 1) / 2.
Proof.
  intros ball HB s t delta tau perms k c00 c01 c10 c11 H C00 C01 C10 C11.
  destruct (knox_inv ball HB _ _ _ _ _ _ H) as [E [_ [_ [_ [_ [N1 [N2 [N3 NP]]]]]]]].
  assert (O : k_obs k = (k_nst k, k_ns k - k_nst k, k_nt k - k_nst k, k_pairs k - k_nst k - (k_ns k - k_nst k) - (k_nt k - k_nst k))).
  { unfold knox_global in H. rewrite E, Nat.eqb_refl in H. injection H as H. subst k. reflexivity. }
  rewrite O.
  assert (G : forall (f : nat -> nat -> bool) P c, Card (Both s t P delta tau) c ->
     (forall i j, i <> j -> (f i j = true <-> P (Close delta (row s i) (row s j)) (Close tau (row t i) (row t j)))) ->
     c = upper (fun i j => ind (f i j)) (List.length s)).
  { intros f P c C X. apply (card_pairs_of _ _ _ _ C). intros i j. unfold Both. cbn [fst snd]. split.
    - intros [Y1 Y2]. split; auto. apply X; auto; lia.
    - intros [Y1 Y2]. split; auto. apply X in Y2; auto; lia. }
  assert (B : forall c r i j, i <> j -> (nb c r i j = true <-> Close r (row c i) (row c j))).
  { intros c r i j D. unfold nb. rewrite andb_true_iff, negb_true_iff, Nat.eqb_neq, within_iff. intuition. }
  assert (NB : forall c r i j, i <> j -> (negb (nb c r i j) = true <-> ~ Close r (row c i) (row c j))).
  { intros c r i j D. rewrite negb_true_iff, <- not_true_iff_false, B by auto. tauto. }
  pose proof (G (fun i j => nb s delta i j && nb t tau i j) _ _ C00 ltac:(intros; rewrite andb_true_iff, !B by auto; tauto)) as G00.
  pose proof (G (fun i j => nb s delta i j && negb (nb t tau i j)) _ _ C01 ltac:(intros; rewrite andb_true_iff, NB, B by auto; tauto)) as G01.
  pose proof (G (fun i j => negb (nb s delta i j) && nb t tau i j) _ _ C10 ltac:(intros; rewrite andb_true_iff, NB, B by auto; tauto)) as G10.
  pose proof (G (fun i j => negb (nb s delta i j) && negb (nb t tau i j)) _ _ C11 ltac:(intros; rewrite andb_true_iff, !NB by auto; tauto)) as G11.
  set (n := List.length s) in *.
  assert (S1 : upper (fun i j => ind (nb s delta i j)) n = (c00 + c01)%nat).
  { subst c00 c01. rewrite <- upper_plus. apply upper_ext. intros i j _. destruct (nb s delta i j), (nb t tau i j); reflexivity. }
  assert (S2 : upper (fun i j => ind (nb t tau i j)) n = (c00 + c10)%nat).
  { subst c00 c10. rewrite <- upper_plus. apply upper_ext. intros i j _. destruct (nb s delta i j), (nb t tau i j); reflexivity. }
  assert (S3 : upper (fun _ _ => 1%nat) n = (c00 + c01 + c10 + c11)%nat).
  { subst c00 c01 c10 c11. rewrite <- !upper_plus. apply upper_ext. intros i j _. destruct (nb s delta i j), (nb t tau i j); reflexivity. }
  assert (S4 : upper (fun i j => ind (nbst s t delta tau i j)) n = c00) by (subst c00; reflexivity).
  assert (PP : k_pairs k == Qnat c00 + Qnat c01 + Qnat c10 + Qnat c11).
  { rewrite NP, upper_pairs, S3, !Qnat_plus. reflexivity. }
  assert (PQ : Qnat n * (Qnat n - 1) / 2 == Qnat c00 + Qnat c01 + Qnat c10 + Qnat c11).
  { rewrite upper_pairs, S3, !Qnat_plus. reflexivity. }
  rewrite PQ. rewrite S1 in N1. rewrite S2 in N2. rewrite S4 in N3. rewrite Qnat_plus in N1, N2.
  clear - N1 N2 N3 PP. repeat split; lra.
Qed.
Print Assumptions C63_observed.

(** Expected cells are product of margins over the number of pairs; NaN below two events. *)
Theorem C63_expected : forall ball, Ball ball -> forall s t delta tau perms k,
  knox_global ball s t delta tau perms = Ok k ->
  ((List.length s < 2)%nat -> k_exp k = None) /\
  ((2 <= List.length s)%nat -> exists e00 e01 e10 e11, k_exp k = Some (e00, e01, e10, e11) /\ 0 < k_pairs k /\
     e00 * k_pairs k == k_ns k * k_nt k /\ e01 * k_pairs k == k_ns k * (k_pairs k - k_nt k) /\
     e10 * k_pairs k == (k_pairs k - k_ns k) * k_nt k /\ e11 * k_pairs k == (k_pairs k - k_ns k) * (k_pairs k - k_nt k) /\
     0 <= e00 /\ 0 <= e01 /\ 0 <= e10 /\ 0 <= e11).
Proof.
  intros ball HB s t delta tau perms k H.
  destruct (knox_inv ball HB _ _ _ _ _ _ H) as [E [_ [_ [_ [_ [N1 [N2 [N3 NP]]]]]]]].
  assert (O : k_exp k = match xdiv (k_ns k * k_nt k) (k_pairs k) with
                    | Fin e => Some (e, k_ns k - e, k_nt k - e, k_pairs k - (e + (k_ns k - e) + (k_nt k - e) + 0))
                    | _ => None end).
  { unfold knox_global in H. rewrite E, Nat.eqb_refl in H. injection H as H. subst k. reflexivity. }
  assert (L1 : k_ns k <= k_pairs k).
  { rewrite N1, NP, upper_pairs. apply Qnat_le, upper_mono. intros. destruct (nb _ _ _ _); cbn; lia. }
  assert (L2 : k_nt k <= k_pairs k).
  { rewrite N2, NP, upper_pairs. apply Qnat_le, upper_mono. intros. destruct (nb _ _ _ _); cbn; lia. }
  assert (P1 : 0 <= k_ns k) by (rewrite N1; apply Qnat_nonneg).
  assert (P2 : 0 <= k_nt k) by (rewrite N2; apply Qnat_nonneg).
  rewrite O. split.
  - intro L. assert (Z : k_pairs k == 0).
    { rewrite NP. destruct (List.length s) as [|[|n]]; [reflexivity|reflexivity|lia]. }
    unfold xdiv. apply Qeq_bool_iff in Z. rewrite Z. assert (Y : Qeq_bool (k_ns k * k_nt k) 0 = true).
    { apply Qeq_bool_iff. apply Qeq_bool_iff in Z. assert (k_ns k == 0) by lra. rewrite H0. ring. }
    rewrite Y. reflexivity.
  - intro L. assert (Z : 0 < k_pairs k).
    { rewrite NP. assert (Y : 2 <= Qnat (List.length s)) by (apply (Qnat_le 2); auto).
      apply Qlt_shift_div_l; [reflexivity|]. assert (0 < Qnat (List.length s) * (Qnat (List.length s) - 1)).
      { apply (Qmult_lt_0_compat); lra. } lra. }
    assert (Z' : ~ k_pairs k == 0) by lra.
    unfold xdiv. destruct (Qeq_bool (k_pairs k) 0) eqn:X; [apply Qeq_bool_iff in X; contradiction|].
    exists (k_ns k * k_nt k / k_pairs k), (k_ns k - k_ns k * k_nt k / k_pairs k), (k_nt k - k_ns k * k_nt k / k_pairs k),
      (k_pairs k - (k_ns k * k_nt k / k_pairs k + (k_ns k - k_ns k * k_nt k / k_pairs k) + (k_nt k - k_ns k * k_nt k / k_pairs k) + 0)).
    split; auto. split; auto.
    assert (F : forall e a, e * k_pairs k == a -> 0 <= a -> 0 <= e).
    { intros e a Ee Ha. destruct (Qlt_le_dec e 0) as [N|N]; auto. exfalso.
      assert (e * k_pairs k < 0 * k_pairs k) by (apply Qmult_lt_r; auto). lra. }
    assert (X1 : k_ns k * k_nt k / k_pairs k * k_pairs k == k_ns k * k_nt k) by (field; auto).
    assert (X2 : (k_ns k - k_ns k * k_nt k / k_pairs k) * k_pairs k == k_ns k * (k_pairs k - k_nt k)) by (field; auto).
    assert (X3 : (k_nt k - k_ns k * k_nt k / k_pairs k) * k_pairs k == (k_pairs k - k_ns k) * k_nt k) by (field; auto).
    assert (X4 : (k_pairs k - (k_ns k * k_nt k / k_pairs k + (k_ns k - k_ns k * k_nt k / k_pairs k) + (k_nt k - k_ns k * k_nt k / k_pairs k) + 0)) * k_pairs k == (k_pairs k - k_ns k) * (k_pairs k - k_nt k)) by (field; auto).
    split; auto. split; auto. split; auto. split; auto.
    split; [apply (F _ _ X1)|split; [apply (F _ _ X2)|split; [apply (F _ _ X3)|apply (F _ _ X4)]]]; apply Qmult_le_0_compat; lra.
Qed.
Print Assumptions C63_expected.
Example C63_case :
  (exists k, knox_global ball_up s_ex t_ex 1 1 [] = Ok k /\ k_obs k = (2 / 2, 4 / 2 - 2 / 2, 6 / 2 - 2 / 2, 4 * (4 - 1) / 2 - 2 / 2 - (4 / 2 - 2 / 2) - (6 / 2 - 2 / 2)) /\
     (exists a b c d, k_exp k = Some (a, b, c, d) /\ a == 1 /\ b == 1 /\ c == 2 /\ d == 2)) /\
  (exists k, knox_global ball_up [[0;0]] [[0]] 1 1 [] = Ok k /\ k_exp k = None).
Proof.
  split; eexists; (split; [vm_compute; reflexivity|]).
  - split; [vm_compute; reflexivity|]. do 4 eexists. repeat split; vm_compute; reflexivity.
  - reflexivity.
Qed.

(** ** C65: p-values *)
Lemma perm_pvalue_range : forall e P, (e <= P)%nat ->
  perm_pvalue e P * (Qnat P + 1) == Qnat e + 1 /\ / (Qnat P + 1) <= perm_pvalue e P <= 1 /\ (e = P -> perm_pvalue e P == 1).
Proof.
  intros e P H. pose proof (Qnat_nonneg P) as N. pose proof (Qnat_nonneg e) as M. pose proof (Qnat_le _ _ H) as L.
  unfold perm_pvalue. assert (Z : ~ Qnat P + 1 == 0) by lra.
  split; [field; auto|]. split; [split|].
  - apply Qle_shift_div_l; [lra|]. rewrite Qmult_comm, Qmult_inv_r by auto. lra.
  - apply Qle_shift_div_r; lra.
  - intros ->. field. auto.
Qed.
Theorem C65_knox_pvalue : forall ball s t delta tau perms k p e sims,
  knox_global ball s t delta tau perms = Ok k -> k_sim k = Some (p, e, sims) ->
  perms <> [] /\ List.length sims = List.length perms /\
  (forall c, Counts (fun v => k_nst k <= v) sims c -> e = c /\ p * (Qnat (List.length perms) + 1) == Qnat c + 1) /\
  / (Qnat (List.length perms) + 1) <= p <= 1 /\
  (Forall (fun v => k_nst k <= v) sims -> p == 1).
Proof.
  intros ball s t delta tau perms k p e sims H S. unfold knox_global in H.
  destruct (Nat.eqb _ _); [|discriminate]. injection H as H. subst k. cbn [k_sim k_nst] in *.
  set (nst := Qnat (nsum _) / 2) in *.
  set (kp := knox_perm (neighbors ball s delta) (neighbors ball t tau)) in *.
  assert (NE : perms <> []) by (intro; subst; discriminate).
  assert (SS : perm_pvalue (count (fun st => Qle_bool nst st) (map kp perms)) (List.length perms) = p /\
               count (fun st => Qle_bool nst st) (map kp perms) = e /\ map kp perms = sims).
  { destruct perms; [discriminate|]. injection S as S1 S2 S3. auto. }
  destruct SS as [S1 [S2 S3]].
  assert (L : List.length sims = List.length perms) by (rewrite <- S3; apply map_length).
  assert (B : (e <= List.length perms)%nat) by (rewrite <- S2, <- L, <- S3; apply count_le_length).
  rewrite S2 in S1. destruct (perm_pvalue_range _ _ B) as [X1 [X2 X3]]. rewrite S1 in X1, X2, X3.
  split; [auto|]. split; auto. split; [|split; auto].
  - intros c C. assert (Ec : e = c).
    { apply (Counts_unique _ _ _ _ _ (Counts_filter _ (fun v => nst <= v) (fun st => Qle_bool nst st) sims ltac:(intros; rewrite Qle_bool_iff; tauto)) ) in C.
      rewrite <- C, <- S2, <- S3. reflexivity. }
    split; auto. rewrite <- Ec. auto.
  - intro F. apply X3. rewrite <- S2, <- L, <- S3. apply count_all. intros v V. apply Qle_bool_iff.
    rewrite Forall_forall in F. apply F. rewrite <- S3. auto.
Qed.
Print Assumptions C65_knox_pvalue.
(** Two of three permutations reach the observed count. *)
Example C65_case : exists k, knox_global ball_up s_ex t_ex 1 1 [[0%nat;1%nat;2%nat;3%nat]; [2%nat;1%nat;0%nat;3%nat]; [1%nat;2%nat;3%nat;0%nat]] = Ok k /\
  exists p, k_sim k = Some (p, 2%nat, [2 / 2; 2 / 2; 0 / 2]) /\ p == 3 # 4.
Proof. eexists. split; [vm_compute; reflexivity|]. eexists. split; vm_compute; reflexivity. Qed.
