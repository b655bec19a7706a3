(** The permutation variance of the Jacquez statistic: property C153. *)
From Coq Require Import ZArith QArith List Bool Arith Lia Lqa Permutation Factorial.
From Verif Require Import Base BaseLemmas Spec Quadrat_model Spacetime_model Spacetime_spec Pairs_proofs Spacetime_proofs
  Spacetime2_proofs Hyper_proofs Perms_proofs Spacetime_props Spacetime3_props PermLaw_props PermMean_props Knoxvar_proofs Knoxvar_props Jacqvar_proofs.
Import ListNotations.
Local Open Scope Q_scope.

(** For a list [A i] of neighbours of each event: how many events have [j] as a
    neighbour, the sum of the squares of these numbers, and the number of ordered pairs
    of events that are neighbours of each other. *)
Definition chosen (A : nat -> list nat) (n j : nat) : nat := List.length (filter (fun i => mem j (A i)) (seq 0 n)).
Definition chosen2 (A : nat -> list nat) (n : nat) : Q := Qnat (list_sum (map (fun j => (chosen A n j * chosen A n j)%nat) (seq 0 n))).
Definition mutual (A : nat -> list nat) (n : nat) : Q := Qnat (list_sum (map (fun i => List.length (filter (fun j => mem i (A j)) (A i))) (seq 0 n))).
(** Ordered pairs of arrows without a common event. *)
Definition disjoint_arrows (A : nat -> list nat) (n k : nat) : Q :=
  Qnat n * Qnat n * (Qnat k * Qnat k) - 3 * (Qnat n * (Qnat k * Qnat k)) + Qnat n * Qnat k + mutual A n - chosen2 A n.
Definition jacquez_second (A B : nat -> list nat) (n k : nat) : Q :=
  let q := Qnat n in let c := Qnat k in
  (q * q * (c * c) + mutual A n * mutual B n) / (q * (q - 1)) +
  (q * q * (c * c) * ((c - 1) * (c - 1)) + (chosen2 A n - q * c) * (chosen2 B n - q * c) + 2 * (q * (c * c) - mutual A n) * (q * (c * c) - mutual B n)) / (q * (q - 1) * (q - 2)) +
  disjoint_arrows A n k * disjoint_arrows B n k / (q * (q - 1) * (q - 2) * (q - 3)).

Definition arrow (A : nat -> list nat) (i j : nat) : nat := ind (negb (Nat.eqb i j) && mem j (A i)).
(** Lists of [k] different neighbours, none of them the event itself. *)
Definition Neighbours (A : nat -> list nat) (n k : nat) : Prop := forall i, (i < n)%nat -> NoDup (A i) /\ List.length (A i) = k /\ (forall j, In j (A i) -> (j < n)%nat /\ j <> i).

Lemma arrow_loop : forall A i, arrow A i i = 0%nat.
Proof. intros A i. unfold arrow. rewrite Nat.eqb_refl. reflexivity. Qed.
Lemma arrow_mem : forall A n k i j, Neighbours A n k -> (i < n)%nat -> arrow A i j = ind (mem j (A i)).
Proof.
  intros A n k i j H Hi. unfold arrow. destruct (Nat.eqb_spec i j) as [->|D]; [|reflexivity]. cbn [negb andb].
  destruct (mem j (A j)) eqn:M; [|reflexivity]. apply mem_iff in M. apply (H j Hi) in M. exfalso. lia.
Qed.
Lemma filter_ind : forall (f : nat -> bool) l, list_sum (map (fun i => ind (f i)) l) = List.length (filter f l).
Proof. induction l as [|a l IH]; [reflexivity|]. cbn [map filter list_sum fold_right]. change (fold_right Init.Nat.add 0%nat) with list_sum. rewrite IH. destruct (f a); reflexivity. Qed.
Lemma arrow_sums : forall A n k, Neighbours A n k ->
  (forall i, (i < n)%nat -> dg (arrow A) (seq 0 n) i = k) /\ (forall j, indeg (arrow A) (seq 0 n) j = chosen A n j) /\
  arr_sum 2 (seq 0 n) (same2 (arrow A)) = (n * k)%nat /\ Qnat (arr_sum 2 (seq 0 n) (back2 (arrow A))) = mutual A n.
Proof.
  intros A n k H. assert (D : forall i, (i < n)%nat -> dg (arrow A) (seq 0 n) i = k).
  { intros i Hi. unfold dg. rewrite (list_sum_map_ext _ _ (fun j => ind (mem j (A i)))) by (intros; apply (arrow_mem A n k); assumption).
    destruct (H i Hi) as [N1 [N2 N3]]. rewrite sum_mem; [exact N2|exact N1|intros j J; apply N3; exact J]. }
  split; [exact D|]. split; [|split].
  - intro j. unfold indeg, chosen. rewrite <- filter_ind. apply list_sum_map_ext. intros i Hi. apply in_seq in Hi. apply (arrow_mem A n k); [assumption|lia].
  - rewrite (same_sum _ (arrow_loop A)). rewrite (list_sum_map_ext _ _ (fun _ => k)); [rewrite list_sum_const, seq_length; reflexivity|]. intros i Hi. apply in_seq in Hi.
    rewrite <- (D i) by lia. unfold dg. apply list_sum_map_ext. intros j _. unfold arrow. destruct (negb (Nat.eqb i j) && mem j (A i)); reflexivity.
  - rewrite (back_sum _ (arrow_loop A)). unfold mutual. f_equal. apply list_sum_map_ext. intros i Hi. apply in_seq in Hi.
    destruct (H i ltac:(lia)) as [N1 [N2 N3]].
    rewrite (length_ind (fun j => mem j (A i) && mem i (A j)) n).
    + apply list_sum_map_ext. intros j Hj. apply in_seq in Hj. rewrite (arrow_mem A n k i j), (arrow_mem A n k j i) by (auto; lia). destruct (mem j (A i)), (mem i (A j)); reflexivity.
    + apply NoDup_filter. exact N1.
    + intro j. rewrite filter_In, andb_true_iff, mem_iff. rewrite mem_iff; split; [intros [X Y]; split; [apply N3; exact X|split; assumption]|intros [_ X]; exact X].
Qed.
Lemma arrow_values : forall A n k, Neighbours A n k ->
  let q := Qnat n in let c := Qnat k in
  Qnat (arr_sum 3 (seq 0 n) (out2 (arrow A))) == q * c * (c - 1) /\ Qnat (arr_sum 3 (seq 0 n) (into2 (arrow A))) == chosen2 A n - q * c /\
  Qnat (arr_sum 3 (seq 0 n) (next2 (arrow A))) == q * (c * c) - mutual A n /\ Qnat (arr_sum 3 (seq 0 n) (prev2 (arrow A))) == q * (c * c) - mutual A n /\
  Qnat (arr_sum 4 (seq 0 n) (w4 (arrow A))) == disjoint_arrows A n k.
Proof.
  intros A n k H q c. destruct (arrow_sums A n k H) as [D [I [S1 B1]]]. set (l := seq 0 n) in *. pose proof (arrow_loop A) as LO.
  assert (TT : tot (arrow A) l = (n * k)%nat).
  { unfold tot. rewrite (list_sum_map_ext _ _ (fun _ => k)); [unfold l; rewrite list_sum_const, seq_length; reflexivity|]. intros i Hi. apply in_seq in Hi. apply D. lia. }
  pose proof (out_sum _ LO l) as O. pose proof (into_sum _ LO l) as IN. pose proof (next_sum _ LO l) as NX. pose proof (prev_sum _ LO l) as PV. pose proof (square_split _ LO l) as SQ.
  rewrite (list_sum_map_ext _ _ (fun _ => (k * k)%nat)) in O by (intros i Hi; apply in_seq in Hi; rewrite D by lia; reflexivity).
  rewrite list_sum_const in O. unfold l in O at 3. rewrite seq_length in O.
  rewrite (list_sum_map_ext _ _ (fun j => (chosen A n j * chosen A n j)%nat)) in IN by (intros; rewrite I; reflexivity).
  assert (KI : list_sum (map (fun j => (indeg (arrow A) l j * dg (arrow A) l j)%nat) l) = (n * (k * k))%nat).
  { rewrite (list_sum_map_ext _ _ (fun j => (k * indeg (arrow A) l j)%nat)) by (intros i Hi; apply in_seq in Hi; rewrite D by lia; apply Nat.mul_comm). rewrite list_sum_scale.
    assert (X : list_sum (map (indeg (arrow A) l) l) = (n * k)%nat) by (rewrite <- TT; unfold tot, dg, indeg; symmetry; apply (swap_sum l (arrow A))). rewrite X. ring. }
  rewrite KI in NX, PV. rewrite TT in SQ. rewrite S1 in *.
  apply (f_equal Qnat) in O, IN, NX, PV, SQ. assert (QE : forall x y : Q, x = y -> x == y) by (intros x y ->; reflexivity).
  apply QE in O, IN, NX, PV, SQ. rewrite !Qnat_plus, !Qnat_mult in O. rewrite !Qnat_plus, !Qnat_mult in SQ. rewrite Qnat_plus, Qnat_mult in IN. rewrite Qnat_plus, !Qnat_mult in NX. rewrite Qnat_plus, !Qnat_mult in PV.
  rewrite B1 in NX, PV, SQ. change (Qnat (list_sum (map (fun j => (chosen A n j * chosen A n j)%nat) l))) with (chosen2 A n) in IN. fold q c in O, IN, NX, PV, SQ.
  unfold disjoint_arrows. fold q c. generalize dependent (mutual A n). generalize dependent (chosen2 A n). intros.
  assert (V1 : Qnat (arr_sum 3 l (out2 (arrow A))) == q * c * (c - 1)) by (setoid_replace (q * c * (c - 1)) with (q * (c * c) - q * c) by ring; lra).
  split; [exact V1|]. split; [lra|]. split; [lra|]. split; [lra|]. setoid_replace (q * q * (c * c)) with (q * c * (q * c)) by ring. setoid_replace (q * c * (c - 1)) with (q * (c * c) - q * c) in V1 by ring. lra.
Qed.

Section Core.
Variables (knn : list vec -> nat -> nat -> list nat) (s t : list vec) (k : nat) (E : list (list nat)).
Notation n := (List.length t).
Hypothesis LS : List.length s = n.
Hypothesis HE : Enum (seq 0 n) E.
Hypothesis NT : NoTies t.
Hypothesis KS : forall i, (i < List.length s)%nat -> KNearest s k i (knn s k i).
Hypothesis KT : forall r i, In r E -> (i < n)%nat -> KNearest (permuted t r) k i (knn (permuted t r) k i).

Lemma here : forall i, (i < n)%nat -> KNearest t k i (knn t k i).
Proof using HE KT.
  intros i Hi. assert (ID : In (seq 0 n) E) by (apply (proj2 HE), Permutation_refl). pose proof (KT _ i ID Hi) as X.
  replace (permuted t (seq 0 n)) with t in X by (symmetry; apply map_nth_seq). exact X.
Qed.
Lemma nb_s : Neighbours (knn s k) n k.
Proof using LS KS. intros i Hi. destruct (KS i ltac:(lia)) as [A [B [C _]]]. split; [exact A|]. split; [exact B|]. intros j J. apply C in J. lia. Qed.
Lemma nb_t : Neighbours (knn t k) n k.
Proof using HE KT. intros i Hi. destruct (here i Hi) as [A [B [C _]]]. split; [exact A|]. split; [exact B|]. exact C. Qed.
Lemma stat_tot : forall r, In r E -> fst (jacquez knn s (permuted t r) k []) = tot (fun i j => (arrow (knn s k) i j * arrow (knn t k) (nth i r 0) (nth j r 0))%nat) (seq 0 n).
Proof using LS HE NT KS KT.
  intros r R. pose proof (proj1 (proj2 HE r) R) as P. destruct (perm_facts _ _ P) as [LR [BR IR]]. cbn [jacquez fst]. unfold jacquez_stat. rewrite permuted_length, LR.
  change nsum with list_sum. unfold tot, dg. apply list_sum_map_ext. intros i Hi. apply in_seq in Hi.
  pose proof (KT r i R ltac:(lia)) as KR. pose proof KR as [R1 [R2 [R3 _]]].
  rewrite nodup_fixed_point by auto. rewrite permuted_length, LR in R3.
  assert (EQ : forall j, (j < n)%nat -> In j (knn (permuted t r) k i) <-> In (nth j r 0%nat) (knn t k (nth i r 0%nat))).
  { intros j Hj. pose proof (nearest_permuted t r k i _ P ltac:(lia) KR) as KP. pose proof (here (nth i r 0%nat) (BR i ltac:(lia))) as KQ.
    pose proof (nearest_unique t k _ _ _ NT (BR i ltac:(lia)) KP KQ) as U1. pose proof (nearest_unique t k _ _ _ NT (BR i ltac:(lia)) KQ KP) as U2.
    split.
    - intro J. apply U1. apply (in_map (fun j => nth j r 0%nat)). auto.
    - intro J. apply U2, in_map_iff in J. destruct J as [x [X1 X2]]. apply IR in X1; [subst; auto| |lia]. apply R3 in X2. lia. }
  rewrite (length_ind (fun j => mem j (knn s k i) && mem (nth j r 0%nat) (knn t k (nth i r 0%nat))) n).
  - apply list_sum_map_ext. intros j Hj. rewrite (arrow_mem _ n k i j nb_s), (arrow_mem _ n k _ _ nb_t) by (try apply BR; lia). destruct (mem j (knn s k i)), (mem (nth j r 0%nat) _); reflexivity.
  - apply NoDup_filter. auto.
  - intro j. rewrite filter_In, andb_true_iff, !mem_iff. split.
    + intros [X1 X2]. destruct (R3 j X1) as [X3 _]. split; [lia|]. split; auto. apply EQ; auto.
    + intros [X1 [X2 X3]]. split; auto. apply EQ; auto.
Qed.
End Core.

(** ** C153 *)
(** Without ties in time, with every relabelling once and four or more events. *)
Theorem C153_variance : forall knn s t k E, List.length s = List.length t -> (4 <= List.length t)%nat ->
  Enum (seq 0 (List.length t)) E -> NoTies t ->
  (forall i, (i < List.length s)%nat -> KNearest s k i (knn s k i)) ->
  (forall r i, In r E -> (i < List.length t)%nat -> KNearest (permuted t r) k i (knn (permuted t r) k i)) ->
  let n := List.length t in let m := Qnat n * Qnat k * Qnat k / (Qnat n - 1) in
  let stats := map (fun r => Qnat (fst (jacquez knn s (permuted t r) k []))) E in
  Qmean stats == m /\ variance m stats == jacquez_second (knn s k) (knn t k) n k - m * m.
Proof.
  intros knn s t k E LS N4 HE NT KS KT n m stats. assert (Q4 : 4 <= Qnat n) by (apply (Qnat_le 4 n N4)).
  assert (MM : Qmean stats == m).
  { pose proof (C107_jacquez_mean knn s t k E LS ltac:(lia) HE NT KS KT) as X. fold n in X. fold stats in X. unfold m. rewrite <- X. field. lra. }
  split; [exact MM|].
  assert (LE : List.length E = fact n) by (rewrite (enum_length _ E (seq_NoDup _ _) HE), seq_length; reflexivity).
  rewrite variance_moments; [|unfold stats; intro X; apply map_eq_nil in X; rewrite X in LE; pose proof (lt_O_fact n); cbn in LE; lia|exact MM]. apply Qplus_comp; [|reflexivity].
  unfold Qmean. rewrite Qlen_Qnat, map_length. unfold stats. rewrite map_length, LE, map_map.
  rewrite (Qsum_map_ext' _ _ (fun r => 1 * Qnat (tot (fun i j => (arrow (knn s k) i j * arrow (knn t k) (nth i r 0) (nth j r 0))%nat) (seq 0 n) * tot (fun i j => (arrow (knn s k) i j * arrow (knn t k) (nth i r 0) (nth j r 0))%nat) (seq 0 n)))).
  2:{ intros r R. rewrite (stat_tot knn s t k E LS HE NT KS KT r R), Qnat_mult. fold n. ring. }
  rewrite Qsum_map_scale, Qsum_Qnat, (moment_directed n E _ _ HE (arrow_loop _) (arrow_loop _)).
  pose proof (nb_s knn s t k LS KS) as NS. pose proof (nb_t knn t k E HE KT) as NTT. fold n in NS, NTT.
  destruct (arrow_values _ _ _ NS) as [A1 [A2 [A3 [A4 A5]]]]. destruct (arrow_values _ _ _ NTT) as [B1 [B2 [B3 [B4 B5]]]].
  destruct (arrow_sums _ _ _ NS) as [_ [_ [SA BA]]]. destruct (arrow_sums _ _ _ NTT) as [_ [_ [SB BB]]]. cbv zeta in *.
  rewrite SA, SB. rewrite !Qnat_plus, !Qnat_mult, !Qnat_plus, !Qnat_mult, A1, A2, A3, A4, A5, B1, B2, B3, B4, B5, BA, BB.
  assert (I2 : Qnat (fact (n - 2)) / Qnat (fact n) == 1 / (Qnat n * (Qnat n - 1))).
  { rewrite (fact_split2 n) by lia. rewrite !Qnat_mult, (Qnat_sub n 1) by lia. change (Qnat 1) with 1. pose proof (Qnat_pos _ (lt_O_fact (n - 2))). field. repeat split; lra. }
  assert (I3 : Qnat (fact (n - 3)) / Qnat (fact n) == 1 / (Qnat n * (Qnat n - 1) * (Qnat n - 2))).
  { rewrite (fact_split3 n) by lia. rewrite !Qnat_mult, (Qnat_sub n 1), (Qnat_sub n 2) by lia. change (Qnat 1) with 1. change (Qnat 2) with 2. pose proof (Qnat_pos _ (lt_O_fact (n - 3))). field. repeat split; lra. }
  assert (I4 : Qnat (fact (n - 4)) / Qnat (fact n) == 1 / (Qnat n * (Qnat n - 1) * (Qnat n - 2) * (Qnat n - 3))).
  { rewrite (fact_split4 n) by lia. rewrite !Qnat_mult, (Qnat_sub n 1), (Qnat_sub n 2), (Qnat_sub n 3) by lia. change (Qnat 1) with 1. change (Qnat 2) with 2. change (Qnat 3) with 3. pose proof (Qnat_pos _ (lt_O_fact (n - 4))). field. repeat split; lra. }
  pose proof (Qnat_pos _ (lt_O_fact n)) as FP. unfold jacquez_second. cbv zeta.
  generalize dependent (Qnat (fact (n - 2))). generalize dependent (Qnat (fact (n - 3))). generalize dependent (Qnat (fact (n - 4))). generalize dependent (Qnat (fact n)).
  generalize (disjoint_arrows (knn s k) n k) (disjoint_arrows (knn t k) n k) (mutual (knn s k) n) (mutual (knn t k) n) (chosen2 (knn s k) n) (chosen2 (knn t k) n).
  clear - Q4. set (q := Qnat n) in *. set (c := Qnat k). clearbody q c. intros a4 b4 ma mb ca cb F FP f4 I4 f3 I3 f2 I2.
  transitivity (a4 * b4 * (f4 / F) + (q * c * (c - 1) * (q * c * (c - 1)) + (ca - q * c) * (cb - q * c) + 2 * ((q * (c * c) - ma) * (q * (c * c) - mb))) * (f3 / F) + (q * c * (q * c) + ma * mb) * (f2 / F)); [field; lra|].
  rewrite I2, I3, I4. field. repeat split; lra.
Qed.
Print Assumptions C153_variance.

(** ** A concrete case *)
(** Nearest other event, the first one at the least distance. *)
Definition best (c : list vec) (i : nat) (l : list nat) (d : nat) : nat :=
  fold_left (fun b j => if Qle_bool (sqdist (row c i) (row c b)) (sqdist (row c i) (row c j)) then b else j) l d.
Definition nearest1 (c : list vec) (k i : nat) : list nat :=
  match others (List.length c) i with [] => [] | a :: l => [best c i l a] end.
Lemma best_spec : forall c i l d, In (best c i l d) (d :: l) /\ forall j, In j (d :: l) -> sqdist (row c i) (row c (best c i l d)) <= sqdist (row c i) (row c j).
Proof.
  intros c i l. induction l as [|a l IH]; intro d; [split; [left; reflexivity|intros j [<-|[]]; apply Qle_refl]|].
  unfold best. cbn [fold_left]. fold (best c i l (if Qle_bool (sqdist (row c i) (row c d)) (sqdist (row c i) (row c a)) then d else a)).
  destruct (Qle_bool (sqdist (row c i) (row c d)) (sqdist (row c i) (row c a))) eqn:B.
  - apply Qle_bool_iff in B. destruct (IH d) as [I1 I2]. split; [destruct I1 as [X|X]; [left; exact X|right; right; exact X]|].
    intros j [<-|[<-|J]]; [apply I2; left; reflexivity|eapply Qle_trans; [apply I2; left; reflexivity|exact B]|apply I2; right; exact J].
  - assert (B' : sqdist (row c i) (row c a) < sqdist (row c i) (row c d)) by (apply Qnot_le_lt; intro X; apply Qle_bool_iff in X; rewrite X in B; discriminate B).
    destruct (IH a) as [I1 I2]. split; [right; exact I1|].
    intros j [<-|J]; [eapply Qle_trans; [apply I2; left; reflexivity|apply Qlt_le_weak; exact B']|apply I2; exact J].
Qed.
Lemma nearest1_ok : forall c i, (2 <= List.length c)%nat -> (i < List.length c)%nat -> KNearest c 1 i (nearest1 c 1 i).
Proof.
  intros c i L Hi. unfold nearest1. assert (O : forall j, In j (others (List.length c) i) <-> (j < List.length c)%nat /\ j <> i).
  { intro j. unfold others. rewrite filter_In, in_seq, negb_true_iff, Nat.eqb_neq. lia. }
  destruct (others (List.length c) i) as [|a l] eqn:EO.
  - exfalso. destruct i as [|i]; [apply (proj2 (O 1%nat)); lia|apply (proj2 (O 0%nat)); lia].
  - destruct (best_spec c i l a) as [B1 B2]. split; [repeat constructor; intros []|]. split; [reflexivity|]. split; [intros j [<-|[]]; apply O; exact B1|].
    intros j m [<-|[]] Hm D _. apply B2. apply O. split; assumption.
Qed.
(** Four places, four times: the 24 relabellings have mean 4/3 and variance 14/9; the
    places have two mutual neighbours, the times four. *)
Example C153_case : let s := [[0;0];[1;0];[3;0];[7;0]] in let t := [[0];[1];[10];[12]] in
  let stats := map (fun r => Qnat (fst (jacquez nearest1 s (permuted t r) 1 []))) (all_perms (seq 0 4)) in
  NoTies t /\ (forall i, (i < 4)%nat -> KNearest s 1 i (nearest1 s 1 i)) /\
  (forall r i, In r (all_perms (seq 0 4)) -> (i < 4)%nat -> KNearest (permuted t r) 1 i (nearest1 (permuted t r) 1 i)) /\
  mutual (nearest1 s 1) 4 == 2 /\ mutual (nearest1 t 1) 4 == 4 /\ chosen2 (nearest1 s 1) 4 == 6 /\ chosen2 (nearest1 t 1) 4 == 4 /\
  Qmean stats == 4 # 3 /\ variance (4 # 3) stats == 14 # 9 /\ jacquez_second (nearest1 s 1) (nearest1 t 1) 4 1 == 10 # 3.
Proof.
  cbv zeta. split; [|split; [|split; [|repeat split; vm_compute; reflexivity]]].
  - intros [|[|[|[|i]]]] [|[|[|[|j]]]] [|[|[|[|m]]]] A B C D F G; cbn [List.length] in *; try lia; vm_compute in G; discriminate G.
  - intros i Hi. apply nearest1_ok; cbn; lia.
  - intros r i R Hi. assert (P : perm_of 4 r) by (apply (proj1 (proj2 (all_perms_enum (seq 0 4) (seq_NoDup _ _)) r) R)).
    destruct (perm_facts _ _ P) as [L _]. apply nearest1_ok; rewrite permuted_length, L; cbn; lia.
Qed.
