(** Permutation means of the Jacquez and Mantel statistics. *)
From Coq Require Import ZArith QArith Qreals Reals List Bool Arith Lia Lqa Permutation Factorial.
From Verif Require Import Base BaseLemmas Spec Quadrat_model Spacetime_model Spacetime_spec Pairs_proofs Spacetime_proofs
  Spacetime2_proofs Hyper_proofs Perms_proofs Spacetime_props Spacetime3_props PermLaw_props CenterR_model CenterR_proofs.
Import ListNotations.
Local Open Scope Q_scope.

(** What KNN.from_array promises for event [i] of the rows [c]. *)
Definition KNearest (c : list vec) (k i : nat) (A : list nat) : Prop :=
  NoDup A /\ List.length A = k /\ (forall j, In j A -> (j < List.length c)%nat /\ j <> i) /\
  (forall j m, In j A -> (m < List.length c)%nat -> m <> i -> ~ In m A -> sqdist (row c i) (row c j) <= sqdist (row c i) (row c m)).
(** No event has two others at the same distance. *)
Definition NoTies (c : list vec) : Prop := forall i j m,
  (i < List.length c)%nat -> (j < List.length c)%nat -> (m < List.length c)%nat -> j <> i -> m <> i ->
  sqdist (row c i) (row c j) == sqdist (row c i) (row c m) -> j = m.

Lemma nearest_unique : forall c k i A B, NoTies c -> (i < List.length c)%nat -> KNearest c k i A -> KNearest c k i B ->
  forall x, In x A -> In x B.
Proof.
  intros c k i A B NT Hi [A1 [A2 [A3 A4]]] [B1 [B2 [B3 B4]]] x X.
  destruct (in_dec Nat.eq_dec x B) as [|NB]; auto. exfalso.
  assert (Y : exists y, In y B /\ ~ In y A).
  { destruct (Exists_dec (fun y => ~ In y A) B) as [Z|Z].
    - intro y. destruct (in_dec Nat.eq_dec y A); [right; tauto|left; auto].
    - apply Exists_exists in Z. exact Z.
    - exfalso. apply NB. assert (I : incl B A).
      { intros y Y. destruct (in_dec Nat.eq_dec y A) as [|N]; auto. exfalso. apply Z, Exists_exists. exists y. auto. }
      apply (NoDup_length_incl (l:=B) (l':=A)); auto. lia. }
  destruct Y as [y [Y1 Y2]]. destruct (A3 x X) as [X1 X2]. destruct (B3 y Y1) as [X3 X4].
  assert (x = y).
  { apply (NT i); auto. apply Qle_antisym; [apply A4; auto|apply B4; auto]. }
  subst. contradiction.
Qed.
Lemma nearest_permuted : forall t r k i A, perm_of (List.length t) r -> (i < List.length t)%nat ->
  KNearest (permuted t r) k i A -> KNearest t k (nth i r 0%nat) (map (fun j => nth j r 0%nat) A).
Proof.
  intros t r k i A P Hi [A1 [A2 [A3 A4]]]. destruct (perm_facts _ _ P) as [L [B I]]. rewrite permuted_length in A3, A4.
  split; [|split; [|split]].
  - apply NoDup_map_in; auto. intros x y X Y. apply I; apply A3 in X; apply A3 in Y; lia.
  - rewrite map_length. auto.
  - intros j J. apply in_map_iff in J. destruct J as [x [<- X]]. destruct (A3 x X) as [X1 X2]. split; [apply B; lia|].
    intro Z. apply X2, I; auto; lia.
  - intros j m J Hm M N. apply in_map_iff in J. destruct J as [x [<- X]]. destruct (A3 x X) as [X1 X2].
    assert (IM : In m r) by (apply (Permutation_in _ (Permutation_sym P)), in_seq; lia).
    apply (In_nth _ _ 0%nat) in IM. destruct IM as [m' [M1 M2]]. subst m.
    rewrite <- !permuted_row by lia. apply A4; auto.
    + intros ->. contradiction.
    + intro Z. apply N. apply (in_map (fun j => nth j r 0%nat)). auto.
Qed.
Lemma sum_mem : forall n A, NoDup A -> (forall j, In j A -> (j < n)%nat) -> list_sum (map (fun j => ind (mem j A)) (seq 0 n)) = List.length A.
Proof.
  intros n A N B. symmetry. apply length_ind; auto. intro j. rewrite mem_iff. split; [intro X; split; auto|tauto].
Qed.

(** ** C107 *)
(** Without ties in time the mean of the Jacquez statistic over all relabellings is n k^2 / (n-1). *)
Theorem C107_jacquez_mean : forall knn s t k E, List.length s = List.length t -> (2 <= List.length t)%nat ->
  Enum (seq 0 (List.length t)) E -> NoTies t ->
  (forall i, (i < List.length s)%nat -> KNearest s k i (knn s k i)) ->
  (forall r i, In r E -> (i < List.length t)%nat -> KNearest (permuted t r) k i (knn (permuted t r) k i)) ->
  Qmean (map (fun r => Qnat (fst (jacquez knn s (permuted t r) k []))) E) * (Qnat (List.length t) - 1) ==
  Qnat (List.length t) * Qnat k * Qnat k.
Proof.
  intros knn s t k E LS N2 HE NT KS KT. set (n := List.length t) in *.
  assert (ID : In (seq 0 n) E) by (apply (proj2 HE), Permutation_refl).
  assert (PI : permuted t (seq 0 n) = t) by (apply map_nth_seq).
  assert (K0 : forall i, (i < n)%nat -> KNearest t k i (knn t k i)). { intros i Hi. pose proof (KT _ i ID Hi) as X. rewrite PI in X. exact X. }
  set (f := fun i j => ind (mem j (knn s k i))). set (g := fun i j => ind (mem j (knn t k i))).
  assert (ST : forall r, In r E -> fst (jacquez knn s (permuted t r) k []) = total (fun i j => (f i j * g (nth i r 0%nat) (nth j r 0%nat))%nat) n).
  { intros r R. pose proof (proj1 (proj2 HE r) R) as P. destruct (perm_facts _ _ P) as [LR [BR IR]]. cbn [jacquez fst]. unfold jacquez_stat. rewrite permuted_length, LR.
    change nsum with list_sum. unfold total. apply list_sum_map_ext. intros i Hi. apply in_seq in Hi.
    pose proof (KT r i R ltac:(lia)) as KR. pose proof KR as [R1 [R2 [R3 _]]].
    rewrite nodup_fixed_point by auto. rewrite permuted_length, LR in R3.
    assert (EQ : forall j, (j < n)%nat -> In j (knn (permuted t r) k i) <-> In (nth j r 0%nat) (knn t k (nth i r 0%nat))).
    { intros j Hj. pose proof (nearest_permuted t r k i _ P ltac:(lia) KR) as KP. pose proof (K0 (nth i r 0%nat) (BR i ltac:(lia))) as KQ.
      pose proof (nearest_unique t k _ _ _ NT (BR i ltac:(lia)) KP KQ) as U1. pose proof (nearest_unique t k _ _ _ NT (BR i ltac:(lia)) KQ KP) as U2.
      split.
      - intro J. apply U1. apply (in_map (fun j => nth j r 0%nat)). auto.
      - intro J. apply U2, in_map_iff in J. destruct J as [x [X1 X2]]. apply IR in X1; [subst; auto| |lia]. apply R3 in X2. lia. }
    rewrite (length_ind (fun j => mem j (knn s k i) && mem (nth j r 0%nat) (knn t k (nth i r 0%nat))) n).
    - apply list_sum_map_ext. intros j Hj. unfold f, g. destruct (mem j (knn s k i)), (mem (nth j r 0%nat) _); reflexivity.
    - apply NoDup_filter. auto.
    - intro j. rewrite filter_In, andb_true_iff, !mem_iff. split.
      + intros [X1 X2]. destruct (R3 j X1) as [X3 _]. split; [lia|]. split; auto. apply EQ; auto.
      + intros [X1 [X2 X3]]. split; auto. apply EQ; auto. }
  unfold Qmean. rewrite Qlen_Qnat, map_length, (enum_length _ E (seq_NoDup _ _) HE), seq_length. rewrite Qsum_Qnat.
  rewrite (list_sum_map_ext _ _ _ _ ST).
  assert (ZF : forall i, (i < n)%nat -> f i i = 0%nat).
  { intros i Hi. unfold f. destruct (mem i (knn s k i)) eqn:M; [|reflexivity]. apply mem_iff in M. apply KS in M; [|lia]. lia. }
  assert (ZG : forall i, (i < n)%nat -> g i i = 0%nat).
  { intros i Hi. unfold g. destruct (mem i (knn t k i)) eqn:M; [|reflexivity]. apply mem_iff in M. apply K0 in M; auto. lia. }
  rewrite (joint_total n E f g HE ZF ZG).
  assert (TF : total f n = (n * k)%nat).
  { unfold total. rewrite (list_sum_map_ext _ _ (fun _ => k)); [rewrite list_sum_const, seq_length; reflexivity|]. intros i Hi. apply in_seq in Hi.
    destruct (KS i ltac:(lia)) as [A [B [C _]]]. unfold f. rewrite sum_mem; auto. intros j J. apply C in J. lia. }
  assert (TG : total g n = (n * k)%nat).
  { unfold total. rewrite (list_sum_map_ext _ _ (fun _ => k)); [rewrite list_sum_const, seq_length; reflexivity|]. intros i Hi. apply in_seq in Hi.
    destruct (K0 i ltac:(lia)) as [A [B [C _]]]. unfold g. rewrite sum_mem; auto. intros j J. apply C in J. unfold n. lia. }
  rewrite TF, TG, (fact_split2 n N2), !Qnat_mult.
  assert (M : Qnat (n - 1) == Qnat n - 1).
  { replace n with (n - 1 + 1)%nat at 2 by lia. rewrite Qnat_plus. change (Qnat 1) with 1. ring. }
  rewrite M. pose proof (Qnat_pos _ (lt_O_fact (n - 2))). pose proof (Qnat_le 2 n N2) as Y. change (Qnat 2) with 2 in Y. field. repeat split; lra.
Qed.
Print Assumptions C107_jacquez_mean.

(** With ties broken by position the two neighbour lists agree for every relabelling:
    three coincident events, k = 1, the mean is 3 instead of 3/2. *)
Theorem C107_jacquez_ties_refuted : exists knn s t k E, List.length s = List.length t /\ (2 <= List.length t)%nat /\
  Enum (seq 0 (List.length t)) E /\
  (forall i, (i < List.length s)%nat -> KNearest s k i (knn s k i)) /\
  (forall r i, In r E -> (i < List.length t)%nat -> KNearest (permuted t r) k i (knn (permuted t r) k i)) /\
  Qmean (map (fun r => Qnat (fst (jacquez knn s (permuted t r) k []))) E) * (Qnat (List.length t) - 1) == 6 /\
  Qnat (List.length t) * Qnat k * Qnat k == 3.
Proof.
  exists (fun c k i => firstn k (others (List.length c) i)), [[0;0];[0;0];[0;0]], [[0];[0];[0]], 1%nat, (all_perms (seq 0 3)).
  assert (G : forall c, List.length c = 3%nat -> (forall i j, (i < 3)%nat -> (j < 3)%nat -> row c i = row c j) -> forall i, (i < List.length c)%nat -> KNearest c 1 i (firstn 1 (others (List.length c) i))).
  { intros c L R i Hi. rewrite L in *. assert (C : i = 0%nat \/ i = 1%nat \/ i = 2%nat) by lia.
    unfold KNearest. rewrite L.
    assert (O : exists y, firstn 1 (others 3 i) = [y] /\ (y < 3)%nat /\ y <> i).
    { destruct C as [->|[->| ->]]; eexists; (split; [reflexivity|split; lia]). }
    destruct O as [y [-> [Y1 Y2]]]. split; [constructor; [intros []|constructor]|]. split; [reflexivity|]. split.
    - intros j [<-|[]]. auto.
    - intros j m [<-|[]] Hm _ _. rewrite (R y m) by lia. apply Qle_refl. }
  split; [reflexivity|]. split; [cbn; lia|]. split; [apply all_perms_enum, seq_NoDup|]. split; [|split; [|split; vm_compute; reflexivity]].
  - apply G; [reflexivity|]. intros [|[|[|i]]] [|[|[|j]]] A B; try lia; reflexivity.
  - intros r i R Hi. assert (P : perm_of 3 r) by (apply (proj1 (proj2 (all_perms_enum (seq 0 3) (seq_NoDup _ _)) r) R)).
    destruct (perm_facts _ _ P) as [L [B _]]. apply G; [rewrite permuted_length; auto| |rewrite permuted_length, L; exact Hi].
    intros a b Ha Hb. rewrite !permuted_row by lia.
    assert (Z : forall q, (q < 3)%nat -> row [[0];[0];[0]] q = [0]) by (intros [|[|[|q]]] Q; try lia; reflexivity).
    rewrite !Z; auto.
Qed.
Print Assumptions C107_jacquez_ties_refuted.

(** Three events without ties: 3 * 1 / 2. *)
Definition nn1 (c : list vec) (k i : nat) : list nat :=
  match others (List.length c) i with
  | a :: b :: _ => [if Qle_bool (sqdist (row c i) (row c a)) (sqdist (row c i) (row c b)) then a else b]
  | l => l
  end.
Example C107_case : let s := [[0;0];[1;0];[5;0]] in let t := [[5];[0];[1]] in
  NoTies t /\ map (fun r => fst (jacquez nn1 s (permuted t r) 1 [])) (all_perms (seq 0 3)) = [1;2;0;3;1;2]%nat /\
  (forall r i, In r (all_perms (seq 0 3)) -> (i < 3)%nat -> KNearest (permuted t r) 1 i (nn1 (permuted t r) 1 i)).
Proof.
  cbv zeta. split; [|split; [vm_compute; reflexivity|]].
  - intros [|[|[|i]]] [|[|[|j]]] [|[|[|m]]] A B C D F G; cbn [List.length] in *; try lia; vm_compute in G; discriminate.
  - intros r i R Hi. vm_compute in R.
    assert (C : i = 0%nat \/ i = 1%nat \/ i = 2%nat) by lia.
    repeat (destruct R as [<-|R]; [destruct C as [->|[->| ->]]; (split; [vm_compute; repeat constructor; intros []|split; [reflexivity|split;
      [intros j J; vm_compute in J; destruct J as [<-|[]]; cbn; lia
      |intros j m J Hm M N; vm_compute in J; destruct J as [<-|[]]; destruct m as [|[|[|m]]]; cbn [List.length permuted map] in Hm; try lia; vm_compute; try discriminate; exfalso; apply N; left; reflexivity]]])|]).
    destruct R.
Qed.

(** The correlation coefficient. *)
Local Open Scope R_scope.
Definition rmean (x : list R) : R := Rsum x / INR (List.length x).
Definition dev (x : list R) : list R := map (fun v => v - rmean x) x.
Definition dot (x y : list R) : R := Rsum (map (fun ab => fst ab * snd ab) (combine x y)).
Definition corr (x y : list R) : R := dot (dev x) (dev y) / (sqrt (dot (dev x) (dev x)) * sqrt (dot (dev y) (dev y))).

Lemma dot_self : forall x, dot x x = Rsum (map (fun v => v * v) x).
Proof. intros x. unfold dot. f_equal. induction x as [|a x IH]; [reflexivity|]. cbn [combine map fst snd]. rewrite IH. reflexivity. Qed.
Lemma rmean_perm : forall x y, Permutation x y -> rmean x = rmean y.
Proof. intros x y P. unfold rmean. rewrite (Rsum_perm _ _ P), (Permutation_length P). reflexivity. Qed.
Lemma norm_perm : forall x y, Permutation x y -> dot (dev x) (dev x) = dot (dev y) (dev y).
Proof.
  intros x y P. rewrite !dot_self. apply Rsum_perm, Permutation_map. unfold dev. rewrite (rmean_perm _ _ P). apply Permutation_map, P.
Qed.
Lemma dot_maps : forall A (a b : A -> R) l, dot (map a l) (map b l) = Rsum (map (fun x => a x * b x) l).
Proof. intros A a b l. unfold dot. f_equal. induction l as [|x l IH]; [reflexivity|]. cbn [combine map fst snd]. rewrite IH. reflexivity. Qed.
Lemma dev_sum : forall x, x <> [] -> Rsum (dev x) = 0.
Proof.
  intros x N. unfold dev. rewrite (Rsum_ext _ _ (fun v => v + (- rmean x)) x) by (intros; ring).
  rewrite (Rsum_plus R (fun v => v) (fun _ => - rmean x)), Rsum_const. rewrite map_id. unfold rmean.
  assert (INR (List.length x) <> 0). { apply not_0_INR. destruct x; [contradiction|discriminate]. } field. auto.
Qed.
Lemma Rsum_swap : forall A B (f : A -> B -> R) la lb,
  Rsum (map (fun a => Rsum (map (f a) lb)) la) = Rsum (map (fun b => Rsum (map (fun a => f a b) la)) lb).
Proof.
  induction la as [|a la IH]; intros lb.
  - cbn [map]. change (Rsum []) with 0. rewrite Rsum_const. ring.
  - cbn [map]. change (Rsum (?x :: ?y)) with (x + Rsum y). rewrite IH.
    rewrite <- (Rsum_plus B (f a) (fun b => Rsum (map (fun a => f a b) la))). reflexivity.
Qed.
(** Two positions see the same pairs of values over all permutations. *)
Lemma image_pair_R : forall n E (h : nat -> nat -> R) i j, Enum (seq 0 n) E -> (i < n)%nat -> (j < n)%nat -> i <> j ->
  Rsum (map (fun r => h (nth i r 0%nat) (nth j r 0%nat)) E) = Rsum (map (fun r => h (nth 0 r 0%nat) (nth 1 r 0%nat)) E).
Proof.
  intros n E h i j HE Hi Hj D. destruct (complete n [i; j]) as [rest PR].
  { constructor; [intros [X|[]]; congruence|constructor; [intros []|constructor]]. }
  { intros x [<-|[<-|[]]]; auto. }
  pose proof (enum_unique _ _ _ (enum_positions n E _ HE PR) HE) as P.
  rewrite <- (Rsum_perm _ _ (Permutation_map (fun r => h (nth 0 r 0%nat) (nth 1 r 0%nat)) P)). rewrite map_map. reflexivity.
Qed.

Lemma matrix_out : forall A (d : A) D c i j, (List.length c <= i)%nat \/ (List.length c <= j)%nat -> entry d (matrix D c) i j = d.
Proof.
  intros A d D c i j H. unfold entry, matrix. destruct (Nat.lt_ge_cases i (List.length c)) as [Hi|Hi].
  - rewrite (nth_indep _ [] ((fun p => map (D p) c) [])) by (rewrite map_length; auto). rewrite (map_nth (fun p => map (D p) c)).
    apply nth_overflow. rewrite map_length. lia.
  - rewrite (nth_overflow (map _ c)) by (rewrite map_length; auto). destruct j; reflexivity.
Qed.

(** The shuffled matrix of a symmetric distance has the same lower triangle, rearranged. *)
Lemma shuffled_rearranges : forall (ft : R -> R) (Dt : vec -> vec -> R) t r, (forall p q, Dt p q = Dt q p) -> perm_of (List.length t) r ->
  Permutation (map ft (tril 0 (shuffle_matrix 0 (matrix Dt t) r))) (map ft (tril 0 (matrix Dt t))).
Proof.
  intros ft Dt t r SY PR. apply Permutation_map.
  assert (P : perm_of (List.length (matrix Dt t)) r) by (unfold matrix; rewrite map_length; exact PR).
  destruct (C74_rearranges R 0 (matrix Dt t) r P) as [_ [_ [Q _]]]. apply Q. intros i j.
  destruct (Nat.lt_ge_cases i (List.length t)) as [Hi|Hi]; [destruct (Nat.lt_ge_cases j (List.length t)) as [Hj|Hj]|].
  - rewrite !matrix_entry by auto. apply SY.
  - rewrite !matrix_out by auto. reflexivity.
  - rewrite !matrix_out by auto. reflexivity.
Qed.
Lemma Rsum_close : forall A (f g : A -> R) eps l, (forall x, In x l -> Rabs (f x - g x) <= eps) ->
  Rabs (Rsum (map f l) - Rsum (map g l)) <= INR (List.length l) * eps.
Proof.
  intros A f g eps. induction l as [|a l IH]; intros H.
  - cbn. rewrite Rminus_0_r, Rabs_R0. apply Req_le. ring.
  - cbn [map]. change (Rsum (?x :: ?y)) with (x + Rsum y). change (List.length (a :: l)) with (S (List.length l)). rewrite S_INR.
    replace (f a + Rsum (map f l) - (g a + Rsum (map g l))) with ((f a - g a) + (Rsum (map f l) - Rsum (map g l))) by ring.
    eapply Rle_trans; [apply Rabs_triang|]. rewrite Rmult_plus_distr_r, Rmult_1_l, Rplus_comm.
    apply Rplus_le_compat; [apply IH; intros x X; apply H; right; exact X|apply H; left; reflexivity].
Qed.

(** Over all relabellings of the times the Mantel correlations sum to zero. *)
Theorem C107_mantel_centred : forall ft fs (Ds Dt : vec -> vec -> R) s t E,
  List.length s = List.length t -> (forall p q, Dt p q = Dt q p) -> Enum (seq 0 (List.length t)) E ->
  Rsum (map (fun r => corr (map ft (tril 0 (shuffle_matrix 0 (matrix Dt t) r))) (map fs (tril 0 (matrix Ds s)))) E) = 0.
Proof.
  intros ft fs Ds Dt s t E LS SY HE. set (n := List.length t) in *. set (x0 := map ft (tril 0 (matrix Dt t))). set (y := map fs (tril 0 (matrix Ds s))).
  assert (LM : forall A (D : vec -> vec -> A) c, List.length (matrix D c) = List.length c) by (intros; apply map_length).
  assert (PX : forall r, In r E -> Permutation (map ft (tril 0 (shuffle_matrix 0 (matrix Dt t) r))) x0).
  { intros r RE. apply shuffled_rearranges; [exact SY|]. apply (proj2 HE), RE. }
  set (h := fun a b => ft (entry 0 (matrix Dt t) a b) - rmean x0).
  set (w := fun ij : nat * nat => fs (entry 0 (matrix Ds s) (fst ij) (snd ij)) - rmean y).
  assert (DY : dev y = map w (lower_idx n)).
  { unfold dev, y at 2. rewrite tril_idx, LM, LS. rewrite !map_map. reflexivity. }
  assert (CX : forall r, In r E -> corr (map ft (tril 0 (shuffle_matrix 0 (matrix Dt t) r))) y =
    / (sqrt (dot (dev x0) (dev x0)) * sqrt (dot (dev y) (dev y))) * Rsum (map (fun ij => w ij * h (nth (fst ij) r 0%nat) (nth (snd ij) r 0%nat)) (lower_idx n))).
  { intros r RE. unfold corr. rewrite (norm_perm _ _ (PX r RE)). unfold Rdiv. rewrite Rmult_comm. f_equal. rewrite DY.
    assert (DX : dev (map ft (tril 0 (shuffle_matrix 0 (matrix Dt t) r))) = map (fun ij => h (nth (fst ij) r 0%nat) (nth (snd ij) r 0%nat)) (lower_idx n)).
    { unfold dev. rewrite (rmean_perm _ _ (PX r RE)). pose proof (proj1 (proj2 HE r) RE) as P. destruct (perm_facts _ _ P) as [LR _].
      assert (LL : List.length (shuffle_matrix 0 (matrix Dt t) r) = n) by (unfold shuffle_matrix; rewrite map_length; auto).
      rewrite tril_idx, LL, !map_map. apply map_ext_in. intros [i j] I. apply lower_in in I. cbn [fst snd]. unfold h. rewrite shuffle_entry by lia. reflexivity. }
    rewrite DX, dot_maps. apply Rsum_ext. intros. ring. }
  rewrite (Rsum_ext _ _ _ E CX). rewrite Rsum_scale. rewrite Rsum_swap.
  rewrite (Rsum_ext _ _ (fun ij => Rsum (map (fun r => h (nth 0 r 0%nat) (nth 1 r 0%nat)) E) * w ij)).
  - rewrite Rsum_scale. rewrite <- DY. destruct y as [|v y'] eqn:Y; [cbn; ring|]. rewrite <- Y in *. rewrite dev_sum by (rewrite Y; discriminate). ring.
  - intros [i j] I. apply lower_in in I. rewrite Rsum_scale. cbn [fst snd]. rewrite (image_pair_R n E h i j HE) by lia. ring.
Qed.
Print Assumptions C107_mantel_centred.

(** The value a coefficient reports, as a real. *)
Definition xreal (v : xq) : R := match v with Fin q => Q2R q | _ => 0 end.
Lemma tril_shuffled : forall A (d : A) (D : vec -> vec -> A) t r, perm_of (List.length t) r ->
  tril d (matrix D (permuted t r)) = tril d (shuffle_matrix d (matrix D t) r).
Proof.
  intros A d D t r P. destruct (perm_facts _ _ P) as [L [B _]]. rewrite !tril_idx.
  assert (L1 : List.length (matrix D (permuted t r)) = List.length t) by (unfold matrix; rewrite map_length, permuted_length; auto).
  assert (L2 : List.length (shuffle_matrix d (matrix D t) r) = List.length t) by (unfold shuffle_matrix; rewrite map_length; auto).
  rewrite L1, L2. apply map_ext_in. intros [i j] I. apply lower_in in I. cbn [fst snd].
  rewrite matrix_entry by (rewrite permuted_length; lia). rewrite shuffle_entry by lia.
  rewrite matrix_entry by (apply B; lia). rewrite !permuted_row by lia. reflexivity.
Qed.
(** A coefficient that is accurate to [eps] whenever neither list is constant makes the mean of the
    statistics that mantel reports over all relabellings of the times at most [eps] away from zero. *)
Theorem C107_mantel_mean : forall pearson eps ft fs (Ds Dt : vec -> vec -> R) s t E,
  (forall x y, dot (dev x) (dev x) <> 0 -> dot (dev y) (dev y) <> 0 -> exists q, pearson x y = Fin q /\ Rabs (Q2R q - corr x y) <= eps) ->
  List.length s = List.length t -> (forall p q, Dt p q = Dt q p) -> Enum (seq 0 (List.length t)) E ->
  (let x := map ft (tril 0 (matrix Dt t)) in dot (dev x) (dev x) <> 0) ->
  (let y := map fs (tril 0 (matrix Ds s)) in dot (dev y) (dev y) <> 0) ->
  let stat r := fst (mantel 0 ft fs pearson (matrix Dt (permuted t r)) (matrix Ds s) []) in
  (forall r, In r E -> exists q, stat r = Fin q) /\
  Rabs (Rsum (map (fun r => xreal (stat r)) E)) <= INR (fact (List.length t)) * eps.
Proof.
  intros pearson eps ft fs Ds Dt s t E HP LS SY HE NX NY stat.
  assert (S1 : forall r, In r E -> exists q, stat r = Fin q /\
     Rabs (Q2R q - corr (map ft (tril 0 (shuffle_matrix 0 (matrix Dt t) r))) (map fs (tril 0 (matrix Ds s)))) <= eps).
  { intros r RE. pose proof (proj1 (proj2 HE r) RE) as P. unfold stat, mantel. cbn [fst]. rewrite tril_shuffled by exact P. apply HP; [|exact NY].
    rewrite (norm_perm _ _ (shuffled_rearranges ft Dt t r SY P)). exact NX. }
  split.
  { intros r RE. destruct (S1 r RE) as [q [Q _]]. exists q. exact Q. }
  rewrite <- (Rminus_0_r (Rsum _)). rewrite <- (C107_mantel_centred ft fs Ds Dt s t E LS SY HE).
  rewrite <- (seq_length (List.length t) 0) at 1. rewrite <- (enum_length _ E (seq_NoDup _ _) HE).
  apply Rsum_close. intros r RE. destruct (S1 r RE) as [q [Q1 Q2]]. rewrite Q1. exact Q2.
Qed.
Print Assumptions C107_mantel_mean.
