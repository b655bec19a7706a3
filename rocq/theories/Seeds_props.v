(** Property C98: replications of the cluster processes share their parents. *)
From Coq Require Import ZArith QArith List Bool Lia ListDec.
From Verif Require Import Base BaseLemmas Spec Quadrat_model Geometry_model Random_model Random_spec Random_proofs Cluster_proofs Cluster_exact Seeds_model.
Import ListNotations.
Local Open Scope nat_scope.

(** The replication is a sequence of clusters of the given sizes, each of which
    starts with its parent. *)
Definition has_parents (parents : list pt) (sizes : list nat) (rep : list pt) : Prop :=
  exists groups, concat groups = rep /\ map (@List.length pt) groups = sizes /\
    Forall2 (fun p g => exists t, g = p :: t) parents groups.

(** ** Repetitions *)
Lemma repeated : forall (A : Type) (eqd : forall x y : A, {x = y} + {x <> y}) (l : list A), ~ NoDup l ->
  exists i j x, i < j < List.length l /\ nth_error l i = Some x /\ nth_error l j = Some x.
Proof.
  intros A eqd l. induction l as [|a l IH]; intro N; [exfalso; apply N; constructor|].
  destruct (in_dec eqd a l) as [I|I].
  - apply In_nth_error in I. destruct I as [j J]. exists 0, (S j), a. split; [|split; [reflexivity|exact J]].
    assert (j < List.length l) by (apply nth_error_Some; congruence). cbn [List.length]. lia.
  - destruct IH as (i & j & x & B & X & Y); [intro X; apply N; constructor; assumption|].
    exists (S i), (S j), x. cbn [List.length nth_error]. split; [lia|auto].
Qed.
Lemma pigeonhole : forall l, Forall (fun z => (0 <= z < seed_range)%Z) l -> (seed_range < Z.of_nat (List.length l))%Z -> ~ NoDup l.
Proof.
  intros l F L N. assert (I : incl l (zrange seed_range)).
  { intros z Hz. rewrite Forall_forall in F. apply in_zrange. apply F. exact Hz. }
  apply (NoDup_incl_length N) in I. unfold zrange in I. rewrite map_length, seq_length in I. unfold seed_range in *. lia.
Qed.

(** ** Parents *)
Definition parents_of (h : hull) (k : Z) (stream : list Q) : list pt :=
  match poisson h None (SInt k) stream with Val (Arr2 l) _ => l | _ => [] end.

Lemma fill_parents : forall h seeds radii sizes us cls rest,
  List.length seeds = List.length sizes -> List.length radii = List.length sizes ->
  fill_clusters h (zip3 seeds radii sizes) us = Val cls rest ->
  map (@List.length pt) cls = sizes /\ Forall2 (fun p g => exists t, g = p :: t) seeds cls.
Proof.
  intros h seeds. induction seeds as [|p seeds IH]; intros [|r radii] [|m sizes] us cls rest L1 L2 H; try discriminate.
  - injection H as <- <-. split; constructor.
  - cbn [zip3 fill_clusters] in H. apply rbind_val in H. destruct H as (cl & us1 & H1 & H2).
    apply rbind_val in H2. destruct H2 as (cls' & us2 & H2 & H3). injection H3 as <- <-.
    cbn [List.length] in L1, L2. destruct (IH radii sizes us1 cls' us2 ltac:(lia) ltac:(lia) H2) as [A B].
    destruct m as [|[|m]]; [discriminate| |].
    + injection H1 as <- <-. split; [cbn; rewrite A; reflexivity|]. constructor; [eexists; reflexivity|exact B].
    + apply rbind_val in H1. destruct H1 as (cand & us3 & H1 & H4). injection H4 as <- <-.
      apply uniform_circle_sound in H1. destruct H1 as [H1 _].
      split; [cbn [map List.length]; rewrite A; f_equal; lia|]. constructor; [eexists; reflexivity|exact B].
Qed.

Lemma zip_radii : forall (halfmin : list pt -> Q) rad ro k (sd : list pt), fixed_radii rad (Z.of_nat k) = Ok ro -> List.length sd = k ->
  List.length (match ro with Some r => r | None => repeat (halfmin sd : Q) k end) = k.
Proof.
  intros halfmin rad ro k sd H L. destruct rad as [|q|l]; cbn [fixed_radii] in H.
  - injection H as <-. apply repeat_length.
  - injection H as <-. rewrite repeat_length. lia.
  - destruct (Z.eqb_spec (Z.of_nat (List.length l)) (Z.of_nat k)); [|discriminate]. injection H as <-. lia.
Qed.

Lemma poisson_loop_parents : forall h halfmin rad ro k n s sss us d rest, (2 <= k)%Z -> fixed_radii rad k = Ok ro ->
  cluster_loop h halfmin ro k n s sss us = Val d rest ->
  s <= List.length sss /\
  forall i st, i < s -> nth_error sss i = Some st ->
    List.length (parents_of h k st) = Z.to_nat k /\
    has_parents (parents_of h k st) (split_sizes n (Z.to_nat k)) (nth i d []).
Proof.
  intros h halfmin rad ro k n s. induction s as [|s IH]; intros sss us d rest Hk Hr H; cbn [cluster_loop] in H.
  - split; [lia|]. intros i st I. lia.
  - destruct sss as [|ss sss]; [discriminate|].
    destruct (poisson h None (SInt k) ss) as [seeds r0|e|] eqn:E; try discriminate.
    destruct (k <=? 0)%Z eqn:E0; [apply Z.leb_le in E0; lia|].
    destruct (poisson_seeds _ _ _ _ _ Hk E) as (sd & -> & L & Hin).
    apply rbind_val in H. destruct H as (rep & us1 & H1 & H2).
    apply rbind_val in H2. destruct H2 as (ls & us2 & H2 & H3). injection H3 as <- <-.
    destruct (IH _ _ _ _ Hk Hr H2) as [A B]. split; [cbn; lia|].
    intros [|i] st I N.
    + cbn in N. injection N as <-. unfold parents_of. rewrite E. split; [exact L|]. cbn [nth].
      cbn [cluster_replication] in H1. apply rbind_val in H1. destruct H1 as (cls & us3 & H1 & H4). injection H4 as <- <-.
      apply fill_parents in H1.
      * destruct H1 as [P1 P2]. exists cls. auto.
      * rewrite L, split_sizes_length by lia. reflexivity.
      * rewrite split_sizes_length by lia. apply (zip_radii halfmin rad). rewrite Z2Nat.id by lia. exact Hr. exact L.
    + cbn [nth_error] in N. cbn [nth]. apply B; [lia|exact N].
Qed.

Lemma fill_normal_parents : forall h mk cov seeds sizes streams cls rest, List.length seeds = List.length sizes ->
  fill_normal h mk cov (combine seeds sizes) streams = Val cls rest ->
  map (@List.length pt) cls = sizes /\ Forall2 (fun p g => exists t, g = p :: t) seeds cls.
Proof.
  intros h mk cov seeds. induction seeds as [|p seeds IH]; intros [|m sizes] streams cls rest L1 H; try discriminate.
  - injection H as <- <-. split; constructor.
  - cbn [combine fill_normal] in H. destruct streams as [|cs css]; [discriminate|].
    apply rbind_val in H. destruct H as (cl & us1 & H1 & H2).
    apply rbind_val in H2. destruct H2 as (cls' & us2 & H2 & H3). injection H3 as <- <-.
    cbn [List.length] in L1. destruct (IH sizes css cls' us2 ltac:(lia) H2) as [A B].
    apply normal_cluster_sound in H1. destruct H1 as [M (t & -> & _)].
    split; [cbn [map]; rewrite A, M; reflexivity|]. constructor; [eexists; reflexivity|exact B].
Qed.

Lemma normal_loop_parents : forall h mk meansq k n s cov streams d rest, (2 <= k)%Z ->
  normal_loop h mk meansq cov k n s streams = Val d rest ->
  s <= List.length streams /\
  forall i st, i < s -> nth_error streams i = Some st ->
    List.length (parents_of h k (fst st)) = Z.to_nat k /\
    has_parents (parents_of h k (fst st)) (split_sizes n (Z.to_nat k)) (nth i (map fst d) []).
Proof.
  intros h mk meansq k n s. induction s as [|s IH]; intros cov streams d rest Hk H; cbn [normal_loop] in H.
  - split; [lia|]. intros i st I. lia.
  - destruct streams as [|[ss cs] streams]; [discriminate|].
    destruct (poisson h None (SInt k) ss) as [seeds r0|e|] eqn:E; try discriminate.
    destruct (poisson_seeds _ _ _ _ _ Hk E) as (sd & -> & L & Hin).
    destruct (k <=? 0)%Z eqn:E0; [apply Z.leb_le in E0; lia|].
    apply rbind_val in H. destruct H as (cls & us1 & H1 & H2).
    apply rbind_val in H2. destruct H2 as (ls & us2 & H2 & H3). injection H3 as <- <-.
    destruct (IH _ _ _ _ Hk H2) as [A B]. split; [cbn; lia|].
    intros [|i] st I N.
    + cbn in N. injection N as <-. unfold parents_of. cbn [fst]. rewrite E. split; [exact L|]. cbn [map nth fst].
      apply fill_normal_parents in H1; [|rewrite L, split_sizes_length by lia; reflexivity].
      destruct H1 as [P1 P2]. exists cls. auto.
    + cbn [nth_error] in N. cbn [map nth]. apply B; [lia|exact N].
Qed.

(** ** More replications than seeds *)
(** With more than 100000 replications two of them have all their parents in common,
    in the same places, whatever the random numbers. *)
Theorem C98_cluster_poisson : forall gen h halfmin i sz k rad cs us a rest n s it, (2 <= k)%Z ->
  Forall (fun z => (0 <= z < 100000)%Z) cs ->
  cluster_poisson_seeded gen h halfmin i sz k rad cs us = Val a rest ->
  parse_size_and_intensity h i sz = Ok (n, s, it) -> (100000 < s)%Z ->
  exists d, holds_replications a d (Z.to_nat n) (Z.to_nat s) /\
    exists p q parents sizes, p < q < Z.to_nat s /\ List.length parents = Z.to_nat k /\
      has_parents parents sizes (nth p d []) /\ has_parents parents sizes (nth q d []).
Proof.
  intros gen h halfmin i sz k rad cs us a rest n s it Hk F H P S. unfold cluster_poisson_seeded in H.
  destruct (cluster_poisson_inv _ _ _ _ _ _ _ _ _ _ H) as (ro & n' & s' & it' & d & R & P' & N0 & S0 & L & ->).
  rewrite P in P'. injection P' as <- <- <-. exists d.
  destruct (cluster_loop_sound _ _ _ _ _ _ _ _ _ _ _ Hk R L) as [DL DF]. split.
  { apply squeeze_holds; [exact DL|]. eapply Forall_impl; [|exact DF]. cbv beta. tauto. }
  destruct (poisson_loop_parents _ _ _ _ _ _ _ _ _ _ _ Hk R L) as [A B]. rewrite map_length in A.
  assert (ND : ~ NoDup (firstn (Z.to_nat s) cs)).
  { apply pigeonhole.
    - rewrite Forall_forall in *. intros z Hz. apply F. rewrite <- (firstn_skipn (Z.to_nat s) cs). apply in_or_app. auto.
    - rewrite firstn_length_le by exact A. unfold seed_range. lia. }
  destruct (repeated _ Z.eq_dec _ ND) as (p & q & z & I & Np & Nq). rewrite firstn_length_le in I by exact A.
  assert (X : forall j, j < Z.to_nat s -> nth_error (firstn (Z.to_nat s) cs) j = Some z -> nth_error (map gen cs) j = Some (gen z)).
  { intros j J E. rewrite nth_error_map. rewrite <- (firstn_skipn (Z.to_nat s) cs), nth_error_app1, E; [reflexivity|]. rewrite firstn_length_le; auto. }
  destruct (B p (gen z) ltac:(lia) (X p ltac:(lia) Np)) as [B1 B2]. destruct (B q (gen z) ltac:(lia) (X q ltac:(lia) Nq)) as [_ B3].
  exists p, q, (parents_of h k (gen z)), (split_sizes (Z.to_nat n) (Z.to_nat k)). auto.
Qed.
Print Assumptions C98_cluster_poisson.

Theorem C98_cluster_normal : forall gen h mk meansq cov sz k seeds a covs rest n s it, (2 <= k)%Z ->
  Forall (fun z => (0 <= fst z < 100000)%Z) seeds ->
  cluster_normal_seeded gen h mk meansq cov sz k seeds = Val (a, covs) rest ->
  parse_size_and_intensity h None sz = Ok (n, s, it) -> (100000 < s)%Z ->
  exists d, holds_replications a d (Z.to_nat n) (Z.to_nat s) /\
    exists p q parents sizes, p < q < Z.to_nat s /\ List.length parents = Z.to_nat k /\
      has_parents parents sizes (nth p d []) /\ has_parents parents sizes (nth q d []).
Proof.
  intros gen h mk meansq cov sz k seeds a covs rest n s it Hk F H P S. unfold cluster_normal_seeded in H.
  destruct (cluster_normal_inv _ _ _ _ _ _ _ _ _ _ H) as (n' & s' & it' & d & P' & N0 & S0 & L & -> & _).
  rewrite P in P'. injection P' as <- <- <-. exists (map fst d).
  destruct (normal_loop_sound _ _ _ _ _ _ _ _ _ _ Hk L) as [DL [DF _]]. split.
  { apply squeeze_holds; [rewrite map_length; exact DL|]. rewrite Forall_map. eapply Forall_impl; [|exact DF]. cbv beta. tauto. }
  destruct (normal_loop_parents _ _ _ _ _ _ _ _ _ _ Hk L) as [A B]. rewrite map_length in A.
  set (cs := map fst seeds). assert (A' : Z.to_nat s <= List.length cs) by (unfold cs; rewrite map_length; exact A).
  assert (ND : ~ NoDup (firstn (Z.to_nat s) cs)).
  { apply pigeonhole.
    - assert (F' : Forall (fun z => (0 <= z < seed_range)%Z) cs) by (unfold cs; rewrite Forall_map; exact F).
      rewrite Forall_forall in *. intros z Hz. apply F'. rewrite <- (firstn_skipn (Z.to_nat s) cs). apply in_or_app. auto.
    - rewrite firstn_length_le by exact A'. unfold seed_range. lia. }
  destruct (repeated _ Z.eq_dec _ ND) as (p & q & z & I & Np & Nq). rewrite firstn_length_le in I by exact A'.
  assert (X : forall j, j < Z.to_nat s -> nth_error (firstn (Z.to_nat s) cs) j = Some z ->
     exists c, nth_error (map (fun sc => (gen (fst sc), map gen (snd sc))) seeds) j = Some (gen z, c)).
  { intros j J E. assert (E' : nth_error cs j = Some z).
    { rewrite <- (firstn_skipn (Z.to_nat s) cs), nth_error_app1, E; [reflexivity|]. rewrite firstn_length_le; auto. }
    unfold cs in E'. rewrite nth_error_map in E'. rewrite nth_error_map. destruct (nth_error seeds j) as [[z' c]|]; [|discriminate].
    cbn in E'. injection E' as ->. eexists. reflexivity. }
  destruct (X p ltac:(lia) Np) as [c1 X1]. destruct (X q ltac:(lia) Nq) as [c2 X2].
  destruct (B p _ ltac:(lia) X1) as [B1 B2]. destruct (B q _ ltac:(lia) X2) as [_ B3].
  exists p, q, (parents_of h k (gen z)), (split_sizes (Z.to_nat n) (Z.to_nat k)). auto.
Qed.
Print Assumptions C98_cluster_normal.

(** ** How many replications it takes *)
(** The equally likely outcomes of [rng.integers(m, size=s)]. *)
Fixpoint vectors (m : Z) (s : nat) : list (list Z) :=
  match s with O => [[]] | S s' => flat_map (fun v => map (fun z => z :: v) (zrange m)) (vectors m s') end.
Lemma vectors_all : forall m s v, In v (vectors m s) <-> List.length v = s /\ Forall (fun z => (0 <= z < m)%Z) v.
Proof.
  intros m s. induction s as [|s IH]; intro v; cbn [vectors].
  - split.
    + intros [<-|[]]. split; [reflexivity|constructor].
    + intros [L _]. destruct v; [left; reflexivity|discriminate].
  - rewrite in_flat_map. split.
    + intros (w & W & H). apply in_map_iff in H. destruct H as (z & <- & Z). apply IH in W. destruct W as [W1 W2].
      split; [cbn; lia|]. constructor; [apply in_zrange; exact Z|exact W2].
    + intros [L F]. destruct v as [|z w]; [discriminate|]. inversion F as [|x y Fz Fw E]. subst. exists w. split.
      * apply IH. split; [cbn in L; lia|exact Fw].
      * apply in_map_iff. exists z. split; [reflexivity|apply in_zrange; exact Fz].
Qed.

(** Number of vectors and number of those without repetition. *)
Fixpoint falling (m : Z) (s : nat) : Z := match s with O => 1%Z | S s' => (falling m s' * (m - Z.of_nat s'))%Z end.
Lemma vectors_length : forall m s, (0 <= m)%Z -> Z.of_nat (List.length (vectors m s)) = (m ^ Z.of_nat s)%Z.
Proof.
  intros m s M. induction s as [|s IH]; [reflexivity|]. rewrite Nat2Z.inj_succ, Z.pow_succ_r by lia. rewrite <- IH. cbn [vectors].
  generalize (vectors m s). intro l. induction l as [|v l IHl]; [cbn; lia|].
  cbn [flat_map List.length]. rewrite app_length, map_length. unfold zrange at 1. rewrite map_length, seq_length. lia.
Qed.

Definition nodupb (v : list Z) : bool := if ListDec.NoDup_dec Z.eq_dec v then true else false.
Definition memb (v : list Z) (z : Z) : bool := if in_dec Z.eq_dec z v then true else false.
Lemma fresh_count : forall m v, (0 <= m)%Z -> NoDup v -> Forall (fun z => (0 <= z < m)%Z) v ->
  Z.of_nat (count (fun z => negb (memb v z)) (zrange m)) = (m - Z.of_nat (List.length v))%Z.
Proof.
  intros m v M N F.
  assert (C : count (memb v) (zrange m) = List.length v).
  { unfold count. apply Nat.le_antisymm.
    - apply NoDup_incl_length; [apply NoDup_filter; apply zrange_nodup|]. intros z Hz. apply filter_In in Hz. destruct Hz as [_ Hz].
      unfold memb in Hz. destruct (in_dec Z.eq_dec z v); [assumption|discriminate].
    - apply NoDup_incl_length; [exact N|]. intros z Hz. apply filter_In. rewrite Forall_forall in F. split; [apply in_zrange; auto|].
      unfold memb. destruct (in_dec Z.eq_dec z v); [reflexivity|contradiction]. }
  assert (T : (count (memb v) (zrange m) + count (fun z => negb (memb v z)) (zrange m) = List.length (zrange m))%nat).
  { generalize (zrange m). intro l. unfold count. induction l as [|z l IH]; [reflexivity|]. cbn [filter]. destruct (memb v z); cbn [negb List.length]; lia. }
  unfold zrange at 3 in T. rewrite map_length, seq_length in T. lia.
Qed.
Lemma distinct_count : forall m s, (0 <= m)%Z -> Z.of_nat (count nodupb (vectors m s)) = falling m s.
Proof.
  intros m s M. induction s as [|s IH].
  { cbn [vectors falling]. rewrite count_cons. unfold nodupb. destruct (ListDec.NoDup_dec Z.eq_dec []) as [A|A]; [reflexivity|].
    exfalso. apply A. constructor. }
  cbn [falling]. rewrite <- IH. cbn [vectors].
  assert (ALL : forall v, In v (vectors m s) -> List.length v = s /\ Forall (fun z => (0 <= z < m)%Z) v) by (intros v V; apply vectors_all; exact V).
  revert ALL. generalize (vectors m s). intro l. induction l as [|v l IHl]; intro ALL; [reflexivity|].
  cbn [flat_map]. rewrite count_app, count_map, Nat2Z.inj_add, IHl by (intros; apply ALL; right; assumption).
  rewrite count_cons. destruct (ALL v (or_introl eq_refl)) as [Lv Fv].
  assert (X : Z.of_nat (count (fun z => nodupb (z :: v)) (zrange m)) = (if nodupb v then m - Z.of_nat s else 0)%Z).
  { unfold nodupb at 2. destruct (ListDec.NoDup_dec Z.eq_dec v) as [Nv|Nv].
    - rewrite <- Lv, <- (fresh_count m v M Nv Fv). f_equal. unfold count. f_equal. apply filter_ext. intro z.
      unfold nodupb, memb. destruct (ListDec.NoDup_dec Z.eq_dec (z :: v)) as [A|A]; destruct (in_dec Z.eq_dec z v) as [B|B]; try reflexivity.
      + inversion A; contradiction.
      + exfalso. apply A. constructor; assumption.
    - change 0%Z with (Z.of_nat 0). f_equal. apply count_none. intros z _. unfold nodupb.
      destruct (ListDec.NoDup_dec Z.eq_dec (z :: v)) as [A|A]; [|reflexivity]. inversion A; contradiction. }
  rewrite X. destruct (nodupb v); lia.
Qed.

(** Among the equally likely seeds of 373 replications, those without a repetition
    are less than half. *)
Theorem C98_birthday : 
  (forall v, In v (vectors 100000 373) <-> List.length v = 373 /\ Forall (fun z => (0 <= z < 100000)%Z) v) /\
  forall c, Counts (@NoDup Z) (vectors 100000 373) c -> (2 * Z.of_nat c < Z.of_nat (List.length (vectors 100000 373)))%Z.
Proof.
  split; [apply vectors_all|]. intros c C.
  assert (E : c = count nodupb (vectors 100000 373)).
  { eapply Counts_unique; [exact C|]. apply Counts_filter. intros v _. unfold nodupb. destruct (ListDec.NoDup_dec Z.eq_dec v); split; auto; discriminate. }
  rewrite E, distinct_count, vectors_length by lia. vm_compute. reflexivity.
Qed.
Print Assumptions C98_birthday.

(** Such runs exist: 100001 replications of four points in the unit square. *)
Example C98_case : exists gen cs us a,
  Forall (fun z => (0 <= z < 100000)%Z) cs /\
  cluster_poisson_seeded gen (bbox_hull (mkbox 0 0 1 1)) (fun _ => 1%Q) None (STuple [4; 100001]%Z) 2 RadNone cs us = Val a [] /\
  parse_size_and_intensity (bbox_hull (mkbox 0 0 1 1)) None (STuple [4; 100001]%Z) = Ok (4, 100001, Fin 4)%Z.
Proof.
  set (h := bbox_hull (mkbox 0 0 1 1)).
  destruct (loop_reach h (1 # 2) (1 # 2) eq_refl) with (halfmin := fun _ : list pt => 1%Q) (ro := @None (list Q)) (k := 2%Z) (n := 4) (s := Z.to_nat 100001)
    as [us [_ F]].
  - intros p q A B. cbn. unfold box_contains. cbn. rewrite A, B. reflexivity.
  - discriminate.
  - lia.
  - cbn. lia.
  - destruct (F []) as [d D]. rewrite app_nil_r in D.
    exists (fun _ => uvs (1 # 2) (1 # 2) (Z.to_nat 2)), (repeat 0%Z (Z.to_nat 100001)), us, (squeeze (Z.to_nat 100001) 4 d).
    assert (P : parse_size_and_intensity h None (STuple [4; 100001]%Z) = Ok (4, 100001, Fin 4)%Z) by reflexivity.
    split; [|split; [|exact P]].
    + apply Forall_forall. intros z Hz. apply repeat_spec in Hz. lia.
    + unfold cluster_poisson_seeded, cluster_poisson. cbn [fixed_radii lift rbind]. fold h. rewrite P. cbn [lift rbind].
      change (alloc 4 100001) with (Ok (Z.to_nat 4, Z.to_nat 100001)). cbn [lift rbind]. rewrite map_rep.
      change (Z.to_nat 4) with 4. rewrite D. reflexivity.
Qed.
