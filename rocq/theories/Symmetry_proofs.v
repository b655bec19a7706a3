(** Lemmas on patterns that are the same up to order, origin and unit. *)
From Coq Require Import ZArith QArith Qabs Qminmax List Bool String Lia Lqa Permutation.
From Verif Require Import Base BaseLemmas Spec Quadrat_model Quadrat_spec Quadrat_proofs Geometry_model Random_model Random_spec Random_proofs
  Pattern_spec Pattern_proofs Pairs_proofs DistStats_proofs Spacetime_proofs Random_props DistStats_props DistStatsHull_props
  DistStats_model DistStats_spec Ripley_model Ripley_spec Ripley_proofs Symmetry_spec.
Import ListNotations.
Local Open Scope Q_scope.

(** ** Relabelling from a permutation *)
Lemma permutation_relabel : forall (A : Type) (l l' : list A) d, Permutation l l' ->
  exists s, relabel (List.length l) s /\ forall i, (i < List.length l)%nat -> nth i l' d = nth (s i) l d.
Proof.
  intros A l l' d P. destruct (proj1 (Permutation_nth l l' d) P) as [L [s [B [I N]]]]. exists s. split; [|intros; auto].
  unfold relabel. apply NoDup_Permutation_bis.
  - assert (G : forall n, (n <= List.length l)%nat -> NoDup (map s (seq 0 n))).
    { induction n as [|n IH]; intros K; [constructor|]. rewrite seq_S, map_app. simpl.
      apply (Permutation_NoDup (l := s n :: map s (seq 0 n))); [apply Permutation_cons_append|].
      constructor; [|apply IH; lia]. intros X. apply in_map_iff in X. destruct X as [i [E H]]. apply in_seq in H.
      apply I in E; lia. }
    apply G. lia.
  - rewrite map_length. lia.
  - intros x X. apply in_map_iff in X. destruct X as [i [<- H]]. apply in_seq in H. apply in_seq. specialize (B i). lia.
Qed.
Lemma relabel_surj : forall n s j, relabel n s -> (j < n)%nat -> exists i, (i < n)%nat /\ s i = j.
Proof.
  intros n s j P H. assert (X : In j (map s (seq 0 n))).
  { apply (Permutation_in j (Permutation_sym P)). apply in_seq. lia. }
  apply in_map_iff in X. destruct X as [i [E I]]. apply in_seq in I. exists i. split; [lia|exact E].
Qed.
Lemma relabel_inj : forall n s i j, relabel n s -> (i < n)%nat -> (j < n)%nat -> s i = s j -> i = j.
Proof.
  intros n s i j P I J E. assert (N : NoDup (map s (seq 0 n))) by (apply (Permutation_NoDup (Permutation_sym P)); apply seq_NoDup).
  rewrite (NoDup_nth _ (s 0%nat)) in N. rewrite map_length, seq_length in N.
  apply (N i j I J). rewrite !map_nth, !seq_nth by assumption. exact E.
Qed.
Lemma relabel_list : forall (l : list Q) s, relabel (List.length l) s ->
  Permutation l (map (fun i => nth (s i) l 0) (seq 0 (List.length l))).
Proof.
  intros l s P. rewrite <- (map_map s (fun i => nth i l 0)).
  apply Permutation_trans with (map (fun i => nth i l 0) (seq 0 (List.length l))).
  - assert (E : map (fun i => nth i l 0) (seq 0 (List.length l)) = l).
    { apply (nth_ext _ _ 0 0); [rewrite map_length, seq_length; reflexivity|]. intros i H. rewrite map_length, seq_length in H.
      rewrite (nth_indep _ 0 (nth 0 l 0)) by (rewrite map_length, seq_length; exact H).
      rewrite (map_nth (fun i => nth i l 0)), seq_nth by exact H. reflexivity. }
    rewrite E. apply Permutation_refl.
  - apply Permutation_map. apply Permutation_sym. exact P.
Qed.

Lemma Forall2_len : forall A B (P : A -> B -> Prop) l l', Forall2 P l l' -> List.length l = List.length l'.
Proof. intros A B P l l' H. induction H; simpl; congruence. Qed.

(** ** Lists of numbers in another unit *)
Definition same_list (c : Q) (l l' : list Q) : Prop := exists k, Permutation l k /\ Forall2 (times c) k l'.

Lemma times_le : forall c x y x' y', 0 < c -> times c x x' -> times c y y' -> Qle_bool x' y' = Qle_bool x y.
Proof.
  intros c x y x' y' C X Y. unfold times in *. apply eq_true_iff_eq. rewrite !Qleb_le. rewrite X, Y.
  apply Qmult_le_l. exact C.
Qed.
Lemma times_lt : forall c x y x' y', 0 < c -> times c x x' -> times c y y' -> Qltb x' y' = Qltb x y.
Proof. intros. unfold Qltb. f_equal. eapply times_le; eauto. Qed.

Lemma count_Forall2 : forall A B (P : A -> B -> Prop) f g l l', Forall2 P l l' ->
  (forall x y, P x y -> g y = f x) -> count g l' = count f l.
Proof.
  intros A B P f g l l' H E. induction H; [reflexivity|]. rewrite !count_cons, IHForall2, (E _ _ H). reflexivity.
Qed.
Lemma count_same_list : forall c l l' f g, same_list c l l' -> (forall x y, times c x y -> g y = f x) -> count g l' = count f l.
Proof.
  intros c l l' f g [k [P F]] E. rewrite (count_Forall2 _ _ _ f g _ _ F E). apply count_perm. apply Permutation_sym. exact P.
Qed.
Lemma mono_times : forall c e e', 0 < c -> Forall2 (times c) e e' -> mono e' = mono e.
Proof.
  intros c e e' C H. induction H as [|x y l l' X H IH]; [reflexivity|]. destruct H as [|x2 y2 l l' X2 H]; [reflexivity|].
  change (Qle_bool y y2 && mono (y2 :: l') = Qle_bool x x2 && mono (x2 :: l)). rewrite IH, (times_le c _ _ _ _ C X X2). reflexivity.
Qed.
Lemma cum_counts_times : forall c l l' e e', 0 < c -> same_list c l l' -> Forall2 (times c) e e' -> cum_counts l' e' = cum_counts l e.
Proof.
  intros c l l' e e' C S1 H. induction H as [|x y e e' X H IH]; [reflexivity|]. destruct H as [|x2 y2 e e' X2 H].
  - simpl. rewrite (count_same_list c l l' (fun z => Qle_bool z x) (fun z => Qle_bool z y) S1); [reflexivity|].
    intros. eapply times_le; eauto.
  - change (cum_counts l' (y :: y2 :: e')) with (Z.of_nat (count (fun z => Qltb z y) l') :: cum_counts l' (y2 :: e')).
    change (cum_counts l (x :: x2 :: e)) with (Z.of_nat (count (fun z => Qltb z x) l) :: cum_counts l (x2 :: e)).
    rewrite IH, (count_same_list c l l' (fun z => Qltb z x) (fun z => Qltb z y) S1); [reflexivity|].
    intros. eapply times_lt; eauto.
Qed.
Lemma cdf_times : forall c l l' e e', 0 < c -> same_list c l l' -> Forall2 (times c) e e' -> cdf l' e' = cdf l e.
Proof.
  intros c l l' e e' C S1 H. unfold cdf, histogram. rewrite (mono_times c e e' C H), (cum_counts_times c l l' e e' C S1 H). reflexivity.
Qed.

Lemma same_list_in : forall c l l' y, same_list c l l' -> In y l' -> exists x, In x l /\ times c x y.
Proof.
  intros c l l' y [k [P F]] H.
  assert (G : exists x, In x k /\ times c x y).
  { clear P. induction F; [destruct H|]. destruct H as [<-|H]; [eexists; split; [left; reflexivity|assumption]|].
    destruct (IHF H) as [z [Z1 Z2]]. exists z. split; [right; exact Z1|exact Z2]. }
  destruct G as [x [X T]]. exists x. split; [|exact T]. apply (Permutation_in x (Permutation_sym P) X).
Qed.
Lemma same_list_in_l : forall c l l' x, same_list c l l' -> In x l -> exists y, In y l' /\ times c x y.
Proof.
  intros c l l' x [k [P F]] H. apply (Permutation_in x P) in H. clear P.
  induction F; [destruct H|]. destruct H as [<-|H]; [eexists; split; [left; reflexivity|assumption]|].
  destruct (IHF H) as [z [Z1 Z2]]. exists z. split; [right; exact Z1|exact Z2].
Qed.
Lemma max_times : forall c x l y l', 0 < c -> same_list c (x :: l) (y :: l') -> times c (Qmax_list x l) (Qmax_list y l').
Proof.
  intros c x l y l' C H. unfold times.
  destruct (Qmax_list_in l x) as [u [U1 U2]]. destruct (Qmax_list_in l' y) as [v [V1 V2]].
  assert (GX : forall z, In z (x :: l) -> z <= Qmax_list x l).
  { intros z [<-|Z]; [apply (proj1 (Qmax_list_ge _ _))|apply (proj2 (Qmax_list_ge _ _)); exact Z]. }
  assert (GY : forall z, In z (y :: l') -> z <= Qmax_list y l').
  { intros z [<-|Z]; [apply (proj1 (Qmax_list_ge _ _))|apply (proj2 (Qmax_list_ge _ _)); exact Z]. }
  destruct (same_list_in_l _ _ _ _ H U1) as [u' [A1 A2]]. destruct (same_list_in _ _ _ _ H V1) as [v' [B1 B2]].
  specialize (GX _ B1). specialize (GY _ A1). unfold times in *.
  apply (Qmult_le_l _ _ c C) in GX. apply Qle_antisym; [rewrite <- V2, B2; exact GX|rewrite <- U2, <- A2; exact GY].
Qed.
Lemma linspace_times : forall c a b a' b' n, times c a a' -> times c b b' ->
  same_res (Forall2 (times c)) (linspace a b n) (linspace a' b' n).
Proof.
  intros c a b a' b' n A B. unfold linspace. destruct (n <? 0)%Z; [reflexivity|]. destruct (n =? 1)%Z.
  - simpl. constructor; [exact A|constructor].
  - simpl. induction (zrange n) as [|z l IH]; simpl; constructor; [|exact IH].
    unfold times in *. rewrite A, B. unfold Qdiv. ring.
Qed.

(** ** Boxes *)
Lemma moved_in : forall c a b l l', Forall2 (moved c a b) l l' ->
  (forall p, In p l -> exists p', In p' l' /\ moved c a b p p') /\ (forall p', In p' l' -> exists p, In p l /\ moved c a b p p').
Proof.
  intros c a b l l' H. induction H as [|x y l l' X H [I1 I2]].
  - split; intros p [].
  - split; intros p [<-|P]; [exists y; simpl; auto| |exists x; simpl; auto|].
    + destruct (I1 p P) as [q [Q1 Q2]]. exists q. simpl. auto.
    + destruct (I2 p P) as [q [Q1 Q2]]. exists q. simpl. auto.
Qed.
Lemma same_pattern_in : forall c a b l l', same_pattern c a b l l' ->
  (forall p, In p l -> exists p', In p' l' /\ moved c a b p p') /\ (forall p', In p' l' -> exists p, In p l /\ moved c a b p p').
Proof.
  intros c a b l l' [k [P F]]. destruct (moved_in _ _ _ _ _ F) as [I1 I2]. split; intros p H.
  - apply I1. apply (Permutation_in p P H).
  - destruct (I2 p H) as [q [Q1 Q2]]. exists q. split; [apply (Permutation_in q (Permutation_sym P) Q1)|exact Q2].
Qed.
Lemma tight_times : forall c (f : pt -> Q) k l l' lo hi lo' hi', 0 < c ->
  (forall p, In p l -> exists p', In p' l' /\ f p' == c * f p + k) -> (forall p', In p' l' -> exists p, In p l /\ f p' == c * f p + k) ->
  tight f l lo hi -> tight f l' lo' hi' -> lo' == c * lo + k /\ hi' == c * hi + k.
Proof.
  intros c f k l l' lo hi lo' hi' C F G [A [[p1 [P1 E1]] [p2 [P2 E2]]]] [B [[q1 [Q1 D1]] [q2 [Q2 D2]]]].
  destruct (F p1 P1) as [p1' [X1 Y1]]. destruct (F p2 P2) as [p2' [X2 Y2]].
  destruct (G q1 Q1) as [q1' [X3 Y3]]. destruct (G q2 Q2) as [q2' [X4 Y4]].
  pose proof (B _ X1) as [K1 _]. pose proof (B _ X2) as [_ K2]. pose proof (A _ X3) as [K3 _]. pose proof (A _ X4) as [_ K4].
  rewrite Y1, E1 in K1. rewrite Y2, E2 in K2. rewrite D1 in Y3. rewrite D2 in Y4.
  assert (M3 : c * lo <= c * f q1') by (apply Qmult_le_l; auto). assert (M4 : c * f q2' <= c * hi) by (apply Qmult_le_l; auto).
  split; lra.
Qed.
Lemma mbb_times : forall c a b l l', 0 < c -> same_pattern c a b l l' -> same_res (moved_box c a b) (compute_mbb l) (compute_mbb l').
Proof.
  intros c a b l l' C H. destruct (same_pattern_in _ _ _ _ _ H) as [I1 I2].
  destruct (compute_mbb l) as [x|e] eqn:E; destruct (compute_mbb l') as [y|e'] eqn:E'.
  - apply compute_mbb_tight in E. apply compute_mbb_tight in E'. destruct E as [_ [TX TY]], E' as [_ [TX' TY']].
    assert (X : bxmin y == c * bxmin x + a /\ bxmax y == c * bxmax x + a).
    { apply (tight_times c fst a l l'); auto; intros p P.
      - destruct (I1 p P) as [q [Q1 Q2]]. exists q. split; [exact Q1|apply Q2].
      - destruct (I2 p P) as [q [Q1 Q2]]. exists q. split; [exact Q1|apply Q2]. }
    assert (Y : bymin y == c * bymin x + b /\ bymax y == c * bymax x + b).
    { apply (tight_times c snd b l l'); auto; intros p P.
      - destruct (I1 p P) as [q [Q1 Q2]]. exists q. split; [exact Q1|apply Q2].
      - destruct (I2 p P) as [q [Q1 Q2]]. exists q. split; [exact Q1|apply Q2]. }
    simpl. unfold moved_box, moved. simpl. tauto.
  - destruct l'; [|discriminate]. destruct l as [|p l]; [discriminate|]. destruct (I1 p (or_introl eq_refl)) as [q [[] _]].
  - destruct l; [|discriminate]. destruct l' as [|p l']; [discriminate|]. destruct (I2 p (or_introl eq_refl)) as [q [[] _]].
  - destruct l; [|discriminate]. destruct l'; [|discriminate]. simpl in *. congruence.
Qed.
Lemma area_times : forall c a b x y, moved_box c a b x y -> box_area y == c * c * box_area x.
Proof.
  intros c a b x y [[A1 A2] [B1 B2]]. simpl in *. unfold box_area. rewrite A1, A2, B1, B2.
  assert (E : (c * bxmax x + a - (c * bxmin x + a)) * (c * bymax x + b - (c * bymin x + b)) ==
    (c * c) * ((bxmax x - bxmin x) * (bymax x - bymin x))) by ring.
  rewrite E, Qabs_Qmult, (Qabs_pos (c * c)) by nra. reflexivity.
Qed.

Lemma same_bind : forall A B (P : A -> A -> Prop) (P' : B -> B -> Prop) (x y : run A) (f g : A -> list Q -> run B), same_run P x y ->
  (forall u v us, P u v -> same_run P' (f u us) (g v us)) -> same_run P' (rbind x f) (rbind y g).
Proof.
  intros A B P P' x y f g H G. destruct x, y; simpl in *; try tauto. destruct H as [H ->]. apply G. exact H.
Qed.
Lemma same_lift : forall A (P : A -> A -> Prop) x y us, same_res P x y -> same_run P (lift x us) (lift y us).
Proof. intros A P x y us H. destruct x, y; simpl in *; tauto. Qed.

(** ** The distances and the statistics *)
Section Stats.
Variable query : metric -> list pt -> pt -> nat -> row.
Variable dist : metric -> pt -> pt -> Q.
Hypothesis tree : good_tree query dist.
Variable c : Q.
Hypothesis positive : 0 < c.

Lemma other_ok : forall m pts qs, (2 <= List.length pts)%nat -> exists l, other_distances query m pts qs = Ok l.
Proof using query dist tree.
  intros m pts qs N. unfold other_distances. destruct (Nat.ltb_spec (List.length pts) 2) as [|_]; [lia|].
  destruct (C26_exact_value (fun i => query m pts (nth i qs (0, 0)) 2) (List.length qs) (List.length pts)
             (fun i j => dist m (nth i qs (0, 0)) (nth j pts (0, 0)))) as [l [E _]].
  { intros i I. exact (tree m pts (nth i qs (0, 0)) 2%nat N). }
  exists l. exact E.
Qed.
Lemma other_short : forall m pts qs, (List.length pts < 2)%nat -> other_distances query m pts qs = Raise ValueError.
Proof. intros m pts qs N. unfold other_distances. destruct (Nat.ltb_spec (List.length pts) 2); [reflexivity|lia]. Qed.

Lemma nnd_times : forall m pts pts', same_distances (dist m) c pts pts' ->
  same_res (same_list c) (nnd query pts m) (nnd query pts' m).
Proof using query dist tree c positive.
  intros m pts pts' [k [P [L D]]]. pose proof (Permutation_length P) as PL. unfold nnd.
  destruct (Nat.lt_ge_cases (List.length pts) 2) as [N|N].
  { rewrite !other_short by lia. reflexivity. }
  destruct (other_ok m pts pts N) as [l E]. destruct (other_ok m pts' pts') as [l' E']; [lia|].
  rewrite E, E'. simpl.
  apply (other_closest query dist) in E; [|exact tree]. apply (other_closest query dist) in E'; [|exact tree].
  destruct E as [LE VE], E' as [LE' VE'].
  destruct (permutation_relabel pt _ _ (0, 0) P) as [s [RS NS]].
  assert (D' : forall i j, (i < List.length pts)%nat -> (j < List.length pts)%nat ->
    dist m (nth i pts' (0, 0)) (nth j pts' (0, 0)) == c * dist m (nth (s i) pts (0, 0)) (nth (s j) pts (0, 0))).
  { intros i j I J. rewrite D by lia. rewrite !NS by assumption. reflexivity. }
  exists (map (fun i => nth (s i) l 0) (seq 0 (List.length l))). split; [apply relabel_list; rewrite LE; exact RS|].
  assert (LL : List.length l' = List.length l) by lia.
  assert (G : forall i, (i < List.length l)%nat -> times c (nth (s i) l 0) (nth i l' 0)).
  { intros i I. rewrite LE in I. unfold times. pose proof (relabel_lt _ _ _ RS I) as SI.
    destruct (VE (s i) SI) as [j [J1 [J2 [J3 J4]]]]. destruct (VE' i) as [j' [K1 [K2 [K3 K4]]]]; [lia|].
    rewrite J3, K3. destruct (relabel_surj _ _ _ RS J1) as [t [T1 T2]].
    apply Qle_antisym.
    - subst j. rewrite <- (D' i t I T1). assert (T3 : (t < List.length pts')%nat) by lia. apply K4; [exact T3|]. intros ->. apply J2. reflexivity.
    - rewrite D' by lia. apply Qmult_le_l; [exact positive|]. apply J4; [apply (relabel_lt _ _ _ RS); lia|].
      intros X. apply (relabel_inj _ _ _ _ RS) in X; [|lia..]. apply K2. exact X. }
  clear - G LL. set (f := fun i => nth (s i) l 0).
  assert (X : forall (n : nat) (l' : list Q) b, List.length l' = n -> (forall i, (i < n)%nat -> times c (f (b + i)%nat) (nth i l' 0)) ->
    Forall2 (times c) (map f (seq b n)) l').
  { induction n as [|n IH]; intros q b Lq Gq; destruct q as [|y q]; try discriminate; simpl; constructor.
    - specialize (Gq 0%nat). rewrite Nat.add_0_r in Gq. apply Gq. lia.
    - apply IH; [simpl in Lq; lia|]. intros i I. specialize (Gq (S i)). rewrite Nat.add_succ_r in Gq. apply Gq. lia. }
  apply X; [exact LL|]. intros i I. apply G. exact I.
Qed.

Lemma support_times : forall n n' s s', same_res (same_list c) n n' -> same_support c s s' ->
  same_res (Forall2 (times c)) (make_support n s) (make_support n' s').
Proof using c positive.
  intros n n' s s' N H.
  assert (G : forall z, same_res (Forall2 (times c))
    (let! d := n in match d with [] => Raise ValueError | x :: l => linspace 0 (Qmax_list x l) z end)
    (let! d := n' in match d with [] => Raise ValueError | x :: l => linspace 0 (Qmax_list x l) z end)).
  { intros z. destruct n as [l|e], n' as [l'|e']; simpl in N; try tauto. cbn [bind].
    destruct N as [k [P F]]. pose proof (Permutation_length P) as L1. pose proof (Forall2_len _ _ _ _ _ F) as L2.
    destruct l as [|x l]; destruct l' as [|y l']; simpl in L1, L2; [reflexivity|lia|lia|].
    apply linspace_times; [unfold times; ring|]. apply max_times; [exact positive|]. exists k. split; assumption. }
  assert (Z0 : times c 0 0) by (unfold times; ring).
  destruct s, s'; simpl in H; try tauto; unfold make_support.
  - apply G.
  - subst. apply G.
  - apply linspace_times; tauto.
  - apply linspace_times; tauto.
  - destruct H as [A [B ->]]. apply linspace_times; tauto.
Qed.

(** [_prepare] with no distances and no hull. *)
Lemma prepare_times : forall s s' m edge pts pts', same_distances (dist m) c pts pts' -> same_support c s s' ->
  same_res (fun x y => Forall2 (times c) (fst (fst x)) (fst (fst y)) /\ snd (fst x) = m /\ snd (fst y) = m /\
      exists b b', snd x = RBox b /\ snd y = RBox b' /\ compute_mbb pts = Ok b /\ compute_mbb pts' = Ok b')
    (prepare pts s DNone m HNone edge (nnd query pts)) (prepare pts' s' DNone m HNone edge (nnd query pts')).
Proof using query dist tree c positive.
  intros s s' m edge pts pts' D H. unfold prepare. destruct edge; [reflexivity|].
  pose proof (nnd_times m pts pts' D) as N. pose proof (support_times _ _ s s' N H) as SU.
  destruct D as [k [P [L _]]]. pose proof (Permutation_length P) as PL.
  cbn [prepare_hull is_none]. destruct pts as [|p pts], pts' as [|p' pts']; simpl in L, PL; try lia; [reflexivity|].
  destruct (compute_mbb_ok (p :: pts)) as [b B]; [discriminate|]. destruct (compute_mbb_ok (p' :: pts')) as [b' B']; [discriminate|].
  rewrite B, B'. cbn [bind]. destruct (true && _); [reflexivity|].
  destruct m; [| |reflexivity];
    (destruct (make_support _ s) as [u|e], (make_support _ s') as [u'|e']; simpl in SU; try tauto; cbn [bind]; simpl;
     split; [exact SU|]; repeat split; exists b, b'; auto).
Qed.

Lemma g_times : forall s s' m edge pts pts', same_distances (dist m) c pts pts' -> same_support c s s' ->
  same_res (fun x y => Forall2 (times c) (fst x) (fst y) /\ snd y = snd x)
    (g_fun query pts s DNone m edge) (g_fun query pts' s' DNone m edge).
Proof using query dist tree c positive.
  intros s s' m edge pts pts' D H. unfold g_fun. pose proof (prepare_times s s' m edge pts pts' D H) as P.
  pose proof (nnd_times m pts pts' D) as N.
  destruct (prepare pts s DNone m HNone edge (nnd query pts)) as [[[u mu] hu]|e],
    (prepare pts' s' DNone m HNone edge (nnd query pts')) as [[[v mv] hv]|e']; simpl in P; try tauto.
  destruct P as [F [-> [-> _]]]. cbn [bind]. unfold g_stat. cbn [g_distances].
  destruct (nnd query pts m) as [l|e], (nnd query pts' m) as [l'|e']; simpl in N; try tauto. cbn [bind].
  rewrite (cdf_times c l l' u v positive N F). destruct (cdf l u); [|reflexivity]. simpl. auto.
Qed.

Lemma k_value_times : forall n f area area' d d' s s', (1 <= n)%nat -> 0 <= area -> 0 <= area' -> area' == f * area ->
  count (fun x => Qltb x s') d' = count (fun x => Qltb x s) d -> xtimes f (k_value n area d s) (k_value n area' d' s').
Proof.
  intros n f area area' d d' s s' N A A' E C.
  destruct (k_value_spec n area d s N A) as [q [-> Q1]]. destruct (k_value_spec n area' d' s' N A') as [q' [-> Q2]].
  simpl. unfold times. rewrite Q1, Q2, C, E. unfold Qdiv. ring.
Qed.
Lemma k_times : forall f s s' m edge pts pts', same_distances (dist m) c pts pts' -> symmetric dist ->
  same_support c s s' ->
  (forall b b', compute_mbb pts = Ok b -> compute_mbb pts' = Ok b' -> box_area b' == f * box_area b) ->
  same_res (same_curve c f) (k_fun query dist pts s DNone m edge) (k_fun query dist pts' s' DNone m edge).
Proof using query dist tree c positive.
  intros f s s' m edge pts pts' D SY H AR. unfold k_fun. pose proof (prepare_times s s' m edge pts pts' D H) as P.
  destruct (prepare pts s DNone m HNone edge (nnd query pts)) as [[[u mu] hu]|e],
    (prepare pts' s' DNone m HNone edge (nnd query pts')) as [[[v mv] hv]|e']; simpl in P; try tauto.
  destruct P as [F [-> [-> [b [b' [-> [-> [B B']]]]]]]]. cbn [bind]. unfold k_stat. cbn [k_distances bind].
  specialize (AR b b' B B'). simpl. split; [exact F|]. simpl.
  destruct D as [k [P [L D]]]. pose proof (Permutation_length P) as PL.
  assert (LL : List.length pts' = List.length pts) by lia. rewrite LL.
  assert (N : (1 <= List.length pts)%nat) by (destruct pts; [discriminate|simpl; lia]).
  destruct (permutation_relabel pt _ _ (0, 0) P) as [sg [RS NS]].
  assert (CNT : forall x y, times c x y ->
    count (fun z => Qltb z y) (pdist (List.length pts) (fun i j => dist m (nth i pts' (0, 0)) (nth j pts' (0, 0)))) =
    count (fun z => Qltb z x) (pdist (List.length pts) (fun i j => dist m (nth i pts (0, 0)) (nth j pts (0, 0))))).
  { intros x y T. rewrite !count_pdist.
    rewrite <- (upper_relabel (fun i j => if Qltb (dist m (nth i pts (0, 0)) (nth j pts (0, 0))) x then 1%nat else 0%nat) _ sg RS).
    - apply upper_ext. intros i j I.
      rewrite (times_lt c (dist m (nth (sg i) pts (0, 0)) (nth (sg j) pts (0, 0))) x _ y positive); [reflexivity| |exact T].
      unfold times. rewrite D by lia. rewrite !NS by lia. reflexivity.
    - intros i j _ _. rewrite (SY m (nth i pts (0, 0))). reflexivity. }
  clear - F AR N CNT. induction F as [|x y u v T F IH]; simpl; constructor; [|exact IH].
  apply k_value_times; [exact N|apply Qabs_nonneg|apply Qabs_nonneg|exact AR|apply CNT; exact T].
Qed.

(** [_prepare] with distances: the metric is replaced. *)
Lemma prepare_given_times : forall s s' l l' m hu hu' edge pts pts',
  (forall m, same_distances (dist m) c pts pts') -> same_support c s s' ->
  (exists h, prepare_hull pts hu = Ok h) -> (exists h, prepare_hull pts' hu' = Ok h) ->
  same_res (fun x y => Forall2 (times c) (fst (fst x)) (fst (fst y)))
    (prepare pts s (D1 l) m hu edge (nnd query pts)) (prepare pts' s' (D1 l') m hu' edge (nnd query pts')).
Proof using query dist tree c positive.
  intros s s' l l' m hu hu' edge pts pts' D H [h P] [h' P']. unfold prepare. destruct edge; [reflexivity|]. rewrite P, P'.
  cbn [bind is_none andb]. pose proof (support_times _ _ s s' (nnd_times (MName "euclidean") pts pts' (D _)) H) as SU.
  destruct m; [| |reflexivity];
    (destruct (make_support _ s) as [u|e], (make_support _ s') as [u'|e']; simpl in SU; try tauto; cbn [bind]; simpl; exact SU).
Qed.
Lemma f_given_times : forall shape s s' l l' m hu hu' edge pts pts' us,
  (forall m, same_distances (dist m) c pts pts') -> same_support c s s' -> Forall2 (times c) l l' ->
  (exists h, prepare_hull pts hu = Ok h) -> (exists h, prepare_hull pts' hu' = Ok h) ->
  same_run (fun x y => Forall2 (times c) (fst x) (fst y) /\ snd y = snd x)
    (f_fun query shape pts s (D1 l) m hu edge us) (f_fun query shape pts' s' (D1 l') m hu' edge us).
Proof using query dist tree c positive.
  intros shape s s' l l' m hu hu' edge pts pts' us D H F P P'. unfold f_fun.
  eapply same_bind; [apply same_lift; exact (prepare_given_times s s' l l' m hu hu' edge pts pts' D H P P')|].
  intros [[u mu] x] [[v mv] y] us1 E. simpl in E. unfold f_stat. cbn [f_distances bind].
  rewrite (cdf_times c l l' u v positive); [|exists l; split; [apply Permutation_refl|exact F]|exact E].
  destruct (cdf l u); simpl; auto.
Qed.
Lemma g_given_times : forall s s' l l' m edge pts pts',
  (forall m, same_distances (dist m) c pts pts') -> same_support c s s' -> Forall2 (times c) l l' ->
  same_res (fun x y => Forall2 (times c) (fst x) (fst y) /\ snd y = snd x)
    (g_fun query pts s (D1 l) m edge) (g_fun query pts' s' (D1 l') m edge).
Proof using query dist tree c positive.
  intros s s' l l' m edge pts pts' D H F. unfold g_fun.
  destruct (D m) as [k [P [L _]]]. pose proof (Permutation_length P) as PL.
  destruct pts as [|p pts], pts' as [|p' pts']; simpl in L, PL; try lia.
  { unfold prepare. destruct edge; reflexivity. }
  assert (X : forall q (qs : list pt), exists h, prepare_hull (q :: qs) HNone = Ok h) by (intros q qs; simpl; eauto).
  pose proof (prepare_given_times s s' l l' m HNone HNone edge (p :: pts) (p' :: pts') D H (X _ _) (X _ _)) as PR.
  destruct (prepare (p :: pts) s (D1 l) m HNone edge (nnd query (p :: pts))) as [[[u mu] x]|e],
    (prepare (p' :: pts') s' (D1 l') m HNone edge (nnd query (p' :: pts'))) as [[[v mv] y]|e']; simpl in PR; try tauto.
  cbn [bind]. unfold g_stat. cbn [g_distances].
  rewrite <- (Forall2_len _ _ _ _ _ F). replace (List.length (p' :: pts')) with (List.length (p :: pts)) by (simpl; lia).
  destruct (Nat.eqb _ _); [|reflexivity]. cbn [bind].
  rewrite (cdf_times c l l' u v positive); [|exists l; split; [apply Permutation_refl|exact F]|exact PR].
  destruct (cdf l u); simpl; auto.
Qed.
End Stats.

(** ** Simulated patterns *)
Lemma Forall2_nth' : forall A B (P : A -> B -> Prop) l l' d d' i, Forall2 P l l' -> (i < List.length l)%nat -> P (nth i l d) (nth i l' d').
Proof. intros A B P l l' d d' i H. revert i. induction H; intros i I; simpl in I; [lia|]. destruct i; [assumption|]. apply IHForall2. lia. Qed.

Lemma pattern_distances : forall dist c a b m pts pts', unit_of dist c a b -> same_pattern c a b pts pts' ->
  same_distances (dist m) c pts pts'.
Proof.
  intros dist c a b m pts pts' U [k [P F]]. pose proof (Forall2_len _ _ _ _ _ F) as L. exists k. split; [exact P|]. split; [auto|].
  intros i j I J. apply U; apply Forall2_nth'; assumption.
Qed.
Lemma ordered_pattern : forall c a b pts pts', Forall2 (moved c a b) pts pts' -> same_pattern c a b pts pts'.
Proof. intros c a b pts pts' H. exists pts. split; [apply Permutation_refl|exact H]. Qed.

Section Patterns.
Variables c a b : Q.
Hypothesis positive : 0 < c.

Lemma candidate_times : forall x y u v, moved_box c a b x y -> moved c a b (box_candidate x u v) (box_candidate y u v).
Proof using c a b.
  intros x y u v [[A1 A2] [B1 B2]]. simpl in *. unfold box_candidate, uniform, moved. simpl. rewrite A1, A2, B1, B2. split; ring.
Qed.
Lemma reject_times : forall mk mk' ok ok', (forall u v, moved c a b (mk u v) (mk' u v)) ->
  (forall p p', moved c a b p p' -> ok' p' = ok p) ->
  forall n us need, (List.length us <= n)%nat -> same_run (Forall2 (moved c a b)) (reject mk ok us need) (reject mk' ok' us need).
Proof using c a b.
  clear positive. intros mk mk' ok ok' M O. induction n as [|n IH]; intros us need L.
  - destruct us; [|simpl in L; lia]. destruct need; simpl; auto.
  - destruct us as [|u [|v us]]; destruct need as [|need]; simpl; auto.
    rewrite (O _ _ (M u v)). destruct (ok (mk u v)).
    + eapply same_bind; [apply IH; simpl in L; lia|]. intros l l' us' F. simpl. split; [|reflexivity]. constructor; [apply M|exact F].
    + apply IH. simpl in L. lia.
Qed.
Lemma replicate_times : forall f f', (forall us, same_run (Forall2 (moved c a b)) (f us) (f' us)) ->
  forall n us, same_run (Forall2 (Forall2 (moved c a b))) (replicate f n us) (replicate f' n us).
Proof using c a b.
  clear positive. intros f f' H. induction n as [|n IH]; intros us; simpl; [auto|].
  eapply same_bind; [apply H|]. intros l l' us' F. eapply same_bind; [apply IH|]. intros ls ls' us'' G. simpl.
  split; [constructor; assumption|reflexivity].
Qed.
Definition moved_arr (x y : arr) : Prop :=
  match x, y with
  | Arr1 p, Arr1 q => moved c a b p q
  | Arr2 l, Arr2 l' => Forall2 (moved c a b) l l'
  | Arr3 s n d, Arr3 s' n' d' => s = s' /\ n = n' /\ Forall2 (Forall2 (moved c a b)) d d'
  | _, _ => False
  end.
Lemma squeeze_times : forall s n d d', Forall2 (Forall2 (moved c a b)) d d' -> moved_arr (squeeze s n d) (squeeze s n d').
Proof using c a b.
  clear positive. intros s n d d' H. assert (C : Forall2 (moved c a b) (List.concat d) (List.concat d')).
  { induction H; simpl; [constructor|]. apply Forall2_app; assumption. }
  unfold squeeze. destruct (Nat.eqb s 1).
  - destruct (Nat.eqb n 1).
    + destruct H as [|l l' d d' H1 H]; [simpl; auto|]. destruct H1 as [|p p' l l' P H1]; [simpl; auto|].
      destruct H1; [|simpl; auto 10]. destruct H; [exact P|simpl; auto 10].
    + destruct H as [|l l' d d' H1 H]; [simpl; auto|]. destruct H; [exact H1|simpl; auto 10].
  - destruct (Nat.eqb n 1); [exact C|]. simpl. auto.
Qed.

Lemma div_area_times : forall h h' n, moved_hull c a b h h' -> same_res (fun _ _ => True) (div_area n h) (div_area n h').
Proof using c a b.
  clear positive. intros h h' n [A [NP _]]. unfold div_area. rewrite <- NP.
  assert (E : Qeq_bool (h_area h') 0 = Qeq_bool (h_area h) 0) by (apply eq_true_iff_eq; rewrite !Qeq_bool_iff; tauto).
  rewrite E. destruct (Qeq_bool (h_area h) 0 && negb (h_np h)); simpl; auto.
Qed.
Lemma poisson_times : forall h h' z us, moved_hull c a b h h' ->
  same_run moved_arr (poisson h None z us) (poisson h' None z us).
Proof using c a b.
  clear positive. intros h h' z us H. unfold poisson.
  assert (P : same_res (fun x y => fst x = fst y) (parse_size_and_intensity h None z) (parse_size_and_intensity h' None z)).
  { unfold parse_size_and_intensity. destruct z as [|z|l|].
    - pose proof (div_area_times h h' 100 H) as D. destruct (div_area 100 h), (div_area 100 h'); simpl in *; auto.
    - pose proof (div_area_times h h' z H) as D. destruct (div_area z h), (div_area z h'); simpl in *; auto.
    - destruct l as [|n [|s [|]]]; try reflexivity.
      pose proof (div_area_times h h' n H) as D. destruct (div_area n h), (div_area n h'); simpl in *; auto.
    - reflexivity. }
  eapply same_bind; [apply same_lift; exact P|]. intros [[n s] i] [[n' s'] i'] us1 E. simpl in E. inversion E; subst.
  eapply same_bind with (P := eq); [apply same_lift; destruct (alloc n' s'); simpl; reflexivity|].
  intros [k r] ? us2 <-. eapply same_bind.
  - apply replicate_times. intros us3. apply reject_times with (n := List.length us3); [| |lia].
    + intros u v. apply candidate_times. apply H.
    + apply H.
  - intros d d' us3 F. simpl. split; [|reflexivity]. apply squeeze_times. exact F.
Qed.
Lemma two_dim_times : forall x y, moved_arr x y -> same_res (Forall2 (moved c a b)) (two_dim x) (two_dim y).
Proof using c a b. clear positive. intros x y H. destruct x, y; simpl in *; tauto. Qed.

Lemma box_hull_times : forall x y, moved_box c a b x y -> moved_hull c a b (bbox_hull x) (bbox_hull y).
Proof using c a b positive.
  intros x y H. pose proof (area_times c a b x y H) as A. unfold moved_hull, bbox_hull. cbn [h_area h_np h_bbox h_contains].
  assert (C2 : 0 < c * c) by nra. split.
  - split; intro E; [rewrite A, E; ring|]. rewrite A in E. apply Qmult_integral in E. destruct E as [E|E]; [lra|exact E].
  - split; [reflexivity|]. split; [exact H|]. intros p p' [P1 P2]. destruct H as [[A1 A2] [B1 B2]]. simpl in *.
    assert (T : forall k u v u' v', u' == c * u + k -> v' == c * v + k -> Qle_bool u' v' = Qle_bool u v).
    { intros k u v u' v' U V. apply eq_true_iff_eq. rewrite !Qleb_le, U, V. split; intro X.
      - apply (Qmult_le_l _ _ c positive). lra.
      - apply (Qmult_le_l _ _ c positive) in X. lra. }
    unfold box_contains. rewrite (T a (bxmin x) (fst p) (bxmin y) (fst p')), (T a (fst p) (bxmax x) (fst p') (bxmax y)),
      (T b (bymin x) (snd p) (bymin y) (snd p')), (T b (snd p) (bymax x) (snd p') (bymax y)) by assumption.
    reflexivity.
Qed.
Lemma empty_times : forall pts pts' us, same_pattern c a b pts pts' ->
  same_run moved_arr (empty_space_points pts us) (empty_space_points pts' us).
Proof using c a b positive.
  intros pts pts' us H. unfold empty_space_points. eapply same_bind.
  - apply same_lift. apply mbb_times; [exact positive|exact H].
  - intros x y us' B. apply poisson_times. apply box_hull_times. exact B.
Qed.
End Patterns.

(** ** The tests *)
Lemma closest_times : forall (dist : pt -> pt -> Q) c ok (pts qs pts' qs' : list pt) l l', 0 < c ->
  List.length pts' = List.length pts -> List.length qs' = List.length qs ->
  (forall i j, (i < List.length qs)%nat -> (j < List.length pts)%nat ->
     dist (nth i qs' (0, 0)) (nth j pts' (0, 0)) == c * dist (nth i qs (0, 0)) (nth j pts (0, 0))) ->
  closest dist ok pts qs l -> closest dist ok pts' qs' l' -> Forall2 (times c) l l'.
Proof.
  intros dist c ok pts qs pts' qs' l l' C LP LQ D [L1 V1] [L2 V2].
  assert (G : forall i, (i < List.length qs)%nat -> times c (nth i l 0) (nth i l' 0)).
  { intros i I. unfold times. destruct (V1 i I) as [j [J1 [J2 [J3 J4]]]]. destruct (V2 i) as [k [K1 [K2 [K3 K4]]]]; [lia|].
    rewrite J3, K3. rewrite LP in K1, K4. apply Qle_antisym.
    - rewrite <- (D i j I J1). apply K4; assumption.
    - rewrite (D i k I K1). apply Qmult_le_l; [exact C|]. apply J4; assumption. }
  rewrite <- L1 in G. assert (L : List.length l = List.length l') by lia. clear - G L. revert l' L G.
  induction l as [|x l IH]; intros [|y l'] L G; try discriminate; constructor.
  - apply (G 0%nat). simpl. lia.
  - apply IH; [simpl in L; lia|]. intros i I. apply (G (S i)). simpl. lia.
Qed.

Lemma xge_times : forall f x y x' y', 0 < f -> xtimes f x x' -> xtimes f y y' -> xge x' y' = xge x y.
Proof.
  intros f x y x' y' F X Y. destruct x, x'; simpl in X; try tauto; destruct y, y'; simpl in Y; try tauto; try reflexivity.
  simpl. eapply times_le; eauto.
Qed.
Lemma nth_xtimes : forall f l l' j, Forall2 (xtimes f) l l' -> xtimes f (nth j l NaN) (nth j l' NaN).
Proof.
  intros f l l' j H. revert j. induction H; intros [|j]; simpl; auto.
Qed.
Lemma pvalue_times : forall f ns sims sims' obs obs' j, 0 < f -> Forall2 (Forall2 (xtimes f)) sims sims' -> Forall2 (xtimes f) obs obs' ->
  pvalue_of xge NaN ns sims' obs' j = pvalue_of xge NaN ns sims obs j.
Proof.
  intros f ns sims sims' obs obs' j F H O. unfold pvalue_of.
  rewrite (count_Forall2 _ _ _ (fun r => xge (nth j r NaN) (nth j obs NaN)) (fun r => xge (nth j r NaN) (nth j obs' NaN)) _ _ H); [reflexivity|].
  intros x y X. apply (xge_times f); [exact F|apply nth_xtimes; exact X|apply nth_xtimes; exact O].
Qed.

Section Tests.
Variable sk : option (list string * list string).
Variable query : metric -> list pt -> pt -> nat -> row.
Variable shape : list pt -> hullres -> hull.
Variables c a b f : Q.
Hypothesis positive : 0 < c.
Hypothesis fpositive : 0 < f.
Variable ct : calltype.
Variable stat : statistic xq.
Variable m : metric.
Variable edge : bool.
(** Hulls as the statistic gets them. *)
Definition prepared (hu : hullarg) : Prop := forall pts, exists h, prepare_hull pts hu = Ok h.
Lemma as_arg_prepared : forall pts u h, prepare_hull pts u = Ok h -> prepared (as_arg 0 h).
Proof.
  assert (B : forall pts h, (let! b := compute_mbb pts in Ok (RBox b)) = Ok h -> exists b, h = RBox b).
  { intros pts h. destruct (compute_mbb pts) as [x|e]; cbn [bind]; intros H; [|discriminate]. inversion H. eauto. }
  intros pts u h H q. unfold prepare_hull in H. destruct u as [|[w|w]|i|s|i|i].
  - apply B in H. destruct H as [x ->]. simpl. eauto.
  - destruct (Nat.eqb (List.length w) 4) eqn:E; [|discriminate]. inversion H. cbn [as_arg prepare_hull]. rewrite E. eauto.
  - discriminate.
  - inversion H. simpl. eauto.
  - destruct (String.eqb s "bbox"); [apply B in H; destruct H as [x ->]; simpl; eauto|].
    destruct (starts_with "convex" s); [inversion H; simpl; eauto|]. destruct (_ || _); [inversion H; simpl; eauto|discriminate].
  - inversion H. simpl. eauto.
  - discriminate.
Qed.

Variable ordered : list pt -> list pt -> Prop.
Hypothesis ordered_same : forall p p', ordered p p' -> same_pattern c a b p p'.
Hypothesis moved_ordered : forall p p', Forall2 (moved c a b) p p' -> ordered p p'.
(** How the distances handed to the statistic are related. *)
Variable drel : test_dist -> test_dist -> Prop.
Hypothesis stat_times : forall p p' s s' d d' hu hu' us, ordered p p' -> same_support c s s' -> drel d d' ->
  prepared hu -> prepared hu' ->
  same_run (same_curve c f) (stat p s d m hu edge us) (stat p' s' d' m hu' edge us).
Hypothesis data_times : forall p p' e e', ordered p p' -> Forall2 (moved c a b) e e' ->
  same_res drel (test_distances query ct (other_distances query) m p e) (test_distances query ct (other_distances query) m p' e').
Hypothesis sim_times : forall p p' e e', Forall2 (moved c a b) p p' -> Forall2 (moved c a b) e e' ->
  same_res drel (test_distances query ct (nearest_distances query) m p e) (test_distances query ct (nearest_distances query) m p' e').

Lemma one_simulation_times : forall n h h' hu hu' e e' sup sup' us, moved_hull c a b h h' -> prepared hu -> prepared hu' ->
  Forall2 (moved c a b) e e' -> Forall2 (times c) sup sup' ->
  same_run (Forall2 (xtimes f)) (one_simulation query ct stat n h hu m edge e sup us) (one_simulation query ct stat n h' hu' m edge e' sup' us).
Proof.
  intros n h h' hu hu' e e' sup sup' us H HU HU' E SU. unfold one_simulation, simulated_pattern.
  eapply same_bind; [apply poisson_times; exact H|]. intros x y us1 X.
  eapply same_bind; [apply same_lift; apply two_dim_times; exact X|]. intros p p' us2 P.
  eapply same_bind; [apply same_lift; apply sim_times; eassumption|]. intros d d' us3 D.
  eapply same_bind; [apply stat_times; [apply moved_ordered; exact P|exact SU|exact D|exact HU|exact HU']|].
  intros [u v] [u' v'] us4 [_ V]. simpl in *. auto.
Qed.
Lemma simulations_times : forall (one one' : list Q -> run (list xq)), (forall us, same_run (Forall2 (xtimes f)) (one us) (one' us)) ->
  forall n us, same_run (Forall2 (Forall2 (xtimes f))) (simulations one n us) (simulations one' n us).
Proof.
  intros one one' H. induction n as [|n IH]; intros us; simpl; [auto|].
  eapply same_bind; [apply H|]. intros v v' us1 V. eapply same_bind; [apply IH|]. intros vs vs' us2 VS. simpl.
  split; [constructor; assumption|reflexivity].
Qed.

Lemma test_times : forall p p' s s' u u' keep ns us, ordered p p' -> same_support c s s' ->
  same_res (fun h h' => moved_hull c a b (hull_seen shape p h) (hull_seen shape p' h')) (prepare_hull p u) (prepare_hull p' u') ->
  same_run (same_outcome c f)
    (test_run sk query shape xge NaN ct stat p s TDNone m u edge keep ns us)
    (test_run sk query shape xge NaN ct stat p' s' TDNone m u' edge keep ns us).
Proof.
  intros p p' s s' u u' keep ns us O SU HU. unfold test_run.
  eapply same_bind with (P := eq); [apply same_lift; destruct (build_best_tree sk m); simpl; reflexivity|]. intros _ _ us1 _.
  pose proof (as_arg_prepared p u) as PU. pose proof (as_arg_prepared p' u') as PU'.
  destruct (prepare_hull p u) as [h|e] eqn:E1, (prepare_hull p' u') as [h'|e'] eqn:E2; simpl in HU; try tauto.
  cbn [lift rbind]. specialize (PU h eq_refl). specialize (PU' h' eq_refl).
  pose proof (ordered_same p p' O) as SP.
  assert (LP : List.length p' = List.length p).
  { destruct SP as [k [P F]]. rewrite (Permutation_length P). symmetry. apply (Forall2_len _ _ _ _ _ F). }
  eapply same_bind with (P := Forall2 (moved c a b)).
  { destruct ct; try (simpl; split; [constructor|reflexivity]);
      (eapply same_bind; [apply empty_times; [exact positive|exact SP]|]; intros x y us2 X; apply same_lift; apply two_dim_times; exact X). }
  intros e e' us2 E. eapply same_bind; [apply same_lift; apply data_times; eassumption|]. intros d d' us3 D.
  eapply same_bind; [apply stat_times; eassumption|]. intros [sup obs] [sup' obs'] us4 [S1 S2]. simpl in S1, S2.
  eapply same_bind.
  { apply simulations_times. intros us5. rewrite LP. apply one_simulation_times; eassumption. }
  intros sims sims' us5 SI. simpl. split; [|reflexivity]. split; [split; assumption|]. simpl. split.
  - rewrite <- (Forall2_len _ _ _ _ _ S2). destruct SI as [|x y sims sims' X SI].
    + clear - S1. induction S1; simpl; congruence.
    + apply map_ext. intros j. f_equal. apply (pvalue_times f); [exact fpositive|constructor; assumption|exact S2].
  - destruct keep; [exact SI|exact Logic.I].
Qed.
End Tests.

Lemma xtimes_1 : forall v, Forall2 (xtimes 1) v v.
Proof. induction v as [|x v IH]; constructor; [|exact IH]. destruct x; simpl; auto. unfold times. ring. Qed.

(** Nearest and other distances in the other unit. *)
Section Distances.
Variable query : metric -> list pt -> pt -> nat -> row.
Variable dist : metric -> pt -> pt -> Q.
Hypothesis tree : good_tree query dist.
Variables c a b : Q.
Hypothesis positive : 0 < c.
Hypothesis units : unit_of dist c a b.
Lemma other_times : forall m p p' e e', Forall2 (moved c a b) p p' -> Forall2 (moved c a b) e e' ->
  same_res (Forall2 (times c)) (other_distances query m p e) (other_distances query m p' e').
Proof using query dist tree c a b positive units.
  intros m p p' e e' P E. pose proof (Forall2_len _ _ _ _ _ P) as LP. pose proof (Forall2_len _ _ _ _ _ E) as LE.
  destruct (Nat.lt_ge_cases (List.length p) 2) as [N|N].
  { rewrite !other_short by lia. reflexivity. }
  destruct (other_ok query dist tree m p e N) as [l H]. destruct (other_ok query dist tree m p' e') as [l' H']; [lia|].
  rewrite H, H'. simpl. apply (other_closest query dist) in H; [|exact tree]. apply (other_closest query dist) in H'; [|exact tree].
  apply (closest_times (dist m) c other_number p e p' e'); auto. intros i j I J. apply units; apply Forall2_nth'; assumption.
Qed.
Lemma nearest_times : forall m p p' e e', Forall2 (moved c a b) p p' -> Forall2 (moved c a b) e e' ->
  same_res (Forall2 (times c)) (nearest_distances query m p e) (nearest_distances query m p' e').
Proof using query dist tree c a b positive units.
  intros m p p' e e' P E. pose proof (Forall2_len _ _ _ _ _ P) as LP. pose proof (Forall2_len _ _ _ _ _ E) as LE.
  destruct (nearest_distances query m p e) as [l|x] eqn:H, (nearest_distances query m p' e') as [l'|x'] eqn:H'.
  - simpl. apply (nearest_closest query dist) in H; [|exact tree]. apply (nearest_closest query dist) in H'; [|exact tree].
    apply (closest_times (dist m) c any_point p e p' e'); auto. intros i j I J. apply units; apply Forall2_nth'; assumption.
  - unfold nearest_distances in *. destruct p, p'; discriminate.
  - unfold nearest_distances in *. destruct p, p'; discriminate.
  - unfold nearest_distances in *. destruct p, p'; try discriminate. simpl. congruence.
Qed.
End Distances.

(** J on a common support. *)
Lemma allclose_refl : forall l, allclose l l = true.
Proof.
  intros l. unfold allclose. apply forallb_forall. intros [x y] H. assert (E : x = y).
  { induction l as [|z l IH]; [destruct H|]. destruct H as [H|H]; [congruence|apply IH; exact H]. }
  subst y. cbn [fst snd]. apply Qleb_le. assert (E : x - x == 0) by ring. rewrite E. change (Qabs 0) with 0.
  pose proof (Qabs_nonneg x). lra.
Qed.
Lemma j_stat_common : forall s sup fv gv interp, (forall l, s = Some l -> l = sup) ->
  j_stat s (sup, fv) (sup, gv) interp false = (sup, map (fun gf => hazard (fst gf) (snd gf)) (combine gv fv)).
Proof.
  intros s sup fv gv interp H. unfold j_stat. destruct s as [l|].
  - rewrite (H l eq_refl), allclose_refl. cbv iota beta. rewrite allclose_refl. reflexivity.
  - rewrite allclose_refl. reflexivity.
Qed.
