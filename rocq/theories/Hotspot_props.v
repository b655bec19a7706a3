(** Theorems about hot spots and their classification. *)
From Coq Require Import ZArith QArith List Bool Arith Lia Lqa Permutation Sorting.Sorted.
From Verif Require Import Base BaseLemmas Spacetime_model Spacetime_spec Spacetime_proofs KnoxLocal_props.
Import ListNotations.
Local Open Scope Q_scope.

(** Significant events, and what hotspots should list. *)
Definition Sig (crit : Q) (g : list event) (z : Z) : Prop := exists p t, In (z, p, t) g /\ p <= crit.
Definition Adj (adj : list (Z * Z * orientation)) (a b : Z) : Prop := exists o, In (a, b, o) adj.
Definition Listed (crit : Q) (g : list event) (adj : list (Z * Z * orientation)) (z : Z) : Prop :=
  Sig crit g z \/ exists w, Sig crit g w /\ Adj adj w z.
(** What KnoxLocal guarantees about its frame and adjacency list (C70). *)
Definition Consistent (g : list event) (adj : list (Z * Z * orientation)) : Prop :=
  NoDup (map ev_id g) /\ (forall a b, Adj adj a b -> Adj adj b a) /\ (forall a b, Adj adj a b -> In a (map ev_id g)).

Lemma zmem_iff : forall z l, zmem z l = true <-> In z l.
Proof.
  intros. unfold zmem. rewrite existsb_exists. split.
  - intros [x [X Y]]. apply Z.eqb_eq in Y. subst. auto.
  - intro X. exists z. split; auto. apply Z.eqb_refl.
Qed.
Lemma sig_in : forall crit g e, In e (significant crit g) <-> In e g /\ ev_p e <= crit.
Proof. intros. unfold significant. rewrite filter_In, Qle_bool_iff. tauto. Qed.
Lemma sig_ids : forall crit g z, In z (map ev_id (significant crit g)) <-> Sig crit g z.
Proof.
  intros. rewrite in_map_iff. unfold Sig. split.
  - intros [[[a p] t] [E X]]. apply sig_in in X. cbn in *. subst. exists p, t. auto.
  - intros [p [t [X Y]]]. exists (z, p, t). split; auto. apply sig_in. auto.
Qed.
Lemma temp_in : forall crit g adj a b o, In (a, b, o) (temp_neighbors crit g adj) <->
  In (a, b, o) adj /\ (Sig crit g a \/ Sig crit g b).
Proof.
  intros. unfold temp_neighbors. rewrite filter_In. cbn [fst snd]. rewrite orb_true_iff, !zmem_iff, !sig_ids. tauto.
Qed.
Lemma concat_in : forall crit g adj e, In e (concat_events crit g adj) <->
  In e g /\ (ev_p e <= crit \/ exists a o, In (a, ev_id e, o) adj /\ (Sig crit g a \/ Sig crit g (ev_id e))).
Proof.
  intros. unfold concat_events. rewrite in_app_iff, sig_in, filter_In, zmem_iff, in_map_iff. split.
  - intros [[X Y]|[X [[[a b] o] [E Y]]]]; [auto|]. cbn in E. subst b. split; auto. right. apply temp_in in Y. exists a, o. tauto.
  - intros [X [Y|[a [o [Y W]]]]]; [auto|]. right. split; auto. exists (a, ev_id e, o). split; auto. apply temp_in. tauto.
Qed.
Lemma unique_event : forall g e e', NoDup (map ev_id g) -> In e g -> In e' g -> ev_id e = ev_id e' -> e = e'.
Proof.
  induction g as [|a g IH]; intros e e' N X Y E; [destruct X|]. cbn in N. inversion N; subst.
  destruct X as [<-|X], Y as [<-|Y]; auto.
  - exfalso. apply H1. rewrite E. apply in_map. auto.
  - exfalso. apply H1. rewrite <- E. apply in_map. auto.
Qed.
Lemma concat_ids : forall crit g adj z, Consistent g adj ->
  (In z (map ev_id (concat_events crit g adj)) <-> Listed crit g adj z).
Proof.
  intros crit g adj z [N [Sy Cl]]. rewrite in_map_iff. unfold Listed. split.
  - intros [[[a p] t] [E X]]. apply concat_in in X. cbn in *. subst a. destruct X as [X [Y|[w [o [Y [Z|Z]]]]]].
    + left. exists p, t. auto.
    + right. exists w. split; auto. exists o. auto.
    + left. auto.
  - intros [[p [t [X Y]]]|[w [S A]]].
    + exists (z, p, t). split; auto. apply concat_in. auto.
    + assert (I : In z (map ev_id g)) by (apply Sy in A; eapply Cl; eauto). apply in_map_iff in I. destruct I as [e [E I]].
      exists e. split; auto. apply concat_in. split; auto. right. destruct A as [o A]. exists w, o. rewrite E. auto.
Qed.

(** Keys of the merged frame. *)
Lemma insert_z_in : forall z l x, In x (insert_z z l) <-> x = z \/ In x l.
Proof.
  intros z l x. induction l as [|a l IH]; cbn [insert_z In]; [intuition|]. destruct (Z.ltb_spec z a); cbn [In].
  - intuition.
  - destruct (Z.eqb_spec z a) as [->|]; cbn [In]; rewrite ?IH; intuition.
Qed.
Lemma insert_z_sorted : forall z l, StronglySorted Z.lt l -> StronglySorted Z.lt (insert_z z l).
Proof.
  intros z l. induction l as [|a l IH]; intros S; cbn [insert_z]; [repeat constructor|]. inversion S; subst.
  destruct (Z.ltb_spec z a).
  - constructor; auto. constructor; auto. eapply Forall_impl; [|eassumption]. intros; lia.
  - destruct (Z.eqb_spec z a) as [->|]; auto. constructor; auto.
    apply Forall_forall. intros x X. apply insert_z_in in X. rewrite Forall_forall in H2. destruct X as [->|X]; [lia|auto].
Qed.
Lemma fold_insert_in : forall m z, In z (fold_right insert_z [] m) <-> In z m.
Proof. induction m as [|a m IH]; intro z; [split; intros []|]. cbn [fold_right In]. rewrite insert_z_in, IH. intuition. Qed.
Lemma fold_insert_sorted : forall m, StronglySorted Z.lt (fold_right insert_z [] m).
Proof. induction m as [|a m IH]; cbn [fold_right]; [constructor|apply insert_z_sorted; auto]. Qed.
Lemma keys_in : forall l z, In z (keys_sorted l) <-> In z (map (fun r : merged => fst (fst r)) l).
Proof. intros l z. apply fold_insert_in. Qed.
Lemma keys_sorted_sorted : forall l, StronglySorted Z.lt (keys_sorted l).
Proof. intros l. apply fold_insert_sorted. Qed.
Lemma merge_in : forall left right z v n, In (z, v, n) (outer_merge left right) ->
  (exists e, In e left /\ ev_id e = z /\ v = Some (ev_p e, ev_t e) /\
     match n with
     | Some (b, o) => In (z, b, o) right
     | None => forall b o, ~ In (z, b, o) right
     end) \/
  (~ In z (map ev_id left) /\ v = None /\ exists b o, In (z, b, o) right /\ n = Some (b, o)).
Proof.
  intros left right z v n H. unfold outer_merge in H. apply in_app_or in H. destruct H as [H|H].
  - left. apply in_flat_map in H. destruct H as [e [E H]]. exists e. split; auto.
    destruct (filter (fun r => Z.eqb (fst (fst r)) (ev_id e)) right) as [|r0 rs] eqn:F.
    + destruct H as [H|[]]. injection H as <- <- <-. split; auto. split; auto. intros b o X.
      assert (Y : In (ev_id e, b, o) (filter (fun r => Z.eqb (fst (fst r)) (ev_id e)) right)) by (apply filter_In; split; auto; cbn; apply Z.eqb_refl).
      rewrite F in Y. destruct Y.
    + rewrite <- F in H. clear F. apply in_map_iff in H. destruct H as [[[a b] o] [X Y]]. cbn in X. injection X as <- <- <-.
      split; auto. split; auto. apply filter_In in Y. cbn in Y. destruct Y as [Y1 Y2]. apply Z.eqb_eq in Y2. subst. auto.
  - right. apply in_map_iff in H. destruct H as [[[a b] o] [X Y]]. cbn in X. injection X as <- <- <-. apply filter_In in Y. cbn in Y.
    destruct Y as [Y1 Y2]. rewrite negb_true_iff, <- not_true_iff_false, zmem_iff in Y2. split; auto. split; auto. exists b, o. auto.
Qed.
Lemma merge_keys : forall left right z, In z (map (fun r : merged => fst (fst r)) (outer_merge left right)) <->
  In z (map ev_id left) \/ exists b o, In (z, b, o) right.
Proof.
  intros left right z. split.
  - intro H. apply in_map_iff in H. destruct H as [[[a v] n] [E H]]. cbn in E. subst a. apply merge_in in H.
    destruct H as [[e [X [Y _]]]|[_ [_ [b [o [X _]]]]]]; [left; rewrite <- Y; apply in_map; auto|right; exists b, o; auto].
  - assert (L : In z (map ev_id left) -> In z (map (fun r : merged => fst (fst r)) (outer_merge left right))).
    { intro H. apply in_map_iff in H. destruct H as [e [<- H]]. unfold outer_merge. rewrite map_app. apply in_or_app. left.
      destruct (filter (fun r => Z.eqb (fst (fst r)) (ev_id e)) right) as [|r0 rs] eqn:F.
      - apply in_map_iff. exists (ev_id e, Some (ev_p e, ev_t e), None). split; auto. apply in_flat_map. exists e. split; auto. rewrite F. left. auto.
      - apply in_map_iff. exists (ev_id e, Some (ev_p e, ev_t e), Some (snd (fst r0), snd r0)). split; auto.
        apply in_flat_map. exists e. split; auto. rewrite F. left. auto. }
    intros [H|[b [o H]]]; [auto|]. destruct (in_dec Z.eq_dec z (map ev_id left)) as [D|D]; auto.
    unfold outer_merge. rewrite map_app. apply in_or_app. right. rewrite map_map. apply in_map_iff. exists (z, b, o). split; auto.
    apply filter_In. split; auto. cbn. rewrite negb_true_iff, <- not_true_iff_false, zmem_iff. auto.
Qed.
Lemma first_some_in : forall A B (f : A -> option B) l b, first_some f l = Some b -> exists a, In a l /\ f a = Some b.
Proof.
  induction l as [|a l IH]; intros b H; cbn in H; [discriminate|]. destruct (f a) eqn:F.
  - injection H as <-. exists a. split; [left|]; auto.
  - destruct (IH _ H) as [x [X Y]]. exists x. split; [right|]; auto.
Qed.
Lemma first_some_none : forall A B (f : A -> option B) l, first_some f l = None <-> forall a, In a l -> f a = None.
Proof.
  induction l as [|a l IH]; cbn; [split; [intros _ a []|auto]|]. destruct (f a) eqn:F; split; intro H.
  - discriminate.
  - specialize (H a (or_introl eq_refl)). congruence.
  - intros x [<-|X]; auto. apply IH; auto.
  - apply IH. intros; apply H; right; auto.
Qed.

(** ** C71 *)
Theorem C71_rows : forall crit g adj, Consistent g adj ->
  StronglySorted Z.lt (map (fun r : merged => fst (fst r)) (hotspot_rows crit g adj)) /\
  (forall z, In z (map (fun r : merged => fst (fst r)) (hotspot_rows crit g adj)) <-> Listed crit g adj z) /\
  (forall z v n, In (z, v, n) (hotspot_rows crit g adj) ->
     (exists p t, v = Some (p, t) /\ In (z, p, t) g) /\
     match n with
     | Some (b, o) => In (z, b, o) adj /\ (Sig crit g z \/ Sig crit g b)
     | None => forall b, ~ Adj adj z b
     end).
Proof.
  intros crit g adj C. unfold hotspot_rows. set (L := concat_events crit g adj). set (R := temp_neighbors crit g adj).
  assert (K : map (fun r : merged => fst (fst r)) (group_first (outer_merge L R)) = keys_sorted (outer_merge L R)).
  { unfold group_first. rewrite map_map. cbn. apply map_id. }
  rewrite K. destruct C as [N [Sy Cl]].
  assert (RL : forall z b o, In (z, b, o) R -> Listed crit g adj z).
  { intros z b o H. apply temp_in in H. destruct H as [H [S|S]]; [left; auto|]. right. exists b. split; auto. apply Sy. exists o. auto. }
  assert (LL : forall z, In z (map ev_id L) <-> Listed crit g adj z) by (intro z; apply concat_ids; repeat split; auto).
  split; [apply keys_sorted_sorted|]. split.
  - intro z. rewrite keys_in, merge_keys, LL. split; [|auto]. intros [H|[b [o H]]]; auto. eapply RL; eauto.
  - intros z v n H. unfold group_first in H. apply in_map_iff in H. destruct H as [z' [E H]]. cbv zeta in E. injection E as -> Ev En.
    rewrite keys_in, merge_keys, LL in H. assert (Lz : Listed crit g adj z) by (destruct H as [H|[b [o H]]]; [auto|eapply RL; eauto]). clear H.
    pose proof (proj2 (LL z) Lz) as Iz.
    assert (Rows : forall r, In r (filter (fun r : merged => Z.eqb (fst (fst r)) z) (outer_merge L R)) ->
      exists e, In e g /\ ev_id e = z /\ snd (fst r) = Some (ev_p e, ev_t e) /\
        match snd r with Some (b, o) => In (z, b, o) R | None => forall b o, ~ In (z, b, o) R end).
    { intros [[a w] m] X. apply filter_In in X. cbn in X. destruct X as [X Y]. apply Z.eqb_eq in Y. subst a. apply merge_in in X.
      destruct X as [[e [X1 [X2 [X3 X4]]]]|[X1 _]]; [|contradiction]. exists e. apply concat_in in X1. cbn. tauto. }
    assert (NE : exists r, In r (filter (fun r : merged => Z.eqb (fst (fst r)) z) (outer_merge L R))).
    { assert (X : In z (map (fun r : merged => fst (fst r)) (outer_merge L R))) by (apply merge_keys; auto).
      apply in_map_iff in X. destruct X as [r [X Y]]. exists r. apply filter_In. split; auto. apply Z.eqb_eq. auto. }
    assert (RA : forall b o, In (z, b, o) adj -> (exists b' o', In (z, b', o') R)).
    { intros b o X. destruct Lz as [S|[w [S [o' A]]]]; [exists b, o; apply temp_in; auto|].
      assert (A' : Adj adj w z) by (exists o'; auto). apply Sy in A'. destruct A' as [o2 A']. exists w, o2. apply temp_in. auto. }
    split.
    + destruct v as [[p t]|].
      * apply first_some_in in Ev. destruct Ev as [r [Y1 Y2]]. destruct (Rows r Y1) as [[[a p'] t'] [Z1 [Z2 [Z3 _]]]]. cbn in Z2, Z3. subst a.
        rewrite Z3 in Y2. cbn in Y2. injection Y2 as <- <-. exists p', t'. auto.
      * exfalso. destruct NE as [r X]. destruct (Rows r X) as [e [_ [_ [Z3 _]]]].
        rewrite (proj1 (first_some_none _ _ _ _) Ev r X) in Z3. discriminate.
    + destruct n as [[b o]|].
      * apply first_some_in in En. destruct En as [r [Y1 Y2]]. destruct (Rows r Y1) as [e [_ [_ [_ Z4]]]]. rewrite Y2 in Z4.
        apply temp_in in Z4. auto.
      * destruct NE as [r X]. destruct (Rows r X) as [e [_ [_ [_ Z4]]]].
        rewrite (proj1 (first_some_none _ _ _ _) En r X) in Z4. intros b [o A]. destruct (RA b o A) as [b' [o' A']]. apply (Z4 b' o' A').
Qed.
Print Assumptions C71_rows.

Lemma sorted_nodup : forall l, StronglySorted Z.lt l -> NoDup l.
Proof. induction 1; constructor; auto. intro X. rewrite Forall_forall in H0. specialize (H0 _ X). lia. Qed.
(** The hypothesis holds for the frame and the adjacency list of every KnoxLocal object with distinct ids. *)
Theorem C71_consistent : forall ball, Ball ball -> forall s t delta tau gperms perms l ids g,
  knox_local ball s t delta tau gperms perms = Ok l -> NoDup ids -> List.length ids = List.length s -> map ev_id g = ids ->
  Consistent g (relabel_adj ids (l_adj l)) /\
  (forall i j, (i < List.length s)%nat -> (j < List.length s)%nat ->
     (Adj (relabel_adj ids (l_adj l)) (nth i ids 0%Z) (nth j ids 0%Z) <-> Near s t delta tau i j)).
Proof.
  intros ball HB s t delta tau gperms perms l ids g H N L G.
  destruct (C70_adjlist ball HB _ _ _ _ _ _ _ H) as [A _].
  assert (B : forall r, In r (l_adj l) -> (fst (fst r) < List.length ids)%nat /\ (snd (fst r) < List.length ids)%nat).
  { intros [[i j] o] X. cbn. assert (Y : exists o, In (i, j, o) (l_adj l)) by eauto. apply A in Y. rewrite L. destruct Y as [Y1 [Y2 _]]. auto. }
  assert (R : forall a b o, In (a, b, o) (relabel_adj ids (l_adj l)) -> exists i j, (i < List.length ids)%nat /\ (j < List.length ids)%nat /\
     nth i ids 0%Z = a /\ nth j ids 0%Z = b /\ In (i, j, o) (l_adj l)).
  { intros a b o X. unfold relabel_adj in X. apply in_map_iff in X. destruct X as [[[i j] o'] [X Y]]. cbn [fst snd] in X.
    injection X as <- <- <-. destruct (B _ Y) as [B1 B2]. exists i, j. auto. }
  split; [split; [rewrite G; auto|split]|].
  - intros a b [o X]. apply R in X. destruct X as [i [j [Hi [Hj [<- [<- X]]]]]]. exists (opposite o).
    apply C70_ids; auto. eapply C70_dual; eauto.
  - intros a b [o X]. apply R in X. destruct X as [i [j [Hi [Hj [<- [<- X]]]]]]. rewrite G. apply nth_In. auto.
  - intros i j Hi Hj. rewrite <- L in Hi, Hj. split.
    + intros [o X]. apply C70_ids in X; auto. apply (proj1 (A i j)). eauto.
    + intro X. assert (Y : exists o, In (i, j, o) (l_adj l)) by (apply A; split; auto; rewrite <- L; auto).
      destruct Y as [o Y]. exists o. apply C70_ids; auto.
Qed.
Print Assumptions C71_consistent.

Definition rc_id (rc : merged * nat) : Z := fst (fst (fst rc)).
Theorem C71_hotspots : forall components crit g adj, Consistent g adj ->
  (let ids := map rc_id (hotspots components crit g adj true) in
   NoDup ids /\ forall z, In z ids <-> Listed crit g adj z) /\
  (let ids := map rc_id (hotspots components crit g adj false) in
   NoDup ids /\ forall z, In z ids <-> Sig crit g z).
Proof.
  intros components crit g adj C. destruct (C71_rows crit g adj C) as [S [I V]]. cbv zeta. unfold hotspots.
  set (rows := hotspot_rows crit g adj) in *. cbv zeta.
  match goal with |- context [map rc_id (map ?f rows)] => set (out := map f rows) end.
  assert (M : map rc_id out = map (fun r : merged => fst (fst r)) rows) by (unfold out; rewrite map_map; reflexivity).
  split.
  - rewrite M. split; auto. apply sorted_nodup; auto.
  - split.
    + apply sorted_nodup in S. rewrite <- M in S. clear M. revert S. generalize out.
      intros l. induction l as [|a l IH]; intros N; [constructor|]. cbn [map] in N. inversion N; subst. cbn [filter].
      match goal with |- context [if ?b then _ else _] => destruct b end; [|apply IH; auto].
      cbn [map]. constructor; [|apply IH; auto]. intro X. apply H1. apply in_map_iff in X. destruct X as [b [E X]]. apply filter_In in X.
      rewrite <- E. apply in_map_iff. exists b. tauto.
    + intro z. rewrite in_map_iff. split.
      * intros [[[[a v] n] c] [E X]]. cbn in E. subst a. apply filter_In in X. cbn [fst snd] in X. destruct X as [X Y].
        apply in_map_iff in X. destruct X as [r [X1 X2]]. injection X1 as -> _. destruct (V _ _ _ X2) as [[p [t [-> P]]] _].
        apply Qle_bool_iff in Y. exists p, t. auto.
      * intros [p [t [X Y]]]. assert (L : Listed crit g adj z) by (left; exists p, t; auto). apply I in L. apply in_map_iff in L.
        destruct L as [[[a v] n] [E L]]. cbn in E. subst a. destruct (V _ _ _ L) as [[p' [t' [-> P]]] _].
        exists ((z, Some (p', t'), n), components (hotspot_edges rows) z). split; auto. apply filter_In. split.
        -- apply in_map_iff. exists (z, Some (p', t'), n). auto.
        -- cbn. apply Qle_bool_iff. destruct C as [N _].
           assert (E : (z, p, t) = (z, p', t')) by (apply (unique_event g); auto). injection E as <- <-. auto.
Qed.
Print Assumptions C71_hotspots.

Theorem C71_inference : forall inf p_sims p_hg,
  (choose_p inf p_sims p_hg = Raise ValueError <-> inf = OtherInference) /\
  (choose_p Permutation_ None p_hg = Ok p_hg) /\ (forall ps, choose_p Permutation_ (Some ps) p_hg = Ok ps) /\
  choose_p Analytic p_sims p_hg = Ok p_hg.
Proof. intros [| |] p_sims p_hg; repeat split; cbn; intros; try discriminate; auto. Qed.
Print Assumptions C71_inference.

Definition g_ex : list event := [(10%Z, 1#100, 0); (11%Z, 1#2, 1); (12%Z, 9#10, 2); (13%Z, 1, 5)].
Definition adj_ex : list (Z * Z * orientation) := [(10, 11, Lead); (11, 10, Lag); (11, 12, Lead); (12, 11, Lag)]%Z.
Example C71_case : Consistent g_ex adj_ex /\
  map rc_id (hotspots (fun _ _ => 0%nat) (5#100) g_ex adj_ex true) = [10; 11]%Z /\
  map rc_id (hotspots (fun _ _ => 0%nat) (5#100) g_ex adj_ex false) = [10]%Z.
Proof.
  split; [|split; reflexivity]. split; [|split].
  - repeat constructor; cbn; intuition discriminate.
  - intros a b [o H]. cbn in H. unfold Adj. destruct H as [H|[H|[H|[H|[]]]]]; injection H as <- <- <-; eexists; cbn; eauto.
  - intros a b [o H]. cbn in H |- *. destruct H as [H|[H|[H|[H|[]]]]]; injection H as <- <- <-; auto.
Qed.

(** ** C72: clusters *)
(** Connected by a chain of edges, in either direction. *)
Inductive Linked (E : Z -> Z -> Prop) : Z -> Z -> Prop :=
| Linked_refl : forall a, Linked E a a
| Linked_step : forall a b c, Linked E a b -> (E b c \/ E c b) -> Linked E a c.
Definition Labels (components : list (Z * Z) -> Z -> nat) : Prop :=
  forall edges a b, components edges a = components edges b <-> Linked (fun x y => In (x, y) edges) a b.
(** Labels are exactly the components of the graph in which every event keeps only
    its first neighbour; equal labels therefore mean connected events. *)
Theorem C72_labels_sound : forall components crit g adj keep r1 c1 r2 c2, Labels components -> Consistent g adj ->
  In (r1, c1) (hotspots components crit g adj keep) -> In (r2, c2) (hotspots components crit g adj keep) ->
  (c1 = c2 <-> Linked (fun x y => In (x, y) (hotspot_edges (hotspot_rows crit g adj))) (fst (fst r1)) (fst (fst r2))) /\
  (c1 = c2 -> Linked (Adj adj) (fst (fst r1)) (fst (fst r2))).
Proof.
  intros components crit g adj keep r1 c1 r2 c2 HL C H1 H2.
  assert (G : forall r c, In (r, c) (hotspots components crit g adj keep) ->
    c = components (hotspot_edges (hotspot_rows crit g adj)) (fst (fst r))).
  { intros r c H. unfold hotspots in H. destruct keep; [|apply filter_In in H; destruct H as [H _]];
      apply in_map_iff in H; destruct H as [x [E _]]; injection E as -> <-; reflexivity. }
  rewrite (G _ _ H1), (G _ _ H2). split; [apply HL|]. intro E. apply HL in E.
  induction E as [a|a b c E IH S]; [constructor|]. econstructor; [eauto|].
  assert (X : forall x y, In (x, y) (hotspot_edges (hotspot_rows crit g adj)) -> Adj adj x y).
  { intros x y X. unfold hotspot_edges in X. apply in_flat_map in X. destruct X as [[[z v] n] [X Y]].
    cbn in Y. destruct n as [[b' o]|]; [|destruct Y]. destruct Y as [Y|[]]. injection Y as -> ->.
    destruct (C71_rows crit g adj C) as [_ [_ V]]. apply V in X. destruct X as [_ [X _]]. exists o. auto. }
  destruct S as [S|S]; auto.
Qed.
Print Assumptions C72_labels_sound.

(** Every listed event is labelled like one of its neighbours. *)
Theorem C72_first_neighbour : forall components crit g adj r c, Labels components -> Consistent g adj ->
  In (r, c) (hotspots components crit g adj true) -> (exists b, Adj adj (fst (fst r)) b) ->
  exists b r' , Adj adj (fst (fst r)) b /\ fst (fst r') = b /\ In (r', c) (hotspots components crit g adj true).
Proof.
  intros components crit g adj r c HL C H A. unfold hotspots in *. set (rows := hotspot_rows crit g adj) in *.
  destruct (C71_rows crit g adj C) as [_ [I V]]. apply in_map_iff in H. destruct H as [[[z v] n] [E H]]. injection E as <- <-. cbn [fst snd] in *.
  destruct (V _ _ _ H) as [_ W]. destruct n as [[b o]|]; [|destruct A as [b A]; destruct (W b A)]. destruct W as [W1 W2].
  assert (Lb : Listed crit g adj b).
  { destruct W2 as [S|S]; [right; exists z; split; auto; exists o; auto|left; auto]. }
  apply I in Lb. apply in_map_iff in Lb. destruct Lb as [r' [E' R']]. exists b, r'. split; [exists o; auto|]. split; auto.
  apply in_map_iff. exists r'. split; auto. f_equal. apply HL. rewrite E'. econstructor; [constructor|]. right.
  unfold hotspot_edges. apply in_flat_map. exists (z, v, Some (b, o)). split; auto. left. reflexivity.
Qed.
Print Assumptions C72_first_neighbour.

(** Two linked significant events in different clusters: edges 0-4, 1-5, 4-5. *)
Definition g_bad : list event := [(0%Z, 0, 0); (1%Z, 0, 0); (4%Z, 0, 0); (5%Z, 0, 0)].
Definition adj_bad : list (Z * Z * orientation) :=
  [(0, 4, Coincident); (1, 5, Coincident); (4, 0, Coincident); (4, 5, Coincident); (5, 1, Coincident); (5, 4, Coincident)]%Z.
Lemma bad_consistent : Consistent g_bad adj_bad.
Proof.
  split; [|split].
  - repeat constructor; cbn; intuition discriminate.
  - intros a b [o H]. cbn in H. unfold Adj. decompose [or] H; try contradiction;
      match goal with X : (_, _, _) = (_, _, _) |- _ => injection X as <- <- <- end; exists Coincident; cbn; tauto.
  - intros a b [o H]. cbn in H |- *. decompose [or] H; try contradiction;
      match goal with X : (_, _, _) = (_, _, _) |- _ => injection X as <- <- <- end; auto.
Qed.
Theorem C72_cluster_labels_refuted : forall components, Labels components ->
  exists r4 c4 r5 c5, In (r4, c4) (hotspots components (5#100) g_bad adj_bad true) /\ In (r5, c5) (hotspots components (5#100) g_bad adj_bad true) /\
    fst (fst r4) = 4%Z /\ fst (fst r5) = 5%Z /\ Adj adj_bad 4%Z 5%Z /\ Sig (5#100) g_bad 4%Z /\ Sig (5#100) g_bad 5%Z /\ c4 <> c5.
Proof.
  intros components HL.
  set (E := hotspot_edges (hotspot_rows (5#100) g_bad adj_bad)).
  assert (EE : E = [(0, 4); (1, 5); (4, 0); (5, 1)]%Z) by reflexivity.
  exists (4%Z, Some (0, 0), Some (0%Z, Coincident)), (components E 4%Z), (5%Z, Some (0, 0), Some (1%Z, Coincident)), (components E 5%Z).
  split; [cbn; auto|]. split; [cbn; auto|]. split; [reflexivity|]. split; [reflexivity|].
  split; [exists Coincident; cbn; tauto|]. split; [exists 0, 0; split; [cbn; tauto|discriminate]|]. split; [exists 0, 0; split; [cbn; tauto|discriminate]|].
  intro X. apply HL in X. rewrite EE in X.
  assert (Inv : forall a b, Linked (fun x y => In (x, y) [(0, 4); (1, 5); (4, 0); (5, 1)]%Z) a b -> (a = 0 \/ a = 4 -> b = 0 \/ b = 4)%Z).
  { induction 1 as [a|a b c L IH S]; intro Ha; [auto|]. specialize (IH Ha).
    destruct S as [S|S]; cbn in S; decompose [or] S; try contradiction;
      match goal with Y : (_, _) = (_, _) |- _ => injection Y as <- <- end; lia. }
  destruct (Inv _ _ X (or_intror eq_refl)); discriminate.
Qed.
Print Assumptions C72_cluster_labels_refuted.
Example C72_case : hotspot_edges (hotspot_rows (5#100) g_bad adj_bad) = [(0, 4); (1, 5); (4, 0); (5, 1)]%Z.
Proof. reflexivity. Qed.

(** ** C78: classes in the plots *)
Lemma nbs_in : forall crit g adj z,
  In z (map (fun r : Z * Z * orientation => snd (fst r)) (filter (fun r => zmem (fst (fst r)) (map ev_id (significant crit g))) adj)) <->
  exists w, Sig crit g w /\ Adj adj w z.
Proof.
  intros. rewrite in_map_iff. split.
  - intros [[[a b] o] [E X]]. cbn in E. subst b. apply filter_In in X. cbn in X. rewrite zmem_iff, sig_ids in X.
    exists a. split; [tauto|]. exists o. tauto.
  - intros [w [S [o A]]]. exists (w, z, o). split; auto. apply filter_In. split; auto. cbn. apply zmem_iff, sig_ids. auto.
Qed.
Theorem C78_classes : forall crit g adj, Consistent g adj ->
  map fst (classify crit g adj) = map ev_id g /\
  forall z k, In (z, k) (classify crit g adj) ->
    (k = Focal <-> Sig crit g z) /\
    (k = Neighbor <-> ~ Sig crit g z /\ Listed crit g adj z) /\
    (k = Nonsig <-> ~ Listed crit g adj z).
Proof.
  intros crit g adj [N _]. unfold classify. split; [rewrite map_map; reflexivity|].
  intros z k H. apply in_map_iff in H. destruct H as [[[z' p] t] [E H]]. cbn [ev_id ev_p fst snd] in E. injection E as -> E.
  assert (S : Sig crit g z <-> p <= crit).
  { split.
    - intros [p' [t' [X Y]]]. assert (E' : (z, p, t) = (z, p', t')) by (apply (unique_event g); auto). injection E' as <- <-. auto.
    - intro X. exists p, t. auto. }
  unfold Listed. pose proof (nbs_in crit g adj z) as NI. unfold ev_p in E. cbn [fst snd] in E.
  destruct (Qle_bool p crit) eqn:P.
  - apply Qle_bool_iff in P. subst k. repeat split; intros; try discriminate; try tauto. 
  - assert (P' : ~ p <= crit) by (rewrite <- Qle_bool_iff, P; discriminate).
    destruct (zmem z _) eqn:Zm; subst k.
    + apply zmem_iff, NI in Zm. repeat split; intros; try discriminate; try tauto.
    + rewrite <- not_true_iff_false, zmem_iff, NI in Zm. repeat split; intros; try discriminate; try tauto.
Qed.
Print Assumptions C78_classes.
Example C78_case : classify (5#100) g_ex adj_ex = [(10, Focal); (11, Neighbor); (12, Nonsig); (13, Nonsig)]%Z.
Proof. reflexivity. Qed.
