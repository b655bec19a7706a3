(** Lemmas about the drawings of local Knox statistics. *)
From Coq Require Import ZArith QArith List Bool Arith Lia String Sorting.Sorted.
From Verif Require Import Base BaseLemmas Spec Spacetime_model Spacetime_spec Spacetime_proofs Pairs_proofs Spacetime_props Spacetime2_proofs
  KnoxLocal_props Hotspot_props KnoxObj_model KnoxObj_props Explore_model Explore_spec.
Import ListNotations.
Local Open Scope Q_scope.

Lemma filter_sel : forall (A : Type) (P : A -> bool) (g : list A), exists sel, StronglySorted lt sel /\
  (forall i, In i sel <-> exists m, nth_error g i = Some m /\ P m = true) /\
  Forall2 (fun i m => nth_error g i = Some m) sel (filter P g).
Proof.
  intros A P g. induction g as [|a g [sel [Ss [I F]]]].
  - exists []. split; [constructor|]. split; [|constructor]. intro i. split; [intros []|]. intros [m [X _]]. destruct i; discriminate.
  - assert (SM : StronglySorted lt (map S sel)).
    { clear - Ss. induction Ss as [|x l Ss IH H]; cbn [map]; constructor; auto. rewrite Forall_forall in *. intros y Y. apply in_map_iff in Y.
      destruct Y as [z [<- Z0]]. apply H in Z0. lia. }
    assert (FM : Forall2 (fun i m => nth_error (a :: g) i = Some m) (map S sel) (filter P g)).
    { clear - F. induction F; cbn [map]; constructor; auto. }
    assert (IM : forall j, In (S j) (map S sel) <-> In j sel).
    { intro j. rewrite in_map_iff. split; [intros [x [E X]]; injection E as ->; auto|intro X; exists j; auto]. }
    assert (I0 : ~ In 0%nat (map S sel)) by (rewrite in_map_iff; intros [x [E _]]; discriminate).
    cbn [filter]. destruct (P a) eqn:E.
    + exists (0%nat :: map S sel). split; [constructor; auto|].
      { rewrite Forall_forall. intros y Y. apply in_map_iff in Y. destruct Y as [z [<- _]]. lia. }
      split; [|constructor; auto]. intros [|j].
      * split; [intros _; exists a; auto|intros _; left; reflexivity].
      * cbn [In nth_error]. rewrite IM, I. intuition discriminate.
    + exists (map S sel). split; [auto|]. split; [|auto]. intros [|j].
      * split; [contradiction|]. intros [m [X Y]]. cbn in X. injection X as ->. congruence.
      * rewrite IM, I. reflexivity.
Qed.

(** ** The painted frame *)
Lemma used_iff : forall o inf ps, choose_p inf (kl_p_sims o) (kl_p_hg o) = Ok ps <-> Used o inf ps.
Proof.
  intros o [] ps; cbn [choose_p Used]; [destruct (kl_p_sims o)| |]; split; intro H; try congruence; try tauto; try discriminate; destruct H.
Qed.
(** ** The neighbour lists of explore *)
Definition lookup_list (adj : list (Z * Z * orientation)) (z : Z) : option (list Z) :=
  match filter (fun r => Z.eqb (fst (fst r)) z) adj with
  | [] => None
  | rs => Some (map (fun r => snd (fst r)) rs)
  end.
Lemma filter_key : forall (F : Z -> list Z) keys z, StronglySorted Z.lt keys ->
  filter (fun e => Z.eqb (fst e) z) (map (fun k => (k, F k)) keys) = if zmem z keys then [(z, F z)] else [].
Proof.
  intros F keys z SS. induction SS as [|k keys SS IH A]; [reflexivity|]. cbn [map filter fst]. unfold zmem in *. cbn [existsb].
  rewrite (Z.eqb_sym z k). destruct (Z.eqb_spec k z) as [->|E]; cbn [orb]; [|exact IH].
  f_equal. rewrite IH. replace (existsb (Z.eqb z) keys) with false; [reflexivity|]. symmetry. apply not_true_iff_false. rewrite existsb_exists.
  intros [x [X Y]]. apply Z.eqb_eq in Y. subst x. rewrite Forall_forall in A. apply A in X. lia.
Qed.
Lemma left_merge_map : forall adj g, left_merge g (group_lists adj) = map (fun m => (m, lookup_list adj (mk_id m))) g.
Proof.
  intros adj g. unfold left_merge. transitivity (flat_map (fun m => [(m, lookup_list adj (mk_id m))]) g).
  2:{ induction g as [|m g IH]; [reflexivity|]. cbn [flat_map map app]; f_equal; exact IH. }
  apply flat_map_ext. intro m. unfold group_lists.
  rewrite (filter_key (fun z => map (fun r => snd (fst r)) (filter (fun r => Z.eqb (fst (fst r)) z) adj))) by apply fold_insert_sorted.
  unfold lookup_list. destruct (zmem (mk_id m) _) eqn:E.
  - apply zmem_iff in E. rewrite fold_insert_in in E. apply in_map_iff in E. destruct E as [r [R1 R2]].
    destruct (filter (fun r => Z.eqb (fst (fst r)) (mk_id m)) adj) as [|a t] eqn:Fl; [|reflexivity]. exfalso.
    assert (X : In r (filter (fun r => Z.eqb (fst (fst r)) (mk_id m)) adj)) by (apply filter_In; split; [auto|apply Z.eqb_eq; auto]).
    rewrite Fl in X. destruct X.
  - destruct (filter (fun r => Z.eqb (fst (fst r)) (mk_id m)) adj) as [|a t] eqn:Fl; [reflexivity|]. exfalso.
    assert (X : In a (filter (fun r => Z.eqb (fst (fst r)) (mk_id m)) adj)) by (rewrite Fl; left; auto). apply filter_In in X. destruct X as [X1 X2].
    apply Z.eqb_eq in X2. apply not_true_iff_false in E. apply E. apply zmem_iff. rewrite fold_insert_in. rewrite <- X2. apply (in_map (fun r => fst (fst r))). auto.
Qed.

Section Frame.
Context (ball : list vec -> Q -> nat -> list nat) (HB : Ball ball) (f : frame) (index : list Z) (delta tau : Q)
  (gperms perms : list (list nat)) (keep : bool) (o : kl_obj).
Hypothesis ND : NoDup index.
Hypothesis H : kl_from_frame ball f index delta tau gperms perms keep = Ok o.

Lemma used_length : forall inf ps, Used o inf ps -> List.length ps = List.length index.
Proof using HB H.
  clear ND. intros inf ps U. destruct (frame_inv _ _ _ _ _ _ _ _ _ H) as [pts [l [G [L1 [L2 [K [_ [AD [PH [PS _]]]]]]]]]].
  apply used_iff in U. rewrite PS, PH in U. rewrite L1, <- (map_length (fun p : Q * Q => [fst p; snd p]) pts).
  apply (choose_length ball HB _ _ _ _ _ _ _ inf ps (Some 0) K). exact U.
Qed.

(** The adjacency list in terms of rows. *)
Lemma frame_adj : forall i j, (i < List.length index)%nat -> (j < List.length index)%nat ->
  (Adj (kl_adj o) (nth i index 0%Z) (nth j index 0%Z) <-> FNear f delta tau i j).
Proof using HB H ND.
  intros i j Hi Hj. destruct (frame_inv _ _ _ _ _ _ _ _ _ H) as [pts [l [G [L1 [L2 [K [_ [AD _]]]]]]]].
  assert (LS : List.length index = @List.length vec (map (fun p : Q * Q => [fst p; snd p]) pts)) by (rewrite map_length; auto).
  assert (EI : map ev_id (map (fun z => (z, 0, 0)) index) = index) by (rewrite map_map; apply map_id).
  destruct (C71_consistent ball HB _ _ _ _ _ _ _ index _ K ND LS EI) as [_ AN]. rewrite AD, AN by lia. apply near_frame; auto. lia.
Qed.
Lemma adj_labels : forall a b, Adj (kl_adj o) a b -> exists i j, (i < List.length index)%nat /\ (j < List.length index)%nat /\
  a = nth i index 0%Z /\ b = nth j index 0%Z.
Proof using HB H.
  clear ND. intros a b [or X]. destruct (frame_inv _ _ _ _ _ _ _ _ _ H) as [pts [l [G [L1 [L2 [K [_ [AD _]]]]]]]].
  rewrite AD in X. unfold relabel_adj in X. apply in_map_iff in X. destruct X as [[[i j] o'] [E X]]. cbn [fst snd] in E. injection E as <- <- <-.
  destruct (C70_adjlist ball HB _ _ _ _ _ _ _ K) as [A _]. assert (Y : exists o, In (i, j, o) (l_adj l)) by eauto.
  apply A in Y. destruct Y as [Y1 [Y2 _]]. rewrite map_length in *. exists i, j. repeat split; lia.
Qed.
Lemma near_bounds : forall i j, FNear f delta tau i j -> (i < List.length index)%nat /\ (j < List.length index)%nat.
Proof using H.
  clear ND. intros i j [_ [_ [_ [x [y [t1 [x' [y' [t' [[A _] [[B _] _]]]]]]]]]]]. destruct (frame_inv _ _ _ _ _ _ _ _ _ H) as [pts [l [G [L1 _]]]].
  rewrite G, nth_error_map in A, B. rewrite L1. split; apply nth_error_Some; [destruct (nth_error pts i)|destruct (nth_error pts j)]; discriminate.
Qed.
Lemma near_sym : forall i j, FNear f delta tau i j -> FNear f delta tau j i.
Proof using.
  clear. intros i j [D [A [B [x [y [t1 [x' [y' [t' [P [P' [C1 C2]]]]]]]]]]]]. split; [auto|]. split; [auto|]. split; [auto|].
  exists x', y', t', x, y, t1. split; [auto|]. split; [auto|]. split; [|Lqa.lra].
  setoid_replace ((x' - x) * (x' - x) + (y' - y) * (y' - y)) with ((x - x') * (x - x') + (y - y') * (y - y')) by ring. exact C1.
Qed.

Definition marks0 (ps : list Q) (c : string) : list mark :=
  map (fun ep => mkmark (fst (fst (fst ep))) (snd (fst (fst ep))) (snd (fst ep)) (snd ep) c) (combine (kl_gdf o) ps).
Lemma marks0_nth : forall ps c i, List.length ps = List.length index -> (i < List.length index)%nat ->
  exists m, nth_error (marks0 ps c) i = Some m /\ Shows f index ps i m /\ mk_color m = c.
Proof using H.
  clear ND. intros ps c i L Hi. destruct (frame_inv _ _ _ _ _ _ _ _ _ H) as [pts [l [G [L1 [L2 [K [_ [AD [PH [PS [GD _]]]]]]]]]]].
  unfold marks0. rewrite GD.
  destruct (nth_error (combine (combine index pts) (f_times f)) i) as [e|] eqn:E; [|apply nth_error_None in E; rewrite !combine_length in E; lia].
  destruct (gdf_nth _ _ _ _ _ E L1 L2) as [_ [E1 [E2 E3]]].
  exists (mkmark (fst (fst e)) (snd (fst e)) (snd e) (nth i ps 0) c). split; [|split; [|reflexivity]].
  - rewrite nth_error_map. assert (X : nth_error (combine (combine (combine index pts) (f_times f)) ps) i = Some (e, nth i ps 0)).
    { clear - E L Hi. revert E. generalize (combine (combine index pts) (f_times f)). intros l0. assert (Hp : (i < List.length ps)%nat) by lia. clear L Hi.
      revert i ps Hp. induction l0 as [|a l0 IH]; intros i [|p ps] Hp E; cbn [List.length] in Hp; try lia; destruct i as [|i]; cbn [nth_error combine nth] in *; try discriminate.
      - injection E as ->. reflexivity.
      - apply IH; [lia|auto]. }
    rewrite X. reflexivity.
  - unfold Shows. cbn [mk_id mk_at mk_time mk_p]. split; [auto|]. split; [|reflexivity]. unfold At. rewrite G, nth_error_map, E2.
    cbn. destruct (snd (fst e)) as [x y]. split; [reflexivity|]. rewrite E3. apply nth_error_nth'. lia.
Qed.
Lemma marks0_length : forall ps c, List.length ps = List.length index -> List.length (marks0 ps c) = List.length index.
Proof using H.
  clear ND. intros ps c L. destruct (frame_inv _ _ _ _ _ _ _ _ _ H) as [pts [l [G [L1 [L2 [K [_ [AD [PH [PS [GD _]]]]]]]]]]].
  unfold marks0. rewrite GD, map_length, !combine_length. lia.
Qed.
Lemma marks0_ids : forall ps c, List.length ps = List.length index -> map mk_id (marks0 ps c) = index.
Proof using H.
  clear ND. intros ps c L. apply nth_ext with (d := 0%Z) (d' := 0%Z); [rewrite map_length; apply marks0_length; auto|].
  intros i Hi. rewrite map_length, (marks0_length ps c L) in Hi. destruct (marks0_nth ps c i L Hi) as [m [M [[S1 _] _]]].
  rewrite <- S1. apply nth_error_nth. rewrite nth_error_map, M. reflexivity.
Qed.

(** The painted frame: every row shown, with the colour of its class. *)
Definition colour_at (colors : palette) (crit : Q) (ps : list Q) (g : list mark) : Prop :=
  List.length g = List.length index /\ map mk_id g = index /\
  forall i m, nth_error g i = Some m -> Shows f index ps i m /\
    exists k, Class f delta tau crit ps i k /\ dict_get colors (key_of k) = Ok (mk_color m).
Lemma class_fun : forall crit ps i k k', Class f delta tau crit ps i k -> Class f delta tau crit ps i k' -> k = k'.
Proof using.
  clear. intros crit ps i [] [] A B; cbn [Class] in *; try reflexivity; exfalso; try tauto.
  - destruct A as [_ [j [X Y]]]. destruct B as [_ B]. apply (B j X Y).
  - destruct B as [_ [j [X Y]]]. destruct A as [_ A]. apply (A j X Y).
Qed.

Lemma paint_ok : forall colors crit inf ps, complete colors -> Used o inf ps ->
  exists g, paint o colors crit inf = Ok g /\ colour_at colors crit ps g.
Proof using HB H ND.
  intros colors crit inf ps C U. pose proof (used_length _ _ U) as L.
  destruct (C Nonsig) as [non CN]. destruct (C Neighbor) as [nb CB]. destruct (C Focal) as [fo CF]. cbn [key_of] in *.
  unfold paint. rewrite CN. cbn [bind]. rewrite (proj2 (used_iff o inf ps) U). cbn [bind]. rewrite CB. cbn [bind].
  fold (marks0 ps non). set (g0 := marks0 ps non).
  set (mask := map mk_id (filter (fun m => Qle_bool (mk_p m) crit) g0)).
  set (nbs := nodup Z.eq_dec _).
  assert (MK : forall z, In z mask <-> exists i, (i < List.length index)%nat /\ z = nth i index 0%Z /\ nth i ps 0 <= crit).
  { intro z. unfold mask. rewrite in_map_iff. split.
    - intros [m [E X]]. apply filter_In in X. destruct X as [X P]. apply In_nth_error in X. destruct X as [i X].
      assert (Hi : (i < List.length index)%nat) by (rewrite <- (marks0_length ps non L); apply nth_error_Some; fold g0; congruence).
      destruct (marks0_nth ps non i L Hi) as [m' [M [[S1 [_ S3]] _]]]. unfold g0 in X. rewrite M in X. injection X as ->.
      exists i. split; [auto|]. split; [congruence|]. rewrite <- S3. apply Qle_bool_iff; auto.
    - intros [i [Hi [-> P]]]. destruct (marks0_nth ps non i L Hi) as [m [M [[S1 [_ S3]] _]]]. exists m. split; [auto|].
      apply filter_In. split; [apply nth_error_In in M; exact M|]. rewrite S3. apply Qle_bool_iff; auto. }
  assert (NB : forall z, In z nbs <-> exists w, In w mask /\ Adj (kl_adj o) w z).
  { intro z. unfold nbs. rewrite nodup_In, in_map_iff. split.
    - intros [[[a b] or] [E X]]. cbn in E. subst b. apply filter_In in X. cbn in X. rewrite zmem_iff in X. exists a. split; [tauto|]. exists or. tauto.
    - intros [w [W [or X]]]. exists (w, z, or). split; [reflexivity|]. apply filter_In. split; [auto|]. cbn. apply zmem_iff. auto. }
  unfold set_labels. rewrite (marks0_ids ps non L : map mk_id g0 = index).
  assert (FB : forallb (fun z => zmem z index) nbs = true).
  { apply forallb_forall. intros z Z0. apply zmem_iff. apply NB in Z0. destruct Z0 as [w [_ W]].
    destruct (adj_labels _ _ W) as [i [j [Hi [Hj [_ ->]]]]]. apply nth_In. auto. }
  rewrite FB. cbn [bind]. rewrite CF. cbn [bind]. eexists. split; [reflexivity|].
  unfold set_significant. rewrite map_map. set (fn := fun m : mark => _).
  assert (KEEP : forall m, mk_id (fn m) = mk_id m /\ mk_at (fn m) = mk_at m /\ mk_time (fn m) = mk_time m /\ mk_p (fn m) = mk_p m).
  { intro m. unfold fn. destruct (zmem (mk_id m) nbs); destruct (Qle_bool _ _); cbn; auto. }
  split; [rewrite map_length; apply (marks0_length ps non L)|]. split.
  { rewrite map_map. transitivity (map mk_id g0); [apply map_ext; intro m; apply KEEP|apply (marks0_ids ps non L)]. }
  intros i m X. rewrite nth_error_map in X.
  destruct (nth_error g0 i) as [m0|] eqn:E; cbn in X; [|discriminate]. injection X as <-.
  assert (Hi : (i < List.length index)%nat) by (rewrite <- (marks0_length ps non L); apply nth_error_Some; fold g0; congruence).
  destruct (marks0_nth ps non i L Hi) as [m' [M [[S1 [S2 S3]] S4]]]. unfold g0 in E. rewrite M in E. injection E as ->.
  destruct (KEEP m0) as [K1 [K2 [K3 K4]]]. split.
  { unfold Shows. rewrite K1, K2, K3, K4. auto. }
  assert (NC : In (nth i index 0%Z) nbs <-> exists j, FNear f delta tau i j /\ nth j ps 0 <= crit).
  { rewrite NB. split.
    - intros [w [W A]]. apply MK in W. destruct W as [j [Hj [-> P]]]. exists j. split; [|auto]. apply near_sym. apply frame_adj; auto.
    - intros [j [N P]]. destruct (near_bounds _ _ N) as [_ Hj]. exists (nth j index 0%Z). split; [apply MK; exists j; auto|].
      apply frame_adj; auto. apply near_sym; auto. }
  unfold fn. rewrite S1. destruct (zmem (nth i index 0%Z) nbs) eqn:Z0; unfold recolor at 1; cbn [mk_p]; rewrite ?S3;
    destruct (Qle_bool (nth i ps 0) crit) eqn:P; cbn [recolor mk_color mk_p].
  - exists Focal. split; [apply Qle_bool_iff; auto|exact CF].
  - exists Neighbor. split; [|exact CB]. split; [rewrite <- Qle_bool_iff; congruence|]. apply NC, zmem_iff. auto.
  - exists Focal. split; [apply Qle_bool_iff; auto|exact CF].
  - exists Nonsig. rewrite S4. split; [|exact CN]. split; [rewrite <- Qle_bool_iff; congruence|]. intros j N J.
    assert (X : In (nth i index 0%Z) nbs) by (apply NC; exists j; auto). apply zmem_iff in X. congruence.
Qed.

(** ** The lines *)
Lemma at_one : forall g z, map mk_id g = index -> In z index -> List.length (map mk_at (filter (fun m => Z.eqb (mk_id m) z) g)) = 1%nat.
Proof using ND.
  clear H HB. revert ND. induction index as [|a l IH]; intros N g z E Z0; [destruct Z0|]. destruct g as [|m g]; [discriminate|]. cbn [map] in E. injection E as E1 E2.
  inversion N as [|? ? N1 N2]; subst. cbn [filter]. destruct (Z.eqb_spec (mk_id m) z) as [E|E].
  - cbn [map List.length]. f_equal. subst z. clear - N1. induction g as [|b g IH]; [reflexivity|]. cbn [filter map]. cbn [map] in N1.
    destruct (Z.eqb_spec (mk_id b) (mk_id m)) as [E|E]; [exfalso; apply N1; left; auto|]. apply IH. intro X. apply N1. right; auto.
  - apply (IH N2); auto. destruct Z0 as [X|X]; [contradiction|auto].
Qed.
Lemma at_labels_length : forall g labels, map mk_id g = index -> Forall (fun z => In z index) labels ->
  List.length (at_labels g labels) = List.length labels.
Proof using ND.
  clear H HB. intros g labels E F. induction F as [|z labels Z0 F IH]; [reflexivity|]. unfold at_labels in *. cbn [flat_map List.length].
  rewrite app_length, (at_one g z E Z0), IH. reflexivity.
Qed.
Lemma edge_lines_ok : forall components crit inf g, inf <> OtherInference -> map mk_id g = index ->
  exists lines, edge_lines components o crit inf g = Ok lines.
Proof using HB H ND.
  intros components crit inf g IN E. unfold edge_lines.
  destruct (kl_hotspots components o (Some crit) inf true) as [rows|x] eqn:HS; cbn [bind].
  2:{ exfalso. unfold kl_hotspots in HS. destruct inf; cbn [choose_p bind] in HS; try discriminate. congruence. }
  destruct (C111_hotspots ball HB _ _ _ _ _ _ _ _ _ _ _ _ _ ND H HS) as [ps [sel [LP [_ [_ [_ [_ [SI F]]]]]]]].
  assert (A : Forall (fun e => In (fst e) index /\ In (snd e) index) (full_rows rows)).
  { assert (SI' : forall i, In i sel -> (i < List.length index)%nat) by (intros i X; apply SI in X; tauto). clear SI HS.
    unfold full_rows. induction F as [|i r sel' rows' [_ [n [c [E1 M]]]] F IH]; [constructor|]. cbn [flat_map]. apply Forall_app. split.
    - rewrite E1. cbn [fst snd]. destruct n as [[b or]|]; [|constructor]. constructor; [|constructor]. cbn [fst snd row_id].
      unfold row_id. cbn [fst snd]. destruct M as [j [_ [J _]]]. split; [apply nth_In; apply SI'; left; auto|]. apply nth_error_In in J. auto.
    - apply IH. intros i' X; apply SI'; right; auto. }
  rewrite !at_labels_length; auto.
  - rewrite !map_length, Nat.eqb_refl. eexists. reflexivity.
  - rewrite Forall_map. eapply Forall_impl; [|exact A]. intros e [X Y]; assumption.
  - rewrite Forall_map. eapply Forall_impl; [|exact A]. intros e [X Y]; assumption.
Qed.

Lemma sorted_pairs : forall (adj : list (nat * nat * orientation)) i, NoDup (map fst adj) -> StronglySorted ple (map fst adj) ->
  StronglySorted lt (map (fun r => snd (fst r)) (filter (fun r => Nat.eqb (fst (fst r)) i) adj)).
Proof using.
  clear. intros adj i. induction adj as [|[[a b] or] adj IH]; intros N SS; [constructor|]. cbn [map] in N, SS. inversion N as [|? ? N1 N2]; subst. inversion SS as [|? ? SS1 SS2]; subst.
  cbn [filter fst]. destruct (Nat.eqb_spec a i) as [->|E]; [|auto]. cbn [map snd fst]. constructor; [auto|].
  rewrite Forall_forall. intros j J. apply in_map_iff in J. destruct J as [[[a' b'] or'] [J1 J2]]. cbn in J1. subst b'. apply filter_In in J2. cbn in J2.
  destruct J2 as [J2 J3]. apply Nat.eqb_eq in J3. subst a'. rewrite Forall_forall in SS2. assert (X : In (i, j) (map fst adj)) by (apply (in_map fst) in J2; exact J2).
  pose proof (SS2 _ X) as P. unfold ple in P. cbn in P. assert (b <> j) by (intro; subst; contradiction). lia.
Qed.
Lemma close_labels : forall i, (i < List.length index)%nat -> CloseLabels f delta tau index i (lookup_list (kl_adj o) (nth i index 0%Z)).
Proof using HB H ND.
  intros i Hi. destruct (frame_inv _ _ _ _ _ _ _ _ _ H) as [pts [l [G [L1 [L2 [K [_ [AD _]]]]]]]].
  destruct (C70_adjlist ball HB _ _ _ _ _ _ _ K) as [A [_ [NDA [SA _]]]].
  exists (map (fun r => snd (fst r)) (filter (fun r => Nat.eqb (fst (fst r)) i) (l_adj l))). split; [apply sorted_pairs; auto|]. split.
  - intro j. rewrite in_map_iff. split.
    + intros [[[a b] or] [E X]]. cbn in E. subst b. apply filter_In in X. cbn in X. destruct X as [X1 X2]. apply Nat.eqb_eq in X2. subst a.
      assert (Y : exists o, In (i, j, o) (l_adj l)) by eauto. apply A in Y. apply (near_frame f pts); auto; [lia|tauto].
    + intro X. apply (near_frame f pts) in X; auto; [|lia]. assert (Y : exists o, In (i, j, o) (l_adj l)).
      { apply A. split; [rewrite map_length; lia|auto]. } destruct Y as [or Y]. exists (i, j, or). split; [reflexivity|]. apply filter_In. split; [auto|]. cbn. apply Nat.eqb_refl.
  - unfold lookup_list. rewrite AD. unfold relabel_adj.
    assert (B : forall r, In r (l_adj l) -> (fst (fst r) < List.length index)%nat).
    { intros [[a b] or] X. assert (Y : exists o, In (a, b, o) (l_adj l)) by eauto. apply A in Y. rewrite map_length in Y. cbn. lia. }
    assert (E : filter (fun r : Z * Z * orientation => Z.eqb (fst (fst r)) (nth i index 0%Z))
                  (map (fun r : nat * nat * orientation => (nth (fst (fst r)) index 0%Z, nth (snd (fst r)) index 0%Z, snd r)) (l_adj l)) =
                map (fun r : nat * nat * orientation => (nth (fst (fst r)) index 0%Z, nth (snd (fst r)) index 0%Z, snd r))
                  (filter (fun r => Nat.eqb (fst (fst r)) i) (l_adj l))).
    { clear - B Hi ND. induction (l_adj l) as [|r t IH]; [reflexivity|]. cbn [map filter fst snd].
      rewrite IH by (intros x X; apply B; right; auto).
      assert (Q : Z.eqb (nth (fst (fst r)) index 0%Z) (nth i index 0%Z) = Nat.eqb (fst (fst r)) i).
      { apply eq_true_iff_eq. rewrite Z.eqb_eq, Nat.eqb_eq. split; [|intros ->; reflexivity]. intro X. apply (proj1 (NoDup_nth index 0%Z) ND); auto. apply B. left; auto. }
      rewrite Q. destruct (Nat.eqb _ _); reflexivity. }
    rewrite E. destruct (filter (fun r => Nat.eqb (fst (fst r)) i) (l_adj l)) as [|r t]; [reflexivity|].
    cbn [map]. rewrite !map_map. reflexivity.
Qed.

(** ** Layers *)
Lemma layer_exact : forall (A : Type) (fm : A -> mark) (show : nat -> A -> Prop) colors crit ps (g : list A) c,
  colour_at colors crit ps (map fm g) -> (forall i a, nth_error g i = Some a -> show i a) ->
  Exactly show (List.length index) (Colored f delta tau crit ps colors c) (with_color fm c g).
Proof using.
  clear. intros A fm show colors crit ps g c [L [_ CA]] SH. rewrite map_length in L. unfold with_color.
  destruct (filter_sel A (fun m => String.eqb (mk_color (fm m)) c) g) as [sel [SS [I F]]].
  exists sel. split; [auto|]. split.
  - intro i. rewrite I. split.
    + intros [m [M E]]. apply String.eqb_eq in E. split; [rewrite <- L; apply nth_error_Some; congruence|].
      destruct (CA i (fm m)) as [_ [k [K1 K2]]]; [rewrite nth_error_map, M; reflexivity|]. exists k. rewrite E in K2. auto.
    + intros [Hi [k [K1 K2]]]. rewrite <- L in Hi. destruct (nth_error g i) as [m|] eqn:M; [|apply nth_error_None in M; lia].
      exists m. split; [auto|]. destruct (CA i (fm m)) as [_ [k' [K1' K2']]]; [rewrite nth_error_map, M; reflexivity|].
      rewrite (class_fun _ _ _ _ _ K1' K1) in K2'. apply String.eqb_eq. congruence.
  - clear - F SH. induction F; constructor; auto.
Qed.
End Frame.
