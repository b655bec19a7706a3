(** Theorems about the drawings of local Knox statistics. *)
From Coq Require Import ZArith QArith List Bool Arith Lia String Sorting.Sorted.
From Verif Require Import Base BaseLemmas Spec Spacetime_model Spacetime_spec Spacetime_props KnoxLocal_props Hotspot_props
  KnoxObj_model KnoxObj_props Explore_model Explore_spec Explore_proofs.
Import ListNotations.
Local Open Scope Q_scope.

Lemma get_cases : forall d k, (exists c, dict_get d k = Ok c) \/ dict_get d k = Raise KeyError.
Proof.
  intros d k. induction d as [|[k' v] d IH]; [right; reflexivity|]. cbn [dict_get]. destruct (String.eqb k k'); [left; eexists; reflexivity|exact IH].
Qed.
Lemma complete_dec : forall d, complete d \/ ~ complete d.
Proof.
  intro d. destruct (get_cases d "nonsig") as [[a A]|A]; [|right; intro C; destruct (C Nonsig) as [c X]; cbn in X; congruence].
  destruct (get_cases d "neighbor") as [[b B]|B]; [|right; intro C; destruct (C Neighbor) as [c X]; cbn in X; congruence].
  destruct (get_cases d "focal") as [[c Cc]|Cc]; [|right; intro C; destruct (C Focal) as [e X]; cbn in X; congruence].
  left. intros []; cbn [key_of]; eauto.
Qed.
Lemma used_ex : forall o inf, inf <> OtherInference -> exists ps, Used o inf ps.
Proof. intros o [] I; cbn [Used]; [destruct (kl_p_sims o)| |]; try (eexists; reflexivity). congruence. Qed.

(** When a drawing is made. *)
Theorem C125_total : forall ball, Ball ball -> forall components f index delta tau gperms perms keep o colors crit inf edges,
  NoDup index -> kl_from_frame ball f index delta tau gperms perms keep = Ok o ->
  let plot := kl_plot components o colors crit inf edges in
  let explore := kl_explore components o colors crit inf edges in
  (complete colors -> inf <> OtherInference -> exists p e, plot = Ok p /\ explore = Ok e) /\
  (dict_get colors "nonsig" = Raise KeyError -> plot = Raise KeyError /\ explore = Raise KeyError) /\
  (dict_get colors "nonsig" <> Raise KeyError -> inf = OtherInference -> plot = Raise ValueError /\ explore = Raise ValueError) /\
  (dict_get colors "nonsig" <> Raise KeyError -> inf <> OtherInference -> ~ complete colors -> plot = Raise KeyError /\ explore = Raise KeyError).
Proof.
  intros ball HB components f index delta tau gperms perms keep o colors crit inf edges ND H plot explore. subst plot explore.
  split; [|split; [|split]].
  - intros C IN. destruct (used_ex o inf IN) as [ps U]. destruct (paint_ok ball HB _ _ _ _ _ _ _ _ ND H colors crit inf ps C U) as [g [P [L [E _]]]].
    destruct (C Nonsig) as [non CN]. destruct (C Neighbor) as [nb CB]. destruct (C Focal) as [fo CF]. cbn [key_of] in *.
    destruct (edge_lines_ok ball HB _ _ _ _ _ _ _ _ ND H components crit inf g IN E) as [l1 X1].
    unfold kl_plot, kl_explore. rewrite P. cbn [bind]. rewrite CN, CB, CF. cbn [bind]. rewrite left_merge_map, map_map. cbn [fst]. rewrite map_id, X1.
    unfold when. destruct edges; cbn [bind]; eauto.
  - intro N. unfold kl_plot, kl_explore, paint. rewrite N. auto.
  - intros N ->. destruct (get_cases colors "nonsig") as [[c X]|X]; [|contradiction]. unfold kl_plot, kl_explore, paint. rewrite X. auto.
  - intros N IN NC. destruct (get_cases colors "nonsig") as [[c X]|X]; [|contradiction]. destruct (used_ex o inf IN) as [ps U]. apply used_iff in U.
    assert (P : paint o colors crit inf = Raise KeyError).
    { unfold paint. rewrite X. cbn [bind]. rewrite U. cbn [bind].
      destruct (get_cases colors "neighbor") as [[b B]|B]; rewrite B; cbn [bind]; [|reflexivity]. unfold set_labels.
      destruct (forallb _ _); cbn [bind]; [|reflexivity]. destruct (get_cases colors "focal") as [[e F]|F]; rewrite F; cbn [bind]; [|reflexivity].
      exfalso. apply NC. intros []; cbn [key_of]; eauto. }
    unfold kl_plot, kl_explore. rewrite P. auto.
Qed.
Print Assumptions C125_total.

Lemma plot_complete : forall ball, Ball ball -> forall components f index delta tau gperms perms keep o colors crit inf edges p,
  NoDup index -> kl_from_frame ball f index delta tau gperms perms keep = Ok o ->
  kl_plot components o colors crit inf edges = Ok p \/ (exists e, kl_explore components o colors crit inf edges = Ok e) -> complete colors /\ inf <> OtherInference.
Proof.
  intros ball HB components f index delta tau gperms perms keep o colors crit inf edges p ND H P.
  destruct (C125_total ball HB components _ _ _ _ _ _ _ _ colors crit inf edges ND H) as [_ [T2 [T3 T4]]]. cbn zeta in *.
  destruct (get_cases colors "nonsig") as [[c X]|X].
  2:{ destruct (T2 X) as [A B]. destruct P as [P|[e P]]; congruence. }
  assert (N : dict_get colors "nonsig" <> Raise KeyError) by congruence.
  assert (IN : inf <> OtherInference).
  { intro I0. destruct (T3 N I0) as [A B]. destruct P as [P|[e P]]; congruence. }
  split; [|auto]. destruct (complete_dec colors) as [C|C]; [auto|]. destruct (T4 N IN C) as [A B]. destruct P as [P|[e P]]; congruence.
Qed.

(** plot draws three layers; the layer of a colour shows exactly the rows whose class has that colour. *)
Theorem C125_plot : forall ball, Ball ball -> forall components f index delta tau gperms perms keep o colors crit inf edges p,
  NoDup index -> kl_from_frame ball f index delta tau gperms perms keep = Ok o ->
  kl_plot components o colors crit inf edges = Ok p ->
  exists ps, Used o inf ps /\ List.length ps = List.length index /\
    Forall2 (fun k ly => dict_get colors (key_of k) = Ok (fst ly) /\
      Exactly (Shows f index ps) (List.length index) (Colored f delta tau crit ps colors (fst ly)) (snd ly))
      [Nonsig; Neighbor; Focal] (po_layers p).
Proof.
  intros ball HB components f index delta tau gperms perms keep o colors crit inf edges p ND H P.
  destruct (plot_complete ball HB components _ _ _ _ _ _ _ _ colors crit inf edges p ND H (or_introl P)) as [C IN].
  destruct (used_ex o inf IN) as [ps U]. destruct (paint_ok ball HB _ _ _ _ _ _ _ _ ND H colors crit inf ps C U) as [g [PG CA]].
  pose proof (used_length ball HB _ _ _ _ _ _ _ _ H _ _ U) as L. exists ps. split; [auto|]. split; [auto|].
  destruct (C Nonsig) as [non CN]. destruct (C Neighbor) as [nb CB]. destruct (C Focal) as [fo CF]. cbn [key_of] in *.
  unfold kl_plot in P. rewrite PG in P. cbn [bind] in P. rewrite CN, CB, CF in P. cbn [bind] in P.
  destruct (when edges _); cbn [bind] in P; [|discriminate]. injection P as <-. cbn [po_layers].
  assert (LY : forall c, Exactly (Shows f index ps) (List.length index) (Colored f delta tau crit ps colors c) (with_color (fun m => m) c g)).
  { intro c. apply layer_exact; [rewrite map_id; exact CA|]. intros i m M. destruct CA as [_ [_ CA]]. apply (CA i m M). }
  repeat constructor; cbn [fst snd key_of]; auto.
Qed.
Print Assumptions C125_plot.

Lemma forall2_mono : forall (A B : Type) (P Q : A -> B -> Prop) l m, (forall a b, P a b -> Q a b) -> Forall2 P l m -> Forall2 Q l m.
Proof. intros A B P Q l m X F. induction F; constructor; auto. Qed.
(** With three different colours every row is in the one layer of its class. *)
Theorem C125_distinct : forall ball, Ball ball -> forall components f index delta tau gperms perms keep o colors crit inf edges p,
  NoDup index -> kl_from_frame ball f index delta tau gperms perms keep = Ok o -> distinct_colors colors ->
  kl_plot components o colors crit inf edges = Ok p ->
  exists ps, Used o inf ps /\ List.length ps = List.length index /\
    Forall2 (fun k ly => dict_get colors (key_of k) = Ok (fst ly) /\
      Exactly (Shows f index ps) (List.length index) (fun i => Class f delta tau crit ps i k) (snd ly))
      [Nonsig; Neighbor; Focal] (po_layers p).
Proof.
  intros ball HB components f index delta tau gperms perms keep o colors crit inf edges p ND H DC P.
  destruct (C125_plot ball HB components _ _ _ _ _ _ _ _ colors crit inf edges p ND H P) as [ps [U [L F]]].
  exists ps. split; [auto|]. split; [auto|]. eapply forall2_mono; [|exact F]. intros k [c ms] [G [sel [SS [I E]]]]. cbn [fst snd] in *. split; [auto|].
  exists sel. split; [auto|]. split; [|auto]. intro i. rewrite I. split; intros [Hi X]; split; auto.
  - destruct X as [k' [X1 X2]]. rewrite (DC k k' c G X2). exact X1.
  - exists k. auto.
Qed.
Print Assumptions C125_distinct.

(** explore draws the same rows; every mark carries the labels of the close rows. *)
Theorem C125_explore : forall ball, Ball ball -> forall components f index delta tau gperms perms keep o colors crit inf edges e,
  NoDup index -> kl_from_frame ball f index delta tau gperms perms keep = Ok o ->
  kl_explore components o colors crit inf edges = Ok e ->
  exists ps non nb fo L0 L1 L2, Used o inf ps /\ List.length ps = List.length index /\
    dict_get colors "nonsig" = Ok non /\ dict_get colors "neighbor" = Ok nb /\ dict_get colors "focal" = Ok fo /\
    (let show i a := Shows f index ps i (fst a) /\ CloseLabels f delta tau index i (snd a) in
     Exactly show (List.length index) (Colored f delta tau crit ps colors non) L0 /\
     Exactly show (List.length index) (Colored f delta tau crit ps colors nb) L1 /\
     Exactly show (List.length index) (Colored f delta tau crit ps colors fo) L2) /\
    mo_layers e = ([("grey"%string, L0)] ++ (if mo_warned e then [] else [(nb, L1)]) ++ [(fo, L2)])%list /\
    (mo_warned e = true <-> L1 = []).
Proof.
  intros ball HB components f index delta tau gperms perms keep o colors crit inf edges e ND H P.
  destruct (plot_complete ball HB components _ _ _ _ _ _ _ _ colors crit inf edges (mkplot [] None) ND H (or_intror (ex_intro _ e P))) as [C IN].
  destruct (used_ex o inf IN) as [ps U]. destruct (paint_ok ball HB _ _ _ _ _ _ _ _ ND H colors crit inf ps C U) as [g [PG CA]].
  pose proof (used_length ball HB _ _ _ _ _ _ _ _ H _ _ U) as L.
  destruct (C Nonsig) as [non CN]. destruct (C Neighbor) as [nb CB]. destruct (C Focal) as [fo CF]. cbn [key_of] in *.
  unfold kl_explore in P. rewrite PG in P. cbn [bind] in P. rewrite CN, CB, CF in P. cbn [bind] in P. rewrite left_merge_map in P.
  set (gm := map (fun m => (m, lookup_list (kl_adj o) (mk_id m))) g) in *.
  exists ps, non, nb, fo, (with_color fst non gm), (with_color fst nb gm), (with_color fst fo gm).
  split; [auto|]. split; [auto|]. split; [auto|]. split; [auto|]. split; [auto|]. split.
  - assert (ME : map fst gm = g) by (unfold gm; rewrite map_map; apply map_id).
    assert (SH : forall i a, nth_error gm i = Some a -> Shows f index ps i (fst a) /\ CloseLabels f delta tau index i (snd a)).
    { intros i a X. assert (X' : nth_error g i = Some (fst a)) by (rewrite <- ME, nth_error_map, X; reflexivity).
      destruct CA as [LG [_ CA]]. destruct (CA i (fst a) X') as [S0 _]. split; [exact S0|]. unfold gm in X. rewrite nth_error_map, X' in X. cbn in X. injection X as <-.
      cbn [snd]. destruct S0 as [S0 _]. cbn [fst] in S0. rewrite S0. apply (close_labels ball HB _ _ _ _ gperms perms keep); auto. rewrite <- LG. apply nth_error_Some. congruence. }
    cbn zeta. split; [|split]; apply layer_exact; auto; rewrite ME; exact CA.
  - destruct (when edges _); cbn [bind] in P; [|discriminate]. injection P as <-. cbn [mo_layers mo_warned].
    destruct (with_color fst nb gm); cbn [app]; split; try reflexivity; split; intro; congruence.
Qed.
Print Assumptions C125_explore.

(** ** The lines *)
Lemma at_loc : forall (g : list mark) (h : list (Z * (Q * Q) * Q)) labels,
  map (fun m => (mk_id m, mk_at m)) g = map fst h -> at_labels g labels = loc h labels.
Proof.
  intros g h labels E. unfold at_labels, loc. apply flat_map_ext. intro z. revert h E. induction g as [|m g IH]; intros [|e h] E; try discriminate; [reflexivity|].
  cbn [map] in E. injection E as E1 E2. cbn [filter]. rewrite <- E1. cbn [fst]. destruct (Z.eqb (mk_id m) z); cbn [map]; rewrite (IH h E2); [|reflexivity].
  rewrite <- E1. reflexivity.
Qed.
Theorem C125_lines : forall ball, Ball ball -> forall components f index delta tau gperms perms keep o colors crit inf p e,
  NoDup index -> kl_from_frame ball f index delta tau gperms perms keep = Ok o ->
  kl_plot components o colors crit inf true = Ok p -> kl_explore components o colors crit inf true = Ok e ->
  exists rows lines, kl_hotspots components o (Some crit) inf true = Ok rows /\ plot_lines o rows = Ok lines /\
    po_lines p = Some lines /\ mo_lines e = Some lines.
Proof.
  intros ball HB components f index delta tau gperms perms keep o colors crit inf p e ND H P E.
  destruct (plot_complete ball HB components _ _ _ _ _ _ _ _ colors crit inf true p ND H (or_introl P)) as [C IN].
  destruct (used_ex o inf IN) as [ps U]. destruct (paint_ok ball HB _ _ _ _ _ _ _ _ ND H colors crit inf ps C U) as [g [PG CA]].
  destruct (C Nonsig) as [non CN]. destruct (C Neighbor) as [nb CB]. destruct (C Focal) as [fo CF]. cbn [key_of] in *.
  unfold kl_plot in P. unfold kl_explore in E. rewrite PG in P, E. cbn [bind] in P, E. rewrite CN, CB, CF in P, E. cbn [bind] in P, E. rewrite left_merge_map, map_map in E. cbn [fst] in E.
  rewrite map_id in E. destruct (edge_lines components o crit inf g) as [lines|] eqn:EL; cbn [when bind] in P, E; [|discriminate].
  injection P as <-. injection E as <-. cbn [po_lines mo_lines]. unfold edge_lines in EL.
  destruct (kl_hotspots components o (Some crit) inf true) as [rows|] eqn:HS; cbn [bind] in EL; [|discriminate].
  exists rows, lines. split; [reflexivity|]. split; [|auto]. unfold plot_lines.
  assert (M : map (fun m => (mk_id m, mk_at m)) g = map fst (kl_gdf o)).
  { destruct CA as [LG [_ CA]]. destruct (frame_inv _ _ _ _ _ _ _ _ _ H) as [pts [l [G [L1 [L2 [_ [_ [_ [_ [_ [GD _]]]]]]]]]]]. rewrite GD.
    apply nth_ext with (d := (0%Z, (0, 0))) (d' := (0%Z, (0, 0))); [rewrite !map_length, !combine_length; lia|]. intros i Hi. rewrite map_length in Hi.
    destruct (nth_error g i) as [m|] eqn:Em; [|apply nth_error_None in Em; lia].
    destruct (nth_error (combine (combine index pts) (f_times f)) i) as [x|] eqn:Ex; [|apply nth_error_None in Ex; rewrite !combine_length in Ex; lia].
    rewrite (nth_error_nth (map (fun m => (mk_id m, mk_at m)) g) i (x := (mk_id m, mk_at m))) by (rewrite nth_error_map, Em; reflexivity).
    rewrite (nth_error_nth (map fst (combine (combine index pts) (f_times f))) i (x := fst x)) by (rewrite nth_error_map, Ex; reflexivity).
    destruct (gdf_nth _ _ _ _ _ Ex L1 L2) as [_ [X1 [X2 _]]]. destruct (CA i m Em) as [[S1 [[S2 _] _]] _].
    destruct x as [[z q] tt]. cbn [fst snd] in *. rewrite S1, X1. f_equal. rewrite G, nth_error_map, X2 in S2. cbn in S2. injection S2 as ->. destruct (mk_at m); reflexivity. }
  rewrite <- !(at_loc g _ _ M). exact EL.
Qed.
Print Assumptions C125_lines.

(** ** The layers and the table of hot spots *)
Lemma sorted_eq : forall l l' : list nat, StronglySorted lt l -> StronglySorted lt l' -> (forall i, In i l <-> In i l') -> l = l'.
Proof.
  induction l as [|a l IH]; intros [|b l'] A B E; [reflexivity| | |].
  - exfalso. apply (proj2 (E b)). left; auto.
  - exfalso. apply (proj1 (E a)). left; auto.
  - inversion A as [|? ? A1 A2]; subst. inversion B as [|? ? B1 B2]; subst. rewrite Forall_forall in A2, B2.
    assert (a = b).
    { destruct (proj1 (E a) (or_introl eq_refl)) as [X|X]; [auto|]. destruct (proj2 (E b) (or_introl eq_refl)) as [Y|Y]; [auto|]. apply B2 in X. apply A2 in Y. lia. }
    subst b. f_equal. apply IH; auto. intro i. split; intro X.
    + destruct (proj1 (E i) (or_intror X)) as [Y|Y]; [|auto]. subst i. apply A2 in X. lia.
    + destruct (proj2 (E i) (or_intror X)) as [Y|Y]; [|auto]. subst i. apply B2 in X. lia.
Qed.
Lemma same_ps : forall ball, Ball ball -> forall f index delta tau gperms perms keep o inf ps ps',
  kl_from_frame ball f index delta tau gperms perms keep = Ok o -> List.length gperms = List.length perms ->
  Used o inf ps -> (inf = Analytic \/ perms = [] -> ps' = kl_p_hg o) -> (inf = Permutation_ -> gperms <> [] -> perms <> [] -> kl_p_sims o = Some ps') -> ps' = ps.
Proof.
  intros ball HB f index delta tau gperms perms keep o inf ps ps' H L U A B.
  destruct (frame_inv _ _ _ _ _ _ _ _ _ H) as [pts [l [G [L1 [L2 [K [_ [AD [PH [PS _]]]]]]]]]].
  destruct (local_inv _ _ _ _ _ _ _ _ K) as [_ [_ [_ [PS' _]]]]. destruct inf; cbn [Used] in U; [|rewrite U; auto|destruct U].
  destruct perms as [|p perms]; [rewrite PS, PS' in U; rewrite U; auto|]. destruct gperms as [|q gperms]; [discriminate|].
  rewrite B in U by (auto; discriminate). auto.
Qed.
Theorem C125_table : forall ball, Ball ball -> forall components f index delta tau gperms perms keep o colors crit inf edges p r0 r1 l0 l1 l2,
  NoDup index -> kl_from_frame ball f index delta tau gperms perms keep = Ok o -> distinct_colors colors -> List.length gperms = List.length perms ->
  kl_plot components o colors crit inf edges = Ok p -> po_layers p = [l0; l1; l2] ->
  kl_hotspots components o (Some crit) inf false = Ok r0 -> kl_hotspots components o (Some crit) inf true = Ok r1 ->
  map (fun r => (row_id (snd r), fst r)) r0 = map (fun m => (mk_id m, mk_at m)) (snd l2) /\
  (forall z q, In (z, q) (map (fun r => (row_id (snd r), fst r)) r1) <->
     In (z, q) (map (fun m => (mk_id m, mk_at m)) (snd l1)) \/ In (z, q) (map (fun m => (mk_id m, mk_at m)) (snd l2))).
Proof.
  intros ball HB components f index delta tau gperms perms keep o colors crit inf edges p r0 r1 l0 l1 l2 ND H DC LG P PL H0 H1.
  destruct (C125_distinct ball HB components _ _ _ _ _ _ _ _ colors crit inf edges p ND H DC P) as [ps [U [L F]]]. rewrite PL in F.
  inversion F as [|? ? ? ? _ F1]; subst. inversion F1 as [|? ? ? ? [_ [s1 [SS1 [I1 S1]]]] F2]; subst. inversion F2 as [|? ? ? ? [_ [s2 [SS2 [I2 S2]]]] _]; subst.
  destruct (C111_hotspots ball HB _ _ _ _ _ _ _ _ _ _ _ _ _ ND H H0) as [p0 [t0 [_ [_ [A0 [B0 [T0 [J0 R0]]]]]]]].
  destruct (C111_hotspots ball HB _ _ _ _ _ _ _ _ _ _ _ _ _ ND H H1) as [p1 [t1 [_ [_ [A1 [B1 [T1 [J1 R1]]]]]]]].
  rewrite (same_ps ball HB _ _ _ _ _ _ _ _ _ _ _ H LG U A0 B0) in *. rewrite (same_ps ball HB _ _ _ _ _ _ _ _ _ _ _ H LG U A1 B1) in *.
  assert (VR : forall sel rows, Forall2 (fun i r => At f i (fst (fst r)) (snd (fst r)) (nth i (f_times f) 0) /\
      exists n c, snd r = ((nth i index 0%Z, Some (nth i ps 0, nth i (f_times f) 0), n), c) /\
        match n with
        | Some (b, or) => exists j, FNear f delta tau i j /\ nth_error index j = Some b /\
            (nth i ps 0 <= crit \/ nth j ps 0 <= crit) /\
            (or = Lead <-> nth i (f_times f) 0 < nth j (f_times f) 0) /\ (or = Lag <-> nth j (f_times f) 0 < nth i (f_times f) 0)
        | None => forall j, ~ FNear f delta tau i j
        end) sel rows ->
      Forall2 (fun i zq => fst zq = nth i index 0%Z /\ nth_error (f_geoms f) i = Some (Some (snd zq))) sel (map (fun r : (Q * Q) * (merged * nat) => (row_id (snd r), fst r)) rows)).
  { intros sel rows X. induction X as [|i r sel rows [[X1 _] [n [c [E _]]]] X IH]; cbn [map]; constructor; auto.
    destruct r as [[x y] rc]. cbn [fst snd] in *. subst rc. split; [reflexivity|exact X1]. }
  assert (VM : forall sel ms, Forall2 (Shows f index ps) sel ms ->
      Forall2 (fun i zq => fst zq = nth i index 0%Z /\ nth_error (f_geoms f) i = Some (Some (snd zq))) sel (map (fun m => (mk_id m, mk_at m)) ms)).
  { intros sel ms X. induction X as [|i m sel ms [X1 [[X2 _] _]] X IH]; cbn [map]; constructor; auto. cbn [fst snd]. split; [auto|]. destruct (mk_at m); exact X2. }
  assert (FU : forall sel (a b : list (Z * (Q * Q))),
      Forall2 (fun i zq => fst zq = nth i index 0%Z /\ nth_error (f_geoms f) i = Some (Some (snd zq))) sel a ->
      Forall2 (fun i zq => fst zq = nth i index 0%Z /\ nth_error (f_geoms f) i = Some (Some (snd zq))) sel b -> a = b).
  { intros sel a b X. revert b. induction X as [|i [z q] sel a [X1 X2] X IH]; intros b Y; inversion Y as [|? [z' q'] ? ? [Y1 Y2] Y3]; subst; [reflexivity|].
    cbn [fst snd] in *. rewrite (IH _ Y3). rewrite X1, Y1. f_equal. f_equal. congruence. }
  assert (IN : forall sel (a : list (Z * (Q * Q))) z q,
      Forall2 (fun i zq => fst zq = nth i index 0%Z /\ nth_error (f_geoms f) i = Some (Some (snd zq))) sel a ->
      (In (z, q) a <-> exists i, In i sel /\ z = nth i index 0%Z /\ nth_error (f_geoms f) i = Some (Some q))).
  { intros sel a z q X. induction X as [|i [z' q'] sel a [X1 X2] X IH].
    - split; [intros []|intros [i [[] _]]].
    - cbn [In fst snd] in *. rewrite IH. split.
      + intros [E|[j [Ja Jb]]]; [injection E as -> ->; exists i; auto|exists j; auto].
      + intros [j [[<-|Ja] [Jb Jc]]]; [left; f_equal; congruence|right; exists j; auto]. }
  split.
  - apply (FU t0); [apply VR; exact R0|]. replace t0 with s2; [apply VM; exact S2|]. apply sorted_eq; auto. intro i. rewrite I2, J0. cbn [Class]. split.
    + intros [Hi X]. auto.
    + intros [Hi [X|[X _]]]; [auto|discriminate].
  - intros z q. rewrite (IN t1 _ _ _ (VR _ _ R1)), (IN s1 _ _ _ (VM _ _ S1)), (IN s2 _ _ _ (VM _ _ S2)). split.
    + intros [i [X Y]]. apply J1 in X. destruct X as [Hi X]. destruct (Qlt_le_dec crit (nth i ps 0)) as [D|D].
      * left. exists i. split; [|auto]. apply I1. split; [auto|]. cbn [Class]. assert (ND' : ~ nth i ps 0 <= crit) by (apply Qlt_not_le; auto). destruct X as [X|[_ X]]; [contradiction|auto].
      * right. exists i. split; [|auto]. apply I2. split; auto.
    + intros [[i [X Y]]|[i [X Y]]]; exists i; (split; [|auto]); apply J1.
      * apply I1 in X. destruct X as [Hi [_ X]]. auto.
      * apply I2 in X. destruct X as [Hi X]. auto.
Qed.
Print Assumptions C125_table.

(** Finding: explore draws the rows of the class "nonsig" in grey, whatever the argument says. *)
Theorem C125_grey_refuted : forall components, exists o p e,
  kl_from_frame ball_up f_seven [7; 5; 3; 1; 0; 2; 4]%Z 1 1 [] [] false = Ok o /\
  (let colors := [("focal", "red"); ("neighbor", "yellow"); ("nonsig", "blue")]%string in
   kl_plot components o colors (5#100) Analytic false = Ok p /\ kl_explore components o colors (5#100) Analytic false = Ok e) /\
  map fst (po_layers p) = ["blue"; "yellow"; "red"]%string /\ map fst (mo_layers e) = ["grey"; "red"]%string /\
  map (fun l => map mk_id (snd l)) (po_layers p) = [[3; 1; 0; 2; 4]; []; [7; 5]]%Z /\
  map (fun l => map (fun a => (mk_id (fst a), snd a)) (snd l)) (mo_layers e) =
    [[(3, None); (1, None); (0, None); (2, None); (4, None)]; [(7, Some [5]); (5, Some [7])]]%Z.
Proof.
  intro components. match goal with |- exists o p e, ?h = _ /\ _ => let r := ok_value h in exists r end.
  cbn zeta. match goal with |- exists p e, _ /\ (?h = _ /\ _) /\ _ => let r := ok_value h in exists r end.
  match goal with |- exists e, _ /\ (_ /\ ?h = _) /\ _ => let r := ok_value h in exists r end.
  split; [vm_compute; reflexivity|]. split; [split; vm_compute; reflexivity|]. repeat split.
Qed.
Print Assumptions C125_grey_refuted.

(** Finding: with a repeated label a row close to no other row is drawn as a neighbour. *)
Theorem C125_duplicate_refuted : forall components, exists o p,
  kl_from_frame ball_up f_seven [0; 1; 1; 3; 4; 5; 6]%Z 1 1 [] [] false = Ok o /\
  kl_plot components o colors0 (5#100) Analytic false = Ok p /\
  map (fun l => (fst l, map mk_at (snd l))) (po_layers p) =
    [("grey", [(20, 0); (30, 0); (40, 0); (50, 0)]); ("yellow", [(10, 0)]); ("red", [(0, 0); (0, 1)])]%string /\
  kl_plot components o colors0 (5#100) Analytic true = Raise ValueError /\
  (forall j, ~ FNear f_seven 1 1 2 j).
Proof.
  intro components. match goal with |- exists o p, ?h = _ /\ _ => let r := ok_value h in exists r end.
  match goal with |- exists p, _ /\ ?h = _ /\ _ => let r := ok_value h in exists r end.
  split; [vm_compute; reflexivity|]. split; [vm_compute; reflexivity|]. split; [reflexivity|]. split; [vm_compute; reflexivity|].
  destruct (C111_duplicate_labels_refuted components) as [_ [_ [_ [_ [_ [X _]]]]]]. exact X.
Qed.
Print Assumptions C125_duplicate_refuted.

(** Three events, the middle one close to both others: the outer ones are neighbours of it. *)
Definition f_eight : frame := mkframe None
  (map Some [(0, 0); (0, 1); (0, 2); (20, 0); (30, 0); (40, 0); (50, 0); (60, 0)]) true [0; 1; 2; 20; 30; 40; 50; 60].
Example C125_case : exists o e, NoDup [7; 5; 3; 1; 0; 2; 4; 6]%Z /\
  kl_from_frame ball_up f_eight [7; 5; 3; 1; 0; 2; 4; 6]%Z 1 1 [] [] false = Ok o /\
  kl_explore labels1 o colors0 (5#100) Analytic true = Ok e /\
  map (fun l => (fst l, map (fun a => (mk_id (fst a), snd a)) (snd l))) (mo_layers e) =
    [("grey", [(1, None); (0, None); (2, None); (4, None); (6, None)]);
     ("yellow", [(7, Some [5]); (3, Some [5])]); ("red", [(5, Some [7; 3])])]%string%Z /\
  mo_warned e = false /\ mo_lines e = Some [((0, 0), (0, 1)); ((0, 1), (0, 0)); ((0, 2), (0, 1))].
Proof.
  match goal with |- exists o e, _ /\ ?h = _ /\ _ => let r := ok_value h in exists r end.
  match goal with |- exists e, _ /\ _ /\ ?h = _ /\ _ => let r := ok_value h in exists r end.
  split; [repeat constructor; cbn; intuition discriminate|]. repeat (split; [vm_compute; reflexivity|]). vm_compute. reflexivity.
Qed.
