(** Theorems about Knox and KnoxLocal objects built from data frames. *)
From Coq Require Import ZArith QArith List Bool Arith Lia Lqa String Sorting.Sorted.
From Verif Require Import Base BaseLemmas Spec Spacetime_model Spacetime_spec Spacetime_proofs Pairs_proofs Spacetime_props
  KnoxLocal_props Hotspot_props Spacetime3_props KnoxObj_model.
Import ListNotations.
Local Open Scope Q_scope.

(** ** Specification: closeness of two rows of a data frame. *)
Definition At (f : frame) (i : nat) (x y t : Q) : Prop :=
  nth_error (f_geoms f) i = Some (Some (x, y)) /\ nth_error (f_times f) i = Some t.
Definition FNear (f : frame) (delta tau : Q) (i j : nat) : Prop :=
  i <> j /\ 0 <= delta /\ 0 <= tau /\
  exists x y t x' y' t', At f i x y t /\ At f j x' y' t' /\
    (x - x') * (x - x') + (y - y') * (y - y') <= delta * delta /\ - tau <= t - t' <= tau.

Lemma sq_abs : forall tau d, 0 <= tau -> (d * d + 0 <= tau * tau <-> - tau <= d <= tau).
Proof. intros tau d H. split; intro X; [split|]; nra. Qed.

(** ** with_geometry *)
Lemma filter_unique : forall (rows : list (merged * nat)) z, NoDup (map row_id rows) ->
  (~ In z (map row_id rows) /\ filter (fun rc => Z.eqb (row_id rc) z) rows = []) \/
  (exists rc, In rc rows /\ row_id rc = z /\ filter (fun rc => Z.eqb (row_id rc) z) rows = [rc]).
Proof.
  induction rows as [|r rows IH]; intros z N; [left; split; [intros []|reflexivity]|]. cbn [map] in N. inversion N as [|? ? N1 N2]; subst.
  cbn [filter map]. destruct (Z.eqb_spec (row_id r) z) as [E|E].
  - right. exists r. split; [left; auto|]. split; [auto|]. f_equal. destruct (IH z N2) as [[_ X]|[rc [X [Y _]]]]; [auto|].
    exfalso. apply N1. rewrite E, <- Y. apply in_map; auto.
  - destruct (IH z N2) as [[X Y]|[rc [X [Y Z0]]]].
    + left. split; [|auto]. intros [W|W]; contradiction.
    + right. exists rc. split; [right; auto|]. auto.
Qed.
Lemma geometry_rows : forall rows, NoDup (map row_id rows) -> forall g,
  exists sel, StronglySorted lt sel /\
    (forall i, In i sel <-> exists e, nth_error g i = Some e /\ In (fst (fst e)) (map row_id rows)) /\
    Forall2 (fun i r => exists e, nth_error g i = Some e /\ fst r = snd (fst e) /\ row_id (snd r) = fst (fst e) /\ In (snd r) rows)
      sel (with_geometry g rows).
Proof.
  intros rows N. induction g as [|e g [sel [Ss [I F]]]].
  - exists []. split; [constructor|]. split; [|constructor]. intro i. split; [intros []|]. intros [x [X _]]. destruct i; discriminate.
  - assert (SM : StronglySorted lt (map S sel)).
    { clear - Ss. induction Ss as [|a l Ss IH H]; cbn [map]; constructor; auto. rewrite Forall_forall in *. intros x X. apply in_map_iff in X.
      destruct X as [y [<- Y]]. apply H in Y. lia. }
    assert (IM : forall i, In i (map Datatypes.S sel) <-> exists j, i = Datatypes.S j /\ In j sel).
    { intro i. rewrite in_map_iff. split; intros [j [A B]]; exists j; auto. }
    assert (FM : Forall2 (fun i r => exists x, nth_error (e :: g) i = Some x /\ fst r = snd (fst x) /\ row_id (snd r) = fst (fst x) /\ In (snd r) rows)
      (map Datatypes.S sel) (with_geometry g rows)).
    { clear - F. induction F; cbn [map]; constructor; auto. }
    unfold with_geometry. cbn [flat_map]. fold (with_geometry g rows).
    destruct (filter_unique rows (fst (fst e)) N) as [[X Y]|[rc [X [Y Z0]]]].
    + exists (map Datatypes.S sel). split; auto. split; [|rewrite Y; exact FM]. intro i. rewrite IM. split.
      * intros [j [-> J]]. apply I in J. destruct J as [x J]. exists x. exact J.
      * intros [x [A B]]. destruct i as [|j]; [cbn in A; injection A as <-; contradiction|]. exists j. split; auto. apply I. exists x. auto.
    + exists (0%nat :: map Datatypes.S sel). split.
      * constructor; auto. rewrite Forall_forall. intros x Hx. apply IM in Hx. destruct Hx as [j [-> _]]. lia.
      * split.
        -- intro i. cbn [In]. rewrite IM. split.
           ++ intros [<-|[j [-> J]]]; [exists e; split; auto; rewrite <- Y; apply in_map; auto|]. apply I in J. destruct J as [x J]. exists x. exact J.
           ++ intros [x [A B]]. destruct i as [|j]; [left; auto|]. right. exists j. split; auto. apply I. exists x. auto.
        -- rewrite Z0. cbn [map app]. constructor; auto. exists e. cbn [fst snd]. auto.
Qed.

(** ** What a frame gives *)
Lemma arrays_inv : forall f s t, points_to_arrays f = Ok (s, t) ->
  exists pts, f_geoms f = map Some pts /\ s = map (fun p => [fst p; snd p]) pts /\ t = map (fun x => [x]) (f_times f) /\ f_times f <> [].
Proof.
  intros f s t H. unfold points_to_arrays in H.
  destruct (match f_crs f with Some g => g | None => false end); [discriminate|].
  destruct (forallb is_point (f_geoms f)) eqn:P; cbn [negb] in H; [|discriminate].
  destruct (f_numeric f); cbn [negb] in H; [|discriminate].
  assert (X : exists pts, f_geoms f = map Some pts).
  { clear H. induction (f_geoms f) as [|[p|] l IH]; cbn in P; [exists []; reflexivity| |discriminate].
    destruct (IH P) as [pts ->]. exists (p :: pts). reflexivity. }
  destruct X as [pts X]. exists pts. split; auto. rewrite X, map_map in H.
  destruct (f_times f) eqn:T; [discriminate|]. rewrite <- T in *. injection H as <- <-. split; [|split; [reflexivity|rewrite T; discriminate]].
  apply map_ext. intros [x y]. reflexivity.
Qed.
Lemma mapM_times : forall l, mapM the_time (map (fun x => [x]) l) = Ok l.
Proof. induction l as [|a l IH]; [reflexivity|]. cbn [map mapM the_time bind]. rewrite IH. reflexivity. Qed.
Lemma frame_inv : forall ball f index delta tau gperms perms keep o,
  kl_from_frame ball f index delta tau gperms perms keep = Ok o ->
  exists pts l, f_geoms f = map Some pts /\ List.length index = List.length pts /\ List.length (f_times f) = List.length pts /\
    knox_local ball (map (fun p => [fst p; snd p]) pts) (map (fun x => [x]) (f_times f)) delta tau gperms perms = Ok l /\
    kl_ids o = index /\ kl_adj o = relabel_adj index (l_adj l) /\ kl_p_hg o = l_p_hg l /\ kl_p_sims o = l_p_sims l /\
    kl_gdf o = combine (combine index pts) (f_times f) /\ kl_nsti o = l_nsti l /\
    (kl_p_sim o = match k_sim (l_knox l) with Some (p, _, _) => Some p | None => None end) /\ kl_crit o = 5#100.
Proof.
  intros ball f index delta tau gperms perms keep o H. unfold kl_from_frame in H.
  destruct (points_to_arrays f) as [[s t]|] eqn:P; cbn [bind fst snd] in H; [|discriminate].
  destruct (arrays_inv _ _ _ P) as [pts [G [-> [-> T]]]]. exists pts.
  unfold kl_init in H. destruct (knox_local_check _ _ _) eqn:C; cbn [bind] in H; [|discriminate].
  unfold shape in C. cbn [a_rows a_width] in *. cbn [knox_local_check unpack2 bind fst snd option_map Nat.ltb Nat.leb] in C.
  rewrite !map_length in C. destruct (Nat.eqb_spec (List.length pts) (List.length (f_times f))) as [E1|E1]; cbn [negb] in C; [|discriminate].
  destruct (Nat.eqb_spec (List.length index) (List.length pts)) as [E2|E2]; [|discriminate].
  destruct (knox_local _ _ _ _ _ _ _) as [l|] eqn:K; cbn [bind] in H; [|discriminate]. rewrite mapM_times in H. cbn [bind] in H.
  injection H as <-. exists l. cbn [kl_ids kl_adj kl_p_hg kl_p_sims kl_gdf kl_p_sim kl_nsti kl_crit]. rewrite map_map.
  assert (M : map (fun p : Q * Q => point_of [fst p; snd p]) pts = pts).
  { rewrite <- (map_id pts) at 2. apply map_ext. intros [x y]. reflexivity. }
  rewrite M. repeat split; auto.
Qed.
Lemma near_frame : forall f pts delta tau i j, f_geoms f = map Some pts -> List.length (f_times f) = List.length pts ->
  (i < List.length pts)%nat ->
  (Near (map (fun p => [fst p; snd p]) pts) (map (fun x => [x]) (f_times f)) delta tau i j <-> FNear f delta tau i j).
Proof.
  intros f pts delta tau i j G L Hi. unfold Near, FNear, Close. rewrite map_length.
  assert (RS : forall k x y, nth_error pts k = Some (x, y) -> row (map (fun p : Q * Q => [fst p; snd p]) pts) k = [x; y]).
  { intros k x y K. unfold row. apply nth_error_nth. rewrite nth_error_map, K. reflexivity. }
  assert (RT : forall k t, nth_error (f_times f) k = Some t -> row (map (fun x : Q => [x]) (f_times f)) k = [t]).
  { intros k t K. unfold row. apply nth_error_nth. rewrite nth_error_map, K. reflexivity. }
  assert (EX : forall k, (k < List.length pts)%nat -> exists x y t, nth_error pts k = Some (x, y) /\ nth_error (f_times f) k = Some t).
  { intros k K. destruct (nth_error pts k) as [[x y]|] eqn:A; [|apply nth_error_None in A; lia].
    destruct (nth_error (f_times f) k) as [t|] eqn:B; [|apply nth_error_None in B; lia]. exists x, y, t. auto. }
  assert (AT : forall k x y t, At f k x y t <-> nth_error pts k = Some (x, y) /\ nth_error (f_times f) k = Some t).
  { intros k x y t. unfold At. rewrite G, nth_error_map. split; intros [A B]; split; auto.
    - destruct (nth_error pts k) as [q|]; cbn in A; [injection A as ->; auto|discriminate].
    - rewrite A. reflexivity. }
  split.
  - intros [Hj [D [[H1 H2] [H3 H4]]]]. destruct (EX i Hi) as [x [y [t [A1 A2]]]]. destruct (EX j Hj) as [x' [y' [t' [B1 B2]]]].
    rewrite (RS _ _ _ A1), (RS _ _ _ B1) in H2. rewrite (RT _ _ A2), (RT _ _ B2) in H4. cbn [sqdist] in *.
    split; auto. split; auto. split; auto. exists x, y, t, x', y', t'. rewrite !AT. repeat (split; auto); [lra| |]; apply sq_abs in H4; auto; lra.
  - intros [D [H1 [H3 [x [y [t [x' [y' [t' [A [B [H2 H4]]]]]]]]]]]]. apply AT in A. apply AT in B. destruct A as [A1 A2]. destruct B as [B1 B2].
    rewrite (RS _ _ _ A1), (RS _ _ _ B1), (RT _ _ A2), (RT _ _ B2). cbn [sqdist].
    split; [apply nth_error_Some; congruence|]. split; auto. split; [split; auto; lra|]. split; auto. apply sq_abs; auto.
Qed.

(** ** C111 *)
Lemma choose_length : forall ball, Ball ball -> forall s t delta tau gperms perms l inf ps (o : option Q),
  knox_local ball s t delta tau gperms perms = Ok l ->
  choose_p inf (match o with Some _ => l_p_sims l | None => None end) (l_p_hg l) = Ok ps -> List.length ps = List.length s.
Proof.
  intros ball HB s t delta tau gperms perms l inf ps o K H.
  destruct (local_inv _ _ _ _ _ _ _ _ K) as [_ [_ [_ [PS [PH _]]]]].
  assert (LH : List.length (l_p_hg l) = List.length s) by (rewrite PH, map_length, seq_length; auto).
  destruct inf; cbn [choose_p] in H; try discriminate; injection H as <-; auto. rewrite PS.
  destruct o; [destruct perms|]; auto. rewrite map_length, seq_length; auto.
Qed.
Lemma events_nth : forall (index : list Z) (pts : list (Q * Q)) (times ps : list Q),
  List.length index = List.length pts -> List.length times = List.length pts -> List.length ps = List.length pts ->
  let ev := map (fun gp => (fst (fst (fst gp)), snd gp, snd (fst gp))) (combine (combine (combine index pts) times) ps) : list event in
  map ev_id ev = index /\
  (forall i, (i < List.length pts)%nat -> nth_error ev i = Some (nth i index 0%Z, nth i ps 0, nth i times 0)).
Proof.
  induction index as [|z index IH]; intros [|p pts] [|t times] [|q ps]; cbn [List.length]; intros L1 L2 L3; try discriminate.
  - split; [reflexivity|]. intros i X. lia.
  - destruct (IH pts times ps) as [A B]; try lia. cbn zeta in *. cbn [combine map fst snd ev_id]. split; [f_equal; exact A|].
    intros [|i] X; [reflexivity|]. cbn [nth_error nth]. apply B. lia.
Qed.
Lemma gdf_nth : forall (index : list Z) (pts : list (Q * Q)) (times : list Q) i e,
  nth_error (combine (combine index pts) times) i = Some e ->
  List.length index = List.length pts -> List.length times = List.length pts ->
  (i < List.length pts)%nat /\ fst (fst e) = nth i index 0%Z /\ nth_error pts i = Some (snd (fst e)) /\ snd e = nth i times 0.
Proof.
  induction index as [|z index IH]; intros [|p pts] [|t times] i e; cbn [List.length combine]; intros H L1 L2; try discriminate;
    destruct i as [|i]; cbn [nth_error] in H; try discriminate.
  - injection H as <-. cbn. split; [lia|auto].
  - destruct (IH pts times i e H) as [A [B C]]; try lia. cbn [nth nth_error]. split; [lia|auto].
Qed.

(** The table of hot spots of a data frame with distinct index labels: one row per
    row of the frame that is significant or close to a significant one, in the order
    of the frame, with its own point, p-value and time and a close row of the frame. *)
Theorem C111_hotspots : forall ball, Ball ball -> forall components f index delta tau gperms perms keep o crit inf kn rows,
  NoDup index -> kl_from_frame ball f index delta tau gperms perms keep = Ok o ->
  kl_hotspots components o (Some crit) inf kn = Ok rows ->
  exists ps sel, List.length ps = List.length index /\
    (ps = kl_p_hg o \/ kl_p_sims o = Some ps) /\
    (inf = Analytic \/ perms = [] -> ps = kl_p_hg o) /\
    (inf = Permutation_ -> gperms <> [] -> perms <> [] -> kl_p_sims o = Some ps) /\
    StronglySorted lt sel /\
    (forall i, In i sel <-> (i < List.length index)%nat /\
       (nth i ps 0 <= crit \/ (kn = true /\ exists j, FNear f delta tau i j /\ nth j ps 0 <= crit))) /\
    Forall2 (fun i r => At f i (fst (fst r)) (snd (fst r)) (nth i (f_times f) 0) /\
      exists n c, snd r = ((nth i index 0%Z, Some (nth i ps 0, nth i (f_times f) 0), n), c) /\
        match n with
        | Some (b, or) => exists j, FNear f delta tau i j /\ nth_error index j = Some b /\
            (nth i ps 0 <= crit \/ nth j ps 0 <= crit) /\
            (or = Lead <-> nth i (f_times f) 0 < nth j (f_times f) 0) /\ (or = Lag <-> nth j (f_times f) 0 < nth i (f_times f) 0)
        | None => forall j, ~ FNear f delta tau i j
        end) sel rows.
Proof.
  intros ball HB components f index delta tau gperms perms keep o crit inf kn rows ND H HS.
  destruct (frame_inv _ _ _ _ _ _ _ _ _ H) as [pts [l [G [L1 [L2 [K [_ [AD [PH [PS [GD [_ [P _]]]]]]]]]]]]].
  set (s := map (fun p : Q * Q => [fst p; snd p]) pts) in *. set (t := map (fun x : Q => [x]) (f_times f)) in *.
  assert (LS : @List.length vec s = List.length pts) by (unfold s; apply map_length).
  unfold kl_hotspots in HS. rewrite PS, PH in HS.
  destruct (choose_p inf _ (l_p_hg l)) as [ps|] eqn:CP; cbn [bind] in HS; [|discriminate]. injection HS as <-.
  assert (LP : List.length ps = List.length pts) by (rewrite <- LS; eapply choose_length; eauto).
  destruct (events_nth index pts (f_times f) ps L1 L2 LP) as [EI EN]. cbn zeta in EI, EN.
  unfold kl_events. rewrite GD. set (ev := map _ (combine (combine (combine index pts) (f_times f)) ps)) in *.
  destruct (C71_consistent ball HB _ _ _ _ _ _ _ index ev K ND (eq_trans L1 (eq_sym LS)) EI) as [CO AN]. rewrite <- AD in CO, AN.
  destruct (C71_rows crit ev _ CO) as [RS [RI RV]]. destruct (C71_hotspots components crit ev _ CO) as [H1 H2]. cbn zeta in H1, H2.
  set (rows := hotspots components crit ev (kl_adj o) kn) in *.
  assert (NR : NoDup (map row_id rows)) by (unfold rows; destruct kn; [exact (proj1 H1)|exact (proj1 H2)]).
  assert (SIG : forall i, (i < List.length pts)%nat -> (Sig crit ev (nth i index 0%Z) <-> nth i ps 0 <= crit)).
  { intros i Hi. specialize (EN i Hi). apply nth_error_In in EN. split.
    - intros [p [tt [A B]]]. assert (E : (nth i index 0%Z, p, tt) = (nth i index 0%Z, nth i ps 0, nth i (f_times f) 0)).
      { apply (unique_event ev); auto. destruct CO as [C1 _]. exact C1. } injection E as -> ->. auto.
    - intro B. exists (nth i ps 0), (nth i (f_times f) 0). auto. }
  assert (SIGZ : forall z, Sig crit ev z -> exists i, (i < List.length pts)%nat /\ z = nth i index 0%Z).
  { intros z [p [tt [A _]]]. apply (in_map ev_id) in A. rewrite EI in A. cbn in A. apply In_nth with (d := 0%Z) in A.
    destruct A as [i [A B]]. exists i. split; [lia|auto]. }
  assert (NEARJ : forall i j, FNear f delta tau i j -> (j < List.length pts)%nat).
  { intros i j [_ [_ [_ [x [y [t1 [x' [y' [t' [_ [[B _] _]]]]]]]]]]]. rewrite G, nth_error_map in B. apply nth_error_Some.
    destruct (nth_error pts j); [discriminate|cbn in B; discriminate]. }
  assert (LST : forall i, (i < List.length pts)%nat -> (Listed crit ev (kl_adj o) (nth i index 0%Z) <->
     nth i ps 0 <= crit \/ exists j, FNear f delta tau i j /\ nth j ps 0 <= crit)).
  { intros i Hi. unfold Listed. rewrite SIG by auto. split; (intros [X|X]; [left; exact X|right]).
    - destruct X as [w [W1 W2]]. destruct (SIGZ _ W1) as [j [Hj ->]]. exists j. split; [|apply SIG; auto].
      apply (near_frame f pts); auto. apply (proj1 (AN i j ltac:(rewrite LS; auto) ltac:(rewrite LS; auto))). destruct CO as [_ [C2 _]]. apply C2. exact W2.
    - destruct X as [j [J1 J2]]. pose proof (NEARJ _ _ J1) as Hj. exists (nth j index 0%Z). split; [apply SIG; auto|].
      destruct CO as [_ [C2 _]]. apply C2. apply (proj2 (AN i j ltac:(rewrite LS; auto) ltac:(rewrite LS; auto))). apply (near_frame f pts) in J1; auto. }
  destruct (geometry_rows rows NR (combine (combine index pts) (f_times f))) as [sel [SS [SI SF]]].
  exists ps, sel. split; [lia|]. split.
  { rewrite PH, PS. destruct inf; cbn [choose_p] in CP; try discriminate; [|injection CP as <-; auto].
    destruct (kl_p_sim o); [destruct (l_p_sims l)|]; injection CP as <-; auto. }
  split.
  { destruct (local_inv _ _ _ _ _ _ _ _ K) as [_ [_ [_ [PS' _]]]]. rewrite PH. intros [->| ->].
    - cbn in CP. injection CP as <-. reflexivity.
    - rewrite PS' in CP. destruct inf; cbn in CP; try discriminate; [|injection CP as <-; reflexivity].
      destruct (kl_p_sim o); injection CP as <-; reflexivity. }
  split.
  { destruct (local_inv _ _ _ _ _ _ _ _ K) as [KG [_ [_ [PS' _]]]]. rewrite PS. intros -> G0 P0. cbn [choose_p] in CP.
    unfold knox_global in KG. destruct (Nat.eqb _ _) in KG; [|discriminate]. injection KG as KG.
    assert (X : exists z, k_sim (l_knox l) = Some z).
    { rewrite <- KG. cbn [k_sim]. destruct gperms; [contradiction|]. eexists; reflexivity. }
    destruct X as [[[p0 e0] st0] X]. rewrite P, X in CP. rewrite PS' in *. destruct perms; [contradiction|]. injection CP as <-. reflexivity. }
  split; [exact SS|]. split.
  { intro i. rewrite SI. split.
    - intros [e [E1 E2]]. destruct (gdf_nth _ _ _ _ _ E1 L1 L2) as [Hi [EI' _]]. rewrite EI' in E2. split; [lia|]. unfold rows in E2.
      destruct kn.
      + apply (proj2 H1) in E2. apply LST in E2; auto. destruct E2 as [E2|E2]; [auto|right; auto].
      + apply (proj2 H2) in E2. apply SIG in E2; auto.
    - intros [Hi X]. destruct (nth_error (combine (combine index pts) (f_times f)) i) as [e|] eqn:E.
      + exists e. split; auto. destruct (gdf_nth _ _ _ _ _ E L1 L2) as [_ [EI' _]]. rewrite EI'. unfold rows. destruct kn.
        * apply (proj2 H1). apply LST; [lia|]. destruct X as [X|[_ X]]; auto.
        * apply (proj2 H2). apply SIG; [lia|]. destruct X as [X|[X _]]; [auto|discriminate].
      + apply nth_error_None in E. rewrite !combine_length in E. lia. }
  clear SI SS. induction SF as [|i r sel' rows' X F IH]; constructor; auto. clear IH F.
  destruct X as [e [E1 [E2 [E3 E4]]]]. destruct (gdf_nth _ _ _ _ _ E1 L1 L2) as [Hi [EI' [EP _]]]. destruct r as [[x y] [[[z v] n] c]].
  cbn [fst snd row_id] in *. split.
  { unfold At. rewrite G, nth_error_map, EP. cbn. rewrite <- E2. split; auto. apply nth_error_nth'. lia. }
  unfold row_id in E3. cbn [fst] in E3. rewrite EI' in E3. subst z.
  assert (IR : In (nth i index 0%Z, v, n) (hotspot_rows crit ev (kl_adj o))).
  { unfold rows, hotspots in E4. cbn zeta in E4. destruct kn; [|apply filter_In in E4; destruct E4 as [E4 _]];
      apply in_map_iff in E4; destruct E4 as [r' [A B]]; injection A as -> _; exact B. }
  destruct (RV _ _ _ IR) as [[p [tt [-> PE]]] NB]. exists n, c.
  assert (EV : (nth i index 0%Z, p, tt) = (nth i index 0%Z, nth i ps 0, nth i (f_times f) 0)).
  { apply (unique_event ev); auto; [destruct CO as [C1 _]; exact C1|]. apply (nth_error_In _ i). auto. }
  injection EV as -> ->. split; [reflexivity|]. destruct n as [[b or]|].
  - destruct NB as [NB NSG].
    assert (J : exists j, (j < List.length pts)%nat /\ In (i, j, or) (l_adj l) /\ b = nth j index 0%Z).
    { rewrite AD in NB. unfold relabel_adj in NB. apply in_map_iff in NB. destruct NB as [[[a j] o'] [A B]]. cbn [fst snd] in A. injection A as A1 A2 A3.
      subst o'. destruct (C70_adjlist ball HB _ _ _ _ _ _ _ K) as [D _]. assert (D' : exists o', In (a, j, o') (l_adj l)) by eauto.
      apply D in D'. destruct D' as [Ha [Hj _]]. assert (a = i) by (apply (proj1 (NoDup_nth index 0%Z) ND); auto; lia). subst a.
      exists j. split; [lia|]. auto. }
    destruct J as [j [Hj [J1 ->]]]. exists j.
    destruct (C70_adjlist ball HB _ _ _ _ _ _ _ K) as [D [OR _]]. assert (D' : exists o', In (i, j, o') (l_adj l)) by eauto.
    apply D in D'. destruct D' as [_ D']. split; [apply (near_frame f pts); auto|]. split; [apply nth_error_nth'; lia|].
    split; [rewrite !SIG in NSG by auto; exact NSG|].
    destruct (OR _ _ _ J1) as [O1 [O2 _]].
    assert (TM : forall k, (k < List.length pts)%nat -> time_of t k = nth k (f_times f) 0).
    { intros k Hk. unfold time_of, row, t. rewrite (nth_indep _ [] [0]) by (rewrite map_length; lia).
      change [0] with ((fun x : Q => [x]) 0). rewrite map_nth. reflexivity. }
    rewrite !TM in O1, O2 by auto. split; assumption.
  - intros j J. pose proof (NEARJ _ _ J) as Hj. apply (NB (nth j index 0%Z)). apply (proj2 (AN i j ltac:(rewrite LS; auto) ltac:(rewrite LS; auto))). apply (near_frame f pts); auto.
Qed.
Print Assumptions C111_hotspots.

(** With a critical value below 1 every row of the table has a neighbour: an event
    without close events has p-value 1 whichever p-value is used. *)
Lemma zeros_mean : forall A (l : list A), Qmean (map (fun _ => 0) l) == 0.
Proof.
  intros A l. unfold Qmean. assert (Z0 : Qsum (map (fun _ : A => 0) l) == 0).
  { rewrite Qsum_map_const. apply Qmult_0_l. }
  rewrite Z0. unfold Qdiv. apply Qmult_0_l.
Qed.
Lemma lonely_pvalue : forall ball, Ball ball -> forall s t delta tau gperms perms l i,
  knox_local ball s t delta tau gperms perms = Ok l -> (i < List.length s)%nat -> (forall j, ~ Near s t delta tau i j) ->
  nth i (l_p_hg l) 0 == 1 /\ (forall ps, l_p_sims l = Some ps -> nth i ps 0 == 1).
Proof.
  intros ball HB s t delta tau gperms perms l i K Hi NN.
  assert (N0 : nth i (l_nsti l) 0%nat = 0%nat).
  { destruct (C68_local_counts ball HB _ _ _ _ _ _ _ K) as [_ [C _]]. apply (C i 0%nat Hi). exists []. split; [constructor|]. split; [|reflexivity].
    intro j. split; [intros []|]. intro X. exact (NN j X). }
  split.
  - destruct (local_inv _ _ _ _ _ _ _ _ K) as [_ [_ [_ [_ [PH _]]]]]. rewrite PH.
    rewrite (nth_map_seq _ _ _ _ _ Hi), N0. unfold hg_pvalue, hg_cdf_below. cbn [seq map]. change (Qsum []) with 0.
    rewrite (zeros_mean nat). lra.
  - intros ps P. apply (proj2 (proj2 (proj2 (proj2 (proj2 (C65_local_pvalue _ _ _ _ _ _ _ _ _ i K P Hi)))))).
    rewrite N0. rewrite Forall_forall. intros; lia.
Qed.

Theorem C111_connected : forall ball, Ball ball -> forall components f index delta tau gperms perms keep o crit inf kn rows,
  NoDup index -> kl_from_frame ball f index delta tau gperms perms keep = Ok o -> crit < 1 ->
  kl_hotspots components o (Some crit) inf kn = Ok rows ->
  forall r, In r rows -> snd (fst (snd r)) <> None.
Proof.
  intros ball HB components f index delta tau gperms perms keep o crit inf kn rows ND H CR HS r R0 NN.
  destruct (C111_hotspots ball HB _ _ _ _ _ _ _ _ _ _ _ _ _ ND H HS) as [ps [sel [LP [PC [_ [_ [_ [SI F]]]]]]]].
  assert (X : exists i, In i sel /\ (forall j, ~ FNear f delta tau i j)).
  { clear SI HS. induction F as [|i r' sel' rows' [_ [n [c [E M]]]] F IH]; [destruct R0|]. destruct R0 as [->|R0].
    - destruct r as [g0 rc0]. cbn [snd] in *. subst rc0. cbn in NN. subst n. exists i. split; [left; auto|exact M].
    - destruct (IH R0) as [j [A B]]. exists j. split; [right; auto|auto]. }
  destruct X as [i [I L]]. apply SI in I. destruct I as [Hi [P|[_ [j [J _]]]]]; [|exact (L j J)].
  destruct (frame_inv _ _ _ _ _ _ _ _ _ H) as [pts [l [G [L1 [L2 [K [_ [_ [PH [PS [_ [_ [PO _]]]]]]]]]]]]].
  assert (LN : forall j, ~ Near (map (fun p => [fst p; snd p]) pts) (map (fun x => [x]) (f_times f)) delta tau i j).
  { intros j J. apply (L j). apply (near_frame f pts); auto. lia. }
  destruct (lonely_pvalue ball HB _ _ _ _ _ _ _ i K) as [Z1 Z2]; [rewrite map_length; lia|exact LN|].
  assert (PE : nth i ps 0 == 1).
  { rewrite PH, PS in PC. destruct PC as [->|PC]; auto. }
  lra.
Qed.
Print Assumptions C111_connected.

(** What the objects carry.  [gperms] and [perms] have the same length in a run. *)
Theorem C111_attributes : forall ball, Ball ball -> forall f index delta tau gperms perms keep o,
  List.length gperms = List.length perms -> kl_from_frame ball f index delta tau gperms perms keep = Ok o ->
  exists k, knox_from_frame ball f delta tau gperms keep = Ok k /\
    (forall c, Card (fun ij => (fst ij < snd ij)%nat /\ FNear f delta tau (fst ij) (snd ij)) c ->
       ko_nst k = Z.of_nat c /\ ko_statistic k = Z.of_nat c /\ kl_nst o = Z.of_nat c) /\
    kl_p_sim o = ko_p_sim k /\ (ko_p_sim k = None <-> perms = []) /\
    (ko_sim k = None <-> perms = [] \/ keep = false) /\
    (forall sims p, ko_sim k = Some sims -> ko_p_sim k = Some p -> List.length sims = List.length gperms /\
       forall e, Counts (fun v => inject_Z (ko_nst k) <= v) sims e -> p * (Qnat (List.length gperms) + 1) == Qnat e + 1) /\
    kl_sim o = kl_sims o /\ (kl_sims o = None <-> perms = [] \/ keep = false) /\
    (forall m, kl_sims o = Some m -> List.length m = List.length index /\
       exists ps, kl_p_sims o = Some ps /\ forall i e, (i < List.length index)%nat ->
         Counts (fun v => (nth i (kl_nsti o) 0 <= v)%nat) (nth i m []) e ->
         nth i ps 0 * (Qnat (List.length perms) + 1) == Qnat e + 1).
Proof.
  intros ball HB f index delta tau gperms perms keep o LE H. pose proof H as H0.
  destruct (frame_inv _ _ _ _ _ _ _ _ _ H) as [pts [l [G [L1 [L2 [K [_ [_ [_ [PS [_ [NS [PO _]]]]]]]]]]]]].
  unfold kl_from_frame in H. unfold knox_from_frame.
  destruct (points_to_arrays f) as [[s t]|] eqn:P; cbn [bind fst snd] in H |- *; [|discriminate].
  destruct (arrays_inv _ _ _ P) as [pts' [G' [-> [-> _]]]].
  assert (E : pts' = pts) by (rewrite G' in G; clear - G; revert pts G; induction pts' as [|a p IH]; intros [|b q] G; try discriminate; auto;
    cbn in G; injection G as -> G; f_equal; auto). subst pts'. clear G'.
  set (s := map (fun p : Q * Q => [fst p; snd p]) pts) in *. set (t := map (fun x : Q => [x]) (f_times f)) in *.
  assert (LS : @List.length vec s = List.length pts) by (unfold s; apply map_length).
  assert (LT : @List.length vec t = List.length pts) by (unfold t; rewrite map_length; auto).
  destruct (local_inv _ _ _ _ _ _ _ _ K) as [KG [NSTI [STI [PSI _]]]].
  unfold kl_init in H. cbn [a_rows] in H. destruct (knox_local_check _ _ _); cbn [bind] in H; [|discriminate]. rewrite K in H. cbn [bind] in H.
  unfold t in H at 1. rewrite mapM_times in H. cbn [bind] in H. injection H as H.
  assert (SIM : kl_sim o = match k_sim (l_knox l) with Some _ => if keep then Some (l_sti_perm l) else None | None => None end /\
    kl_sims o = match l_p_sims l with Some _ => if keep then Some (l_sti_perm l) else None | None => None end /\
    kl_nst o = Qtrunc (k_nst (l_knox l))) by (rewrite <- H; cbn; auto).
  destruct SIM as [SM1 [SM2 NSTO]]. clear H.
  unfold knox_init. rewrite KG. cbn [bind]. eexists. split; [reflexivity|]. cbn [ko_nst ko_statistic ko_p_sim ko_sim].
  assert (KS : (perms = [] -> k_sim (l_knox l) = None) /\ (perms <> [] -> exists p e sims, k_sim (l_knox l) = Some (p, e, sims))).
  { unfold knox_global in KG. destruct (Nat.eqb _ _) in KG; [|discriminate]. injection KG as KG. rewrite <- KG. cbn [k_sim]. split; intro X.
    - subst perms. destruct gperms; [reflexivity|discriminate].
    - destruct gperms; [destruct perms; [contradiction|discriminate]|]. do 3 eexists. reflexivity. }
  destruct KS as [KS1 KS2].
  assert (PD : perms = [] \/ perms <> []) by (destruct perms; [left; auto|right; discriminate]).
  assert (PM : (perms = [] -> l_p_sims l = None) /\ (perms <> [] -> exists ps, l_p_sims l = Some ps)).
  { rewrite PSI. split; intro X; [rewrite X; auto|]. destruct perms; [contradiction|]. eexists; reflexivity. }
  destruct PM as [PM1 PM2].
  assert (NQ : exists c, Card (STPair s t delta tau) c /\ k_nst (l_knox l) == Qnat c /\ Qtrunc (k_nst (l_knox l)) = Z.of_nat c).
  { destruct (proj1 (proj2 (C62_knox_total ball s t delta tau gperms))) as [c C].
    destruct (proj1 (C62_knox_total ball s t delta tau gperms)) as [a A]. destruct (proj1 (C62_knox_total ball t s tau delta gperms)) as [b B].
    destruct (C62_knox_counts ball HB _ _ _ _ _ _ _ _ _ KG A B C) as [_ [_ [Q1 [Q2 _]]]]. exists c. auto. }
  destruct NQ as [c0 [C0 [Q0 T0]]]. split.
  { intros c C. assert (c = c0); [|subst; rewrite NSTO; auto].
    apply (Card_unique _ (STPair s t delta tau)); [|exact C0]. revert C. apply Card_ext.
    intros [i j]. unfold STPair, SPair. cbn [fst snd]. rewrite LS. split.
    - intros [X Y].
      assert (Hi : (i < List.length pts)%nat).
      { destruct Y as [_ [_ [_ [x [y [t1 [x' [y' [t' [[B _] _]]]]]]]]]]. rewrite G, nth_error_map in B. apply nth_error_Some.
        destruct (nth_error pts i); [discriminate|cbn in B; discriminate]. }
      apply (near_frame f pts) in Y; auto. destruct Y as [Y1 [_ [Y2 Y3]]]. fold s t in Y1, Y2, Y3. rewrite LS in Y1. auto.
    - intros [[[X1 X2] X3] X4]. split; auto. apply (near_frame f pts); auto; [lia|]. fold s t. unfold Near. rewrite LS. repeat split; auto; try lia; [exact (proj1 X3)|exact (proj2 X3)|exact (proj1 X4)|exact (proj2 X4)]. }
  split; [rewrite PO; reflexivity|]. split.
  { destruct PD as [PD|PD]; [rewrite (KS1 PD); tauto|]. destruct (KS2 PD) as [p [e [st X]]]. rewrite X. split; [discriminate|contradiction]. }
  split.
  { destruct PD as [PD|PD]; [rewrite (KS1 PD); tauto|]. destruct (KS2 PD) as [p [e [st X]]]. rewrite X. destruct keep; split; auto; try discriminate.
    intros [Y|Y]; [contradiction|discriminate]. }
  split.
  { intros sims p S1 S2. destruct (k_sim (l_knox l)) as [[[p' e'] st]|] eqn:KS; [|discriminate]. injection S2 as ->. destruct keep; [|discriminate]. injection S1 as ->.
    destruct (C65_knox_pvalue _ _ _ _ _ _ _ _ _ _ KG KS) as [_ [LL [CC _]]]. split; auto. intros e C. apply (CC e).
    rewrite T0 in C. fold (Qnat c0) in C. revert C. apply Counts_ext. intros v _. rewrite Q0. tauto. }
  split.
  { rewrite SM1, SM2. destruct PD as [PD|PD]; [rewrite (KS1 PD), (PM1 PD); auto|]. destruct (KS2 PD) as [p [e [st ->]]]. destruct (PM2 PD) as [ps ->]. auto. }
  split.
  { rewrite SM2. destruct PD as [PD|PD]; [rewrite (PM1 PD); tauto|]. destruct (PM2 PD) as [ps ->]. destruct keep; split; auto; try discriminate.
    intros [Y|Y]; [contradiction|discriminate]. }
  intros m M. rewrite SM2 in M. destruct (l_p_sims l) as [ps|] eqn:LPS; [|discriminate]. destruct keep; [|discriminate]. injection M as <-.
  split; [rewrite STI, map_length, seq_length; lia|]. exists ps. split; [rewrite PS; auto|]. intros i e Hi C. rewrite NS in C.
  refine (proj1 (proj2 (proj2 (proj2 (C65_local_pvalue _ _ _ _ _ _ _ _ _ i K LPS _)))) e C). lia.
Qed.
Print Assumptions C111_attributes.

(** Success, and the only error. *)
Theorem C111_total : forall ball, Ball ball -> forall f index delta tau gperms perms keep, List.length (f_geoms f) = List.length (f_times f) ->
  ((exists o, kl_from_frame ball f index delta tau gperms perms keep = Ok o) <->
     f_crs f <> Some true /\ ~ In None (f_geoms f) /\ f_numeric f = true /\ f_times f <> [] /\ List.length index = List.length (f_geoms f)) /\
  ((exists k, knox_from_frame ball f delta tau gperms keep = Ok k) <->
     f_crs f <> Some true /\ ~ In None (f_geoms f) /\ f_numeric f = true /\ f_times f <> []) /\
  (forall e, kl_from_frame ball f index delta tau gperms perms keep = Raise e -> e = ValueError) /\
  (forall e, knox_from_frame ball f delta tau gperms keep = Raise e -> e = ValueError).
Proof.
  intros ball HB f index delta tau gperms perms keep L.
  destruct (C76_from_dataframe f L) as [A _].
  assert (D : points_to_arrays f = Raise ValueError \/ exists pts, f_geoms f = map Some pts /\
     points_to_arrays f = Ok (map (fun p => [fst p; snd p]) pts, map (fun x => [x]) (f_times f)) /\
     (f_crs f <> Some true /\ ~ In None (f_geoms f) /\ f_numeric f = true /\ f_times f <> [])).
  { destruct (points_to_arrays f) as [[s t]|e] eqn:P.
    - right. destruct (arrays_inv _ _ _ P) as [pts [G [-> [-> T]]]]. exists pts. split; auto. split; auto.
      assert (N : ~ (f_crs f = Some true \/ In None (f_geoms f) \/ f_numeric f = false \/ f_times f = [])) by (intro X; apply A in X; discriminate).
      repeat split; try tauto. destruct (f_numeric f); tauto.
    - left. f_equal. unfold points_to_arrays in P. destruct (match f_crs f with Some g => g | None => false end); [congruence|].
      destruct (negb (forallb is_point (f_geoms f))); [congruence|]. destruct (negb (f_numeric f)); [congruence|]. destruct (f_times f); congruence. }
  destruct D as [D|[pts [G [P OK]]]].
  - assert (NO : ~ (f_crs f <> Some true /\ ~ In None (f_geoms f) /\ f_numeric f = true /\ f_times f <> [])).
    { apply A in D. destruct (f_numeric f); intuition congruence. }
    unfold kl_from_frame, knox_from_frame. rewrite D. cbn [bind]. split; [|split; [|split]].
    + split; [intros [x X]; discriminate|]. intro X. exfalso. tauto.
    + split; [intros [x X]; discriminate|]. intro X. exfalso. tauto.
    + intros e X. congruence.
    + intros e X. congruence.
  - rewrite G, map_length in L.
    assert (KO : exists k, knox_from_frame ball f delta tau gperms keep = Ok k).
    { unfold knox_from_frame. rewrite P. cbn [bind fst snd]. unfold knox_init.
      destruct (proj1 (proj2 (proj2 (C62_knox_total ball (map (fun p : Q * Q => [fst p; snd p]) pts) (map (fun x : Q => [x]) (f_times f)) delta tau gperms)))) as [k K];
        [rewrite !map_length; auto|]. rewrite K. cbn [bind]. eexists. reflexivity. }
    assert (KL : List.length index = List.length pts -> exists o, kl_from_frame ball f index delta tau gperms perms keep = Ok o).
    { intro E. unfold kl_from_frame. rewrite P. cbn [bind fst snd]. unfold kl_init, shape. cbn [a_rows a_width option_map].
      rewrite !map_length. unfold knox_local_check. cbn [unpack2 bind fst snd Nat.ltb Nat.leb]. rewrite L, E, L, Nat.eqb_refl. cbn [negb bind].
      destruct (C70_total ball HB (map (fun p : Q * Q => [fst p; snd p]) pts) (map (fun x : Q => [x]) (f_times f)) delta tau gperms perms) as [l K].
      - rewrite !map_length; auto.
      - rewrite Forall_forall. intros r R0. apply in_map_iff in R0. destruct R0 as [x [<- _]]. reflexivity.
      - rewrite K. cbn [bind]. rewrite mapM_times. cbn [bind]. eexists. reflexivity. }
    assert (KN : List.length index <> List.length pts -> kl_from_frame ball f index delta tau gperms perms keep = Raise ValueError).
    { intro E. unfold kl_from_frame. rewrite P. cbn [bind fst snd]. unfold kl_init, shape. cbn [a_rows a_width option_map].
      rewrite !map_length. unfold knox_local_check. cbn [unpack2 bind fst snd Nat.ltb Nat.leb]. rewrite <- L, Nat.eqb_refl. cbn [negb].
      apply Nat.eqb_neq in E. rewrite E. reflexivity. }
    assert (GL : List.length (f_geoms f) = List.length pts) by (rewrite G; apply map_length). rewrite GL.
    split; [|split; [|split]].
    + split; [|intros [_ [_ [_ [_ E]]]]; auto]. intros [o O]. destruct (Nat.eq_dec (List.length index) (List.length pts)) as [E|E]; [tauto|].
      rewrite (KN E) in O. discriminate.
    + split; auto.
    + intros e X. destruct (Nat.eq_dec (List.length index) (List.length pts)) as [E|E]; [destruct (KL E) as [o O]; congruence|].
      rewrite (KN E) in X. congruence.
    + intros e X. destruct KO as [k KO]. congruence.
Qed.
Print Assumptions C111_total.

(** Seven events, the first two close to each other and to nothing else. *)
Definition f_seven : frame := mkframe None
  [Some (0, 0); Some (0, 1); Some (10, 0); Some (20, 0); Some (30, 0); Some (40, 0); Some (50, 0)] true [0; 1; 10; 20; 30; 40; 50].
Ltac ok_value e := let v := eval vm_compute in e in match v with Ok ?x => x end.
Definition labels1 (edges : list (Z * Z)) (z : Z) : nat := 0.

(** Finding 1.  When two rows of the frame share an index label (here rows 1 and 2),
    the table lists row 2, which is close to no other event and has p-value 1, with
    the p-value and the neighbour of row 1; plotting the edges raises ValueError. *)
Theorem C111_duplicate_labels_refuted : forall components, exists o rows,
  kl_from_frame ball_up f_seven [0; 1; 1; 3; 4; 5; 6]%Z 1 1 [] [] false = Ok o /\
  kl_hotspots components o None Analytic true = Ok rows /\
  (exists c p, In ((10, 0), ((1%Z, Some (p, 1), Some (0%Z, Lag)), c)) rows /\ p <= 5#100) /\
  (forall j, ~ FNear f_seven 1 1 2 j) /\ nth 2 (kl_p_hg o) 0 == 1 /\
  plot_lines o rows = Raise ValueError.
Proof.
  intro components. let o := ok_value (kl_from_frame ball_up f_seven [0; 1; 1; 3; 4; 5; 6]%Z 1 1 [] [] false) in exists o.
  match goal with |- exists rows, _ /\ ?h = _ /\ _ => let r := ok_value h in exists r end.
  split; [vm_compute; reflexivity|]. split; [vm_compute; reflexivity|]. split.
  - do 2 eexists. split; [right; right; left; reflexivity|discriminate].
  - split; [|split; vm_compute; reflexivity]. intros j [D [_ [_ [x [y [t [x' [y' [t' [[A1 A2] [[B1 B2] [C1 C2]]]]]]]]]]]].
    cbn in A1, A2. injection A1 as <- <-. injection A2 as <-.
    do 7 (destruct j as [|j]; [cbn in B1, B2; try (injection B1 as <- <-; injection B2 as <-; lra); congruence|]).
    cbn in B1. destruct j; discriminate.
Qed.
Print Assumptions C111_duplicate_labels_refuted.

(** Finding 2.  The significance level given to the constructor is not used: with
    crit = 1/100 the table still lists events with p-value 1/21. *)
Theorem C111_crit_refuted : forall components, exists o rows,
  kl_init ball_up (mkarr 2 (map point_row (f_geoms f_seven))) (mkarr 1 (map (fun t => [t]) (f_times f_seven))) 1 1 [] [] false (1#100) None = Ok o /\
  kl_crit o = 1#100 /\
  kl_hotspots components o None Analytic false = Ok rows /\
  Forall2 (fun r z => row_id (snd r) = z /\ exists p t, snd (fst (fst (snd r))) = Some (p, t) /\ p == 1#21) rows [0; 1]%Z.
Proof.
  intro components. match goal with |- exists o rows, ?h = _ /\ _ => let r := ok_value h in exists r end.
  match goal with |- exists rows, _ /\ _ /\ ?h = _ /\ _ => let r := ok_value h in exists r end.
  split; [vm_compute; reflexivity|]. split; [reflexivity|]. split; [vm_compute; reflexivity|].
  repeat constructor; cbn [row_id fst snd]; do 2 eexists; (split; [reflexivity|reflexivity]).
Qed.
Print Assumptions C111_crit_refuted.

(** Finding 3.  With keep=True the attribute sim of KnoxLocal holds the local counts,
    one row per event, not the global statistics whose rank is p_sim. *)
Definition rot7 : list nat := [0; 1; 3; 4; 5; 6; 2]%nat.
Theorem C111_sim_refuted : exists k o sims m,
  knox_from_frame ball_up f_seven 1 1 [rot7; [6; 5; 4; 3; 2; 1; 0]%nat] true = Ok k /\
  kl_from_frame ball_up f_seven [0; 1; 2; 3; 4; 5; 6]%Z 1 1 [rot7; [6; 5; 4; 3; 2; 1; 0]%nat] [rot7; rot7] true = Ok o /\
  ko_sim k = Some sims /\ kl_sim o = Some m /\ kl_p_sim o = ko_p_sim k /\
  List.length sims = 2%nat /\ List.length m = 7%nat /\ nth 0 m [] = [1; 1]%nat.
Proof.
  match goal with |- exists k o sims m, ?h = _ /\ _ => let r := ok_value h in exists r end.
  match goal with |- exists o sims m, _ /\ ?h = _ /\ _ => let r := ok_value h in exists r end.
  do 2 eexists. split; [vm_compute; reflexivity|]. split; [vm_compute; reflexivity|]. repeat (split; [reflexivity|]). reflexivity.
Qed.
Print Assumptions C111_sim_refuted.

Example C111_case : exists o rows,
  kl_from_frame ball_up f_seven [7; 5; 3; 1; 0; 2; 4]%Z 1 1 [] [] false = Ok o /\
  kl_hotspots labels1 o None Permutation_ true = Ok rows /\
  map (fun r => (fst r, row_id (snd r))) rows = [((0, 0), 7%Z); ((0, 1), 5%Z)] /\
  plot_lines o rows = Ok [((0, 0), (0, 1)); ((0, 1), (0, 0))].
Proof.
  match goal with |- exists o rows, ?h = _ /\ _ => let r := ok_value h in exists r end.
  match goal with |- exists rows, _ /\ ?h = _ /\ _ => let r := ok_value h in exists r end.
  repeat (split; [vm_compute; reflexivity|]). vm_compute. reflexivity.
Qed.

(** ** C112: the lines of plot and explore *)
Lemma loc_one : forall (index : list Z) (pts : list (Q * Q)) (times : list Q) j b, NoDup index ->
  List.length index = List.length pts -> List.length times = List.length pts -> nth_error index j = Some b ->
  exists p, nth_error pts j = Some p /\ loc (combine (combine index pts) times) [b] = [p].
Proof.
  intros index pts times j b N L1 L2. unfold loc. cbn [flat_map]. rewrite app_nil_r. revert pts times j L1 L2 N.
  induction index as [|z index IH]; intros [|p pts] [|t times] j L1 L2 N H; try discriminate; destruct j as [|j]; try discriminate.
  - cbn in H. injection H as ->. exists p. split; [reflexivity|]. cbn [combine filter fst snd]. rewrite Z.eqb_refl. cbn [map fst snd]. f_equal.
    inversion N as [|? ? N1 N2]; subst. assert (X : filter (fun e : Z * (Q * Q) * Q => Z.eqb (fst (fst e)) b) (combine (combine index pts) times) = []).
    { clear - N1. revert pts times. induction index as [|z index IH]; intros [|p pts] times; try reflexivity. destruct times as [|t times]; [reflexivity|].
      cbn [combine filter fst snd]. destruct (Z.eqb_spec z b) as [E|E]; [subst; exfalso; apply N1; left; auto|]. apply IH. intro Y; apply N1; right; auto. }
    rewrite X. reflexivity.
  - cbn in H. inversion N as [|? ? N1 N2]; subst. destruct (IH pts times j) as [q [A B]]; auto. exists q. split; [exact A|].
    cbn [combine filter fst snd]. destruct (Z.eqb_spec z b) as [E|E]; [subst; exfalso; apply N1; apply (nth_error_In _ j); auto|]. exact B.
Qed.
Lemma loc_app : forall g a b, loc g (a ++ b) = loc g a ++ loc g b.
Proof. intros. unfold loc. apply flat_map_app. Qed.

(** One line per row of the table, from its point to the point of a close row of the
    frame, at least one of the two significant. *)
Theorem C112_lines : forall ball, Ball ball -> forall components f index delta tau gperms perms keep o crit inf rows,
  NoDup index -> kl_from_frame ball f index delta tau gperms perms keep = Ok o -> crit < 1 ->
  kl_hotspots components o (Some crit) inf true = Ok rows ->
  exists lines ps, plot_lines o rows = Ok lines /\ (ps = kl_p_hg o \/ kl_p_sims o = Some ps) /\
    Forall2 (fun r ln => fst ln = fst r /\ exists i j,
      nth_error (f_geoms f) i = Some (Some (fst ln)) /\ nth_error (f_geoms f) j = Some (Some (snd ln)) /\
      FNear f delta tau i j /\ (nth i ps 0 <= crit \/ nth j ps 0 <= crit)) rows lines.
Proof.
  intros ball HB components f index delta tau gperms perms keep o crit inf rows ND H CR HS.
  destruct (C111_hotspots ball HB _ _ _ _ _ _ _ _ _ _ _ _ _ ND H HS) as [ps [sel [LP [PC [_ [_ [_ [_ F]]]]]]]].
  pose proof (C111_connected ball HB _ _ _ _ _ _ _ _ _ _ _ _ _ ND H CR HS) as CN.
  destruct (frame_inv _ _ _ _ _ _ _ _ _ H) as [pts [l [G [L1 [L2 [K [_ [_ [_ [_ [GD _]]]]]]]]]]].
  unfold plot_lines. rewrite GD. set (g := combine (combine index pts) (f_times f)).
  assert (X : exists lines, loc g (map fst (full_rows rows)) = map fst lines /\ loc g (map snd (full_rows rows)) = map snd lines /\
    Forall2 (fun r ln => fst ln = fst r /\ exists i j,
      nth_error (f_geoms f) i = Some (Some (fst ln)) /\ nth_error (f_geoms f) j = Some (Some (snd ln)) /\
      FNear f delta tau i j /\ (nth i ps 0 <= crit \/ nth j ps 0 <= crit)) rows lines).
  { clear HS. induction F as [|i r sel' rows' Y F IH]; [exists []; repeat split; constructor|].
    destruct IH as [lines [A [B C]]]; [intros r' R0; apply CN; right; auto|].
    destruct Y as [AT [n [c [E M]]]]. specialize (CN r (or_introl eq_refl)).
    destruct r as [[x y] rc]. cbn [fst snd] in *. subst rc. cbn [fst snd] in CN.
    destruct n as [[b or]|]; [|contradiction]. destruct M as [j [NR [JX [SG _]]]].
    assert (Hi : (i < List.length pts)%nat).
    { destruct AT as [AT _]. rewrite G, nth_error_map in AT. apply nth_error_Some. destruct (nth_error pts i); [discriminate|cbn in AT; discriminate]. }
    destruct (loc_one index pts (f_times f) i (nth i index 0%Z) ND L1 L2) as [p [P1 P2]]; [apply nth_error_nth'; lia|].
    destruct (loc_one index pts (f_times f) j b ND L1 L2 JX) as [q [Q1 Q2]].
    assert (EP : p = (x, y)). { destruct AT as [AT _]. rewrite G, nth_error_map, P1 in AT. cbn in AT. injection AT as ->. reflexivity. }
    exists ((p, q) :: lines).
    match goal with |- context [full_rows (?a :: rows')] => change (full_rows (a :: rows')) with ([(nth i index 0%Z, b)] ++ full_rows rows')%list end.
    rewrite !map_app, !loc_app, A, B. cbn [map fst snd]. fold g in P2, Q2. rewrite P2, Q2. split; [reflexivity|]. split; [reflexivity|].
    constructor; auto. cbn [fst snd]. split; [auto|]. exists i, j. rewrite G, !nth_error_map, P1, Q1. auto. }
  destruct X as [lines [A [B C]]]. exists lines, ps. rewrite A, B, !map_length, Nat.eqb_refl. split; [|auto].
  f_equal. clear. induction lines as [|[a b] l IH]; [reflexivity|]. cbn [map combine fst snd]. f_equal. exact IH.
Qed.
Print Assumptions C112_lines.

(** Finding: two significant events close to each other need not be joined by a line. *)
Definition f_twelve : frame := mkframe None
  (map Some [(0, 0); (3, 0); (1, 0); (2, 0); (20, 0); (30, 0); (40, 0); (50, 0); (60, 0); (70, 0); (80, 0); (90, 0)]) true
  [0; 3; 1; 2; 20; 30; 40; 50; 60; 70; 80; 90].
Theorem C112_missing_line_refuted : forall components, exists o rows lines,
  kl_from_frame ball_up f_twelve (map Z.of_nat (seq 0 12)) 1 1 [] [] false = Ok o /\
  kl_hotspots components o (Some (5#100)) Analytic true = Ok rows /\ plot_lines o rows = Ok lines /\
  FNear f_twelve 1 1 2 3 /\ nth 2 (kl_p_hg o) 0 <= 5#100 /\ nth 3 (kl_p_hg o) 0 <= 5#100 /\
  nth_error (f_geoms f_twelve) 2 = Some (Some (1, 0)) /\ nth_error (f_geoms f_twelve) 3 = Some (Some (2, 0)) /\
  ~ In ((1, 0), (2, 0)) lines /\ ~ In ((2, 0), (1, 0)) lines.
Proof.
  intro components. match goal with |- exists o rows lines, ?h = _ /\ _ => let r := ok_value h in exists r end.
  match goal with |- exists rows lines, _ /\ ?h = _ /\ _ => let r := ok_value h in exists r end.
  match goal with |- exists lines, _ /\ _ /\ ?h = _ /\ _ => let r := ok_value h in exists r end.
  split; [vm_compute; reflexivity|]. split; [vm_compute; reflexivity|]. split; [vm_compute; reflexivity|]. split.
  - split; [discriminate|]. split; [lra|]. split; [lra|]. exists 1, 0, 1, 2, 0, 2. repeat split; lra.
  - split; [vm_compute; discriminate|]. split; [vm_compute; discriminate|]. split; [reflexivity|]. split; [reflexivity|].
    split; intro X; repeat (destruct X as [X|X]; [discriminate|]); exact X.
Qed.
Print Assumptions C112_missing_line_refuted.

(** Finding: the frame of _gdfhs has no column "geometry"; the points are in two columns. *)
Local Open Scope string_scope.
Theorem C112_columns_refuted : forall permutations,
  In "geometry" (gdf_columns permutations) /\ In "geometry" hotspot_columns /\
  ~ In "geometry" (gdfhs_columns permutations) /\ In "geometry_x" (gdfhs_columns permutations) /\ In "geometry_y" (gdfhs_columns permutations) /\
  (In "p_sim" (gdfhs_columns permutations) <-> (0 < permutations)%nat) /\
  filter (fun c => negb (String.eqb c "p_sim")) (gdfhs_columns permutations) =
    ["geometry_x"; "time"; "p_hypergeom"; "geometry_y"; "focal"; "pvalue"; "focal_time"; "neighbor"; "orientation"; "cluster"].
Proof.
  intros [|n]; unfold gdfhs_columns, gdf_columns; cbn; repeat split; auto 20; try lia; intuition discriminate.
Qed.
Print Assumptions C112_columns_refuted.
Example C112_case : exists o rows lines,
  kl_from_frame ball_up f_seven [7; 5; 3; 1; 0; 2; 4]%Z 1 1 [] [] false = Ok o /\
  kl_hotspots labels1 o (Some (5#100)) Analytic true = Ok rows /\ plot_lines o rows = Ok lines /\ List.length lines = 2%nat /\
  gdfhs_columns 0 = ["geometry_x"; "time"; "p_hypergeom"; "geometry_y"; "focal"; "pvalue"; "focal_time"; "neighbor"; "orientation"; "cluster"].
Proof.
  match goal with |- exists o rows lines, ?h = _ /\ _ => let r := ok_value h in exists r end.
  match goal with |- exists rows lines, _ /\ ?h = _ /\ _ => let r := ok_value h in exists r end.
  match goal with |- exists lines, _ /\ _ /\ ?h = _ /\ _ => let r := ok_value h in exists r end.
  repeat (split; [vm_compute; reflexivity|]). reflexivity.
Qed.
