(** Theorems about len, summary and plot of a point pattern. *)
From Coq Require Import ZArith QArith List Bool String Lia Lqa.
From Verif Require Import Base BaseLemmas Quadrat_model Pattern_model Pattern_spec Pattern_proofs
  PatternRows_proofs Pattern_props PatternView_model PatternView_spec PatternView_proofs.
Import ListNotations.
Local Open Scope Q_scope.

(** ** len *)
(** len(pp), pp.n and the number of rows given agree, whatever was called in between. *)
Theorem C123_len : forall hullf p rows w names cn s ops,
  fst (pattern_init p rows w names cn) = Ok s ->
  pattern_len (history hullf ops s) = List.length rows /\
  fst (read hullf AN (history hullf ops s)) = VZ (Z.of_nat (List.length rows)).
Proof.
  intros hullf p rows w names cn s ops H.
  destruct (init_ok hullf _ _ _ _ _ _ H) as [C [L W]].
  destruct (init_fields _ _ _ _ _ _ H) as [x [y [_ [_ [_ [A4 [_ [_ [A7 _]]]]]]]]].
  destruct (points_columns _ _ _ _ A7) as [_ [_ LP]].
  split.
  - unfold pattern_len. rewrite <- A4. clear - C. revert s C.
    induction ops as [|o ops IH]; intros s C; [reflexivity|].
    destruct (step_ok hullf o s C) as [S1 _].
    change (history hullf (o :: ops) s) with (history hullf ops (step hullf o s)).
    rewrite (IH _ S1). destruct o as [a|w| |m n]; try reflexivity.
    + simpl. destruct (read_step hullf a s C) as [_ [[K1 _] _]]. rewrite K1. reflexivity.
    + simpl. unfold add_marks. apply store_marks_rows.
  - destruct (history_ok hullf ops s C) as [H1 [H2 _]].
    rewrite (read_is hullf _ AN H1). simpl. rewrite H2, LP, A4. reflexivity.
Qed.
Print Assumptions C123_len.

(** ** plot *)
(** The dots are the points in row order, with exchanged axes after an odd number of
    flips; the outlines are the parts of the window in force and the hull of the
    points, which the flips do not touch. The axes are returned on request. *)
Theorem C123_plot : forall hullf p rows w names cn s ops wd title hl ax,
  fst (pattern_init p rows w names cn) = Ok s -> no_marks ops ->
  let s1 := history hullf ops s in
  forall parts, (wd = true -> fst (get_window s1) = WPoly parts) ->
  let r := plot hullf wd title hl ax s1 in
  shows (fst (fst r)) title (if flipped ops then map swap_pt (p_pts s) else p_pts s)
    ((if wd then [parts] else []) ++ (if hl then [[hullf (p_pts s)]] else [])) /\
  snd (fst r) = Ok ax.
Proof.
  intros hullf p rows w names cn s ops wd title hl ax H NM s1 parts HW r.
  destruct (init_ok hullf _ _ _ _ _ _ H) as [C [L W]].
  destruct (init_fields _ _ _ _ _ _ H) as [x [y [_ [A2 [A3 [_ [_ [_ [A7 _]]]]]]]]].
  destruct (points_columns _ _ _ _ A7) as [X [Y LP]]. rewrite <- A2 in X. rewrite <- A3 in Y.
  destruct (history_core hullf ops s C NM) as [H1 [H2 [H3 [H4 H5]]]]. fold s1 in H1, H2, H3, H4, H5.
  set (a := if flipped ops then map (fun p => CNum (snd p)) (p_pts s) else map (fun p => CNum (fst p)) (p_pts s)).
  set (b := if flipped ops then map (fun p => CNum (fst p)) (p_pts s) else map (fun p => CNum (snd p)) (p_pts s)).
  assert (EX : frame_column (p_df s1) (p_x s1) = Ok a).
  { rewrite H1, H3. unfold a. destruct (flipped ops); auto. }
  assert (EY : frame_column (p_df s1) (p_y s1) = Ok b).
  { rewrite H1, H4. unfold b. destruct (flipped ops); auto. }
  destruct (plot_is hullf s1 wd title hl ax a b H5 EX EY) as [P _]. fold r in P.
  assert (E : fst r = (mkfig title a b ((if wd then [parts] else []) ++
                         (if hl then [[hullf (p_pts s)]] else [])) true, Ok ax)).
  { rewrite P, H2. destruct wd; [|reflexivity].
    destruct (get_window_ok hullf s1 H5) as [[V _] _]. rewrite <- V, (HW eq_refl). reflexivity. }
  rewrite E. cbn [fst snd]. split; [|reflexivity].
  unfold shows, dots, a, b. simpl.
  destruct (flipped ops); rewrite combine_map2, ?map_map, !map_length; repeat split.
Qed.
Print Assumptions C123_plot.

(** With the window the pattern was given by default, never replaced, plot(window=True)
    draws the tight bounding box of the points: unless flipped, every dot lies inside it. *)
Theorem C123_plot_default_window : forall hullf p rows names cn s ops title hl ax,
  fst (pattern_init p rows None names cn) = Ok s -> no_marks ops -> no_window ops -> p_pts s <> [] ->
  exists b, tight_box b (p_pts s) /\
    let g := fst (fst (plot hullf true title hl ax (history hullf ops s))) in
    hd [] (fg_patches g) = [bbox_ring b] /\
    forall d, In d (dots g) -> exists q, d = at_pt q /\ covers b (if flipped ops then swap_pt q else q).
Proof.
  intros hullf p rows names cn s ops title hl ax H NM NW NE.
  destruct (init_ok hullf _ _ _ _ _ _ H) as [C [L W]]. simpl in W.
  assert (EB : exists b, compute_mbb (p_pts s) = Ok b).
  { destruct (p_pts s); [congruence|]. simpl. eauto. }
  destruct EB as [b EB]. exists b. pose proof (mbb_tight_box _ _ EB) as T. split; [exact T|].
  assert (HW : fst (get_window (history hullf ops s)) = WPoly [bbox_ring b]).
  { destruct (history_ok hullf ops s C) as [H1 _].
    destruct (get_window_ok hullf _ H1) as [[V _] _]. rewrite V, (history_window hullf ops s C NW).
    unfold window_or_default. rewrite W. unfold mbb_of. rewrite EB. reflexivity. }
  destruct (C123_plot hullf _ _ _ _ _ s ops true title hl ax H NM [bbox_ring b] (fun _ => HW))
    as [[_ [D [PA _]]] _].
  cbv zeta. rewrite D, PA. split; [reflexivity|].
  intros d I. apply in_map_iff in I. destruct I as [q [E I]]. subst d. exists q. split; [reflexivity|].
  destruct T as [T _]. destruct (flipped ops); [|auto].
  apply in_map_iff in I. destruct I as [q' [E I]]. subst q. destruct q' as [u v]. apply (T (u, v) I).
Qed.
Print Assumptions C123_plot_default_window.

(** After flip_coordinates the outline no longer encloses the dots. *)
Definition wide_rows : list drow := [nrow 0 0; nrow 10 1; nrow 6 0].
Theorem C123_flipped_plot_refuted : exists s b, fst (pattern_init 2 wide_rows None None None) = Ok s /\
  let g := fst (fst (plot (fun l => l) true "t" false false (flip s))) in
  hd [] (fg_patches g) = [bbox_ring b] /\ In (at_pt (1, 10)) (dots g) /\ ~ covers b (1, 10).
Proof.
  eexists. exists (mkbox 0 0 10 1). split; [vm_compute; reflexivity|].
  cbv zeta. split; [vm_compute; reflexivity|].
  split; [right; left; vm_compute; reflexivity|].
  unfold covers. simpl. lra.
Qed.
Print Assumptions C123_flipped_plot_refuted.

(** A pattern whose window is not a polygon, like every result of unique(): plotting
    the window fails after dots and title have been drawn; without it plot works. *)
Theorem C123_plot_unique : forall hullf s u title hl ax, built s -> unique s = Ok u ->
  snd (fst (plot hullf true title hl ax u)) = Raise AttributeError /\
  (let g := fst (fst (plot hullf true title hl ax u)) in
   fg_title g = title /\ dots g = map at_pt (p_pts u) /\ fg_patches g = [] /\ fg_equal g = false) /\
  snd (fst (plot hullf false title hl ax u)) = Ok ax /\
  shows (fst (fst (plot hullf false title hl ax u))) title (p_pts u)
    (if hl then [[hullf (p_pts u)]] else []).
Proof.
  intros hullf s u title hl ax B U. assert (BU := U). unfold unique in BU.
  destruct (init_ok hullf _ _ _ _ _ _ BU) as [C [L W]].
  destruct (init_fields _ _ _ _ _ _ BU) as [x [y [_ [A2 [A3 [_ [_ [_ [A7 _]]]]]]]]].
  destruct (points_columns _ _ _ _ A7) as [X [Y LP]]. rewrite <- A2 in X. rewrite <- A3 in Y.
  destruct (plot_is hullf u true title hl ax _ _ C X Y) as [P _].
  unfold window_or_default in P. rewrite W in P. rewrite P. cbn [fst snd].
  split; [reflexivity|]. split.
  { unfold dots. simpl. rewrite combine_map2. repeat split. }
  assert (NM : no_marks []) by (intros m n []).
  destruct (C123_plot hullf _ _ _ _ _ u [] false title hl ax BU NM []) as [Q1 Q2]; [discriminate|].
  split; [exact Q2|exact Q1].
Qed.
Print Assumptions C123_plot_unique.

(** Marks written under other names leave the picture as it was ... *)
Theorem C123_plot_marks : forall hullf p rows w names cn s marks mnames wd title hl ax,
  fst (pattern_init p rows w names cn) = Ok s -> (forall r, In r rows -> List.length r = p) ->
  ~ In (p_x s) mnames -> ~ In (p_y s) mnames ->
  fst (plot hullf wd title hl ax (fst (add_marks s marks (Some mnames)))) = fst (plot hullf wd title hl ax s).
Proof.
  intros hullf p rows w names cn s marks mnames wd title hl ax H HR NX NY.
  destruct (init_ok hullf _ _ _ _ _ _ H) as [C [L W]].
  destruct (init_fields _ _ _ _ _ _ H) as [x [y [_ [A2 [A3 [A4 [A5 [_ [A7 _]]]]]]]]].
  destruct (points_columns _ _ _ _ A7) as [X [Y LP]]. rewrite <- A2 in X. rewrite <- A3 in Y.
  assert (R : rect (p_df s)) by (intros r I; rewrite A4 in I; rewrite A5; auto).
  assert (IC : forall c l, frame_column (p_df s) c = Ok l -> In c (f_cols (p_df s))).
  { intros c l E. unfold frame_column in E. apply col_index_in.
    destruct (col_index c (f_cols (p_df s))); [eauto|discriminate]. }
  unfold add_marks.
  destruct (store_marks_cols mnames marks s (p_x s) R (IC _ _ X) NX) as [_ [CX _]].
  destruct (store_marks_cols mnames marks s (p_y s) R (IC _ _ Y) NY) as [_ [CY _]].
  destruct (store_marks_xy mnames marks s) as [EX EY].
  destruct (store_marks_keeps mnames marks s) as [K1 [K2 K3]].
  set (s1 := fst (store_marks s mnames marks)) in *.
  rewrite X in CX. rewrite Y in CY. rewrite <- EX in CX. rewrite <- EY in CY.
  assert (C1 : coherent hullf s1) by (apply (coherent_ext hullf s); auto).
  destruct (plot_is hullf s1 wd title hl ax _ _ C1 CX CY) as [P1 _].
  destruct (plot_is hullf s wd title hl ax _ _ C X Y) as [P2 _].
  rewrite P1, P2. unfold window_or_default. rewrite K1, K3. reflexivity.
Qed.
Print Assumptions C123_plot_marks.

(** ... but a mark written under the name of the x coordinate is what plot then draws,
    while the points, and with them every attribute, stay those of the construction. *)
Theorem C123_plot_overwritten : forall hullf p rows w names cn s mark wd title hl ax,
  fst (pattern_init p rows w names cn) = Ok s -> (forall r, In r rows -> List.length r = p) ->
  List.length mark = List.length rows -> p_x s <> p_y s ->
  let s1 := fst (add_marks s [mark] (Some [p_x s])) in
  let g := fst (fst (plot hullf wd title hl ax s1)) in
  fg_x g = mark /\ fg_y g = map (fun q => CNum (snd q)) (p_pts s) /\ same_reads hullf s s1.
Proof.
  intros hullf p rows w names cn s mark wd title hl ax H HR LM NXY.
  destruct (init_ok hullf _ _ _ _ _ _ H) as [C [L W]].
  destruct (init_fields _ _ _ _ _ _ H) as [x [y [_ [A2 [A3 [A4 [A5 [_ [A7 _]]]]]]]]].
  destruct (points_columns _ _ _ _ A7) as [X [Y LP]]. rewrite <- A2 in X. rewrite <- A3 in Y.
  assert (R : rect (p_df s)) by (intros r I; rewrite A4 in I; rewrite A5; auto).
  assert (IY : In (p_y s) (f_cols (p_df s))).
  { unfold frame_column in Y. apply col_index_in.
    destruct (col_index (p_y s) (f_cols (p_df s))); [eauto|discriminate]. }
  assert (SC : exists f, set_column (p_df s) (p_x s) mark = Ok f).
  { unfold set_column. rewrite A4, LM, Nat.eqb_refl. destruct (col_index _ _); eauto. }
  destruct SC as [f SC]. destruct (set_column_all _ _ _ _ R SC) as [_ [_ [FX FO]]].
  assert (FY : frame_column f (p_y s) = Ok (map (fun p => CNum (snd p)) (p_pts s))).
  { rewrite FO; auto. }
  unfold add_marks. simpl. rewrite SC. simpl.
  set (s1 := with_df s f (p_nmarks s + 1)).
  assert (C1 : coherent hullf s1) by (apply (coherent_ext hullf s); auto).
  destruct (plot_is hullf s1 wd title hl ax _ _ C1 FX FY) as [P1 _]. rewrite P1.
  split; [|split].
  - destruct (if wd then window_or_default s1 else WPoly []); reflexivity.
  - destruct (if wd then window_or_default s1 else WPoly []); reflexivity.
  - intros a. rewrite (read_is hullf s a C), (read_is hullf s1 a C1). reflexivity.
Qed.
Print Assumptions C123_plot_overwritten.

(** ** summary *)
(** The first summary (no intensity read before): six lines with the number of points,
    the tight box, the area of the window in force, n over that area and the first five
    rows of the data frame. *)
Theorem C123_summary : forall hullf p rows w names cn s ops parts,
  fst (pattern_init p rows w names cn) = Ok s -> ~ In (ORead ALambdaWindow) ops ->
  let s1 := history hullf ops s in
  fst (get_window s1) = WPoly parts ->
  let area := Qsum (map ring_area parts) in
  fst (summary s1) =
    ([LTitle; LPoints (Z.of_nat (List.length rows)); LBox (mbb_of (p_pts s)); LArea area;
      LIntensity (xdiv (inject_Z (Z.of_nat (List.length rows))) area);
      LHead (mkframe (f_cols (p_df s1)) (firstn 5 (f_rows (p_df s1))))], None) /\
  (forall b, mbb_of (p_pts s) = Some b -> tight_box b (p_pts s)) /\
  (no_marks ops -> p_df s1 = p_df s /\ f_rows (p_df s) = rows).
Proof.
  intros hullf p rows w names cn s ops parts H NL s1 HW area.
  destruct (init_ok hullf _ _ _ _ _ _ H) as [C [L W]].
  destruct (init_fields _ _ _ _ _ _ H) as [x [y [_ [A2 [A3 [A4 [A5 [_ [A7 _]]]]]]]]].
  destruct (points_columns _ _ _ _ A7) as [X [Y LP]].
  destruct (history_ok hullf ops s C) as [H1 [H2 [H3 _]]]. fold s1 in H1, H2, H3.
  destruct (get_window_ok hullf s1 H1) as [[V _] _]. rewrite HW in V.
  split; [|split].
  - destruct (summary_is hullf s1 H1) as [S1 _]. rewrite S1, <- V. simpl window_area.
    unfold shown_lambda. rewrite H3 by auto. rewrite L. unfold lambda_of. rewrite <- V. simpl window_area.
    rewrite H2, LP, A4. reflexivity.
  - intros b E. apply mbb_tight_box. unfold mbb_of in E.
    destruct (compute_mbb (p_pts s)); congruence.
  - intros NM. destruct (history_core hullf ops s C NM) as [D _]. auto.
Qed.
Print Assumptions C123_summary.

(** Neither call changes what the object says: the data frame, the axes and every
    attribute are the same afterwards, and a second summary prints the same. *)
Theorem C123_effects : forall hullf p rows w names cn s ops wd title hl ax,
  fst (pattern_init p rows w names cn) = Ok s -> 
  let s1 := history hullf ops s in
  (let s2 := snd (summary s1) in
   p_df s2 = p_df s1 /\ p_x s2 = p_x s1 /\ p_y s2 = p_y s1 /\ same_reads hullf s1 s2 /\
   fst (summary s2) = fst (summary s1)) /\
  (no_marks ops -> let s2 := snd (plot hullf wd title hl ax s1) in
   p_df s2 = p_df s1 /\ p_x s2 = p_x s1 /\ p_y s2 = p_y s1 /\ same_reads hullf s1 s2 /\
   fst (plot hullf wd title hl ax s2) = fst (plot hullf wd title hl ax s1)).
Proof.
  intros hullf p rows w names cn s ops wd title hl ax H s1.
  destruct (init_ok hullf _ _ _ _ _ _ H) as [C [L W]].
  destruct (history_ok hullf ops s C) as [H1 [H2 [H3 _]]]. fold s1 in H1, H2, H3.
  split.
  - destruct (summary_is hullf s1 H1) as [S1 AF].
    pose proof (af_core _ _ _ AF) as [K1 [_ [_ [K4 [K5 K6]]]]].
    split; [exact K1|]. split; [exact K4|]. split; [exact K5|].
    split; [apply after_reads; auto|].
    destruct (summary_is hullf _ (af_coh _ _ _ AF)) as [S2 _].
    rewrite S1, S2, (after_window _ _ _ AF), K1, K6.
    assert (E : shown_lambda (snd (summary s1)) = shown_lambda s1).
    { unfold shown_lambda. rewrite (after_lambda_of _ _ _ AF).
      destruct (af_lam _ _ _ AF) as [E|[E [v [V1 V2]]]]; [rewrite E; reflexivity|].
      rewrite V2, E, V1. reflexivity. }
    rewrite E. reflexivity.
  - intros NM.
    destruct (init_fields _ _ _ _ _ _ H) as [x [y [_ [A2 [A3 [A4 [A5 [_ [A7 _]]]]]]]]].
    destruct (points_columns _ _ _ _ A7) as [X [Y LP]]. rewrite <- A2 in X. rewrite <- A3 in Y.
    destruct (history_core hullf ops s C NM) as [G1 [G2 [G3 [G4 _]]]]. fold s1 in G1, G2, G3, G4.
    assert (EX : exists a, frame_column (p_df s1) (p_x s1) = Ok a).
    { rewrite G1, G3. destruct (flipped ops); eauto. }
    assert (EY : exists b, frame_column (p_df s1) (p_y s1) = Ok b).
    { rewrite G1, G4. destruct (flipped ops); eauto. }
    destruct EX as [a EX]. destruct EY as [b EY].
    destruct (plot_is hullf s1 wd title hl ax a b H1 EX EY) as [P1 AF].
    pose proof (af_core _ _ _ AF) as [K1 [_ [_ [K4 [K5 K6]]]]].
    split; [exact K1|]. split; [exact K4|]. split; [exact K5|].
    split; [apply after_reads; auto|].
    set (s2 := snd (plot hullf wd title hl ax s1)) in *.
    assert (EX2 : frame_column (p_df s2) (p_x s2) = Ok a) by (rewrite K1, K4; exact EX).
    assert (EY2 : frame_column (p_df s2) (p_y s2) = Ok b) by (rewrite K1, K5; exact EY).
    destruct (plot_is hullf s2 wd title hl ax a b (af_coh _ _ _ AF) EX2 EY2) as [P2 _].
    rewrite P1, P2, (after_window _ _ _ AF), K6. reflexivity.
Qed.
Print Assumptions C123_effects.

(** summary of a pattern returned by unique() fails after three lines. *)
Theorem C123_summary_unique : forall s u, built s -> unique s = Ok u ->
  fst (summary u) = ([LTitle; LPoints (Z.of_nat (List.length (p_pts u))); LBox (mbb_of (p_pts u))],
                     Some AttributeError).
Proof.
  intros s u B U. assert (BU := U). unfold unique in BU.
  destruct (init_ok (fun l => l) _ _ _ _ _ _ BU) as [C [L W]].
  destruct (summary_is (fun l => l) u C) as [S1 _]. rewrite S1.
  unfold window_or_default. rewrite W. reflexivity.
Qed.
Print Assumptions C123_summary_unique.

(** Although every attribute reads the same just after it, summary fixes the intensity:
    a window set later shows in the area line and not in the intensity line. So a later
    summary always shows the new area beside the first intensity. *)
Theorem C123_summary_stale : forall hullf p rows w names cn s parts ops parts',
  fst (pattern_init p rows w names cn) = Ok s -> fst (get_window s) = WPoly parts ->
  let s1 := set_window (history hullf ops (snd (summary s))) (Some (WPoly parts')) in
  exists rest, fst (summary s1) =
    (LTitle :: LPoints (Z.of_nat (List.length rows)) :: LBox (mbb_of (p_pts s)) ::
     LArea (Qsum (map ring_area parts')) ::
     LIntensity (xdiv (inject_Z (Z.of_nat (List.length rows))) (Qsum (map ring_area parts))) :: rest, None).
Proof.
  intros hullf p rows w names cn s parts ops parts' H HW s1.
  destruct (init_ok hullf _ _ _ _ _ _ H) as [C [L W]].
  destruct (init_fields _ _ _ _ _ _ H) as [x [y [_ [A2 [A3 [A4 [A5 [_ [A7 _]]]]]]]]].
  destruct (points_columns _ _ _ _ A7) as [X [Y LP]].
  destruct (get_window_ok hullf s C) as [[V _] _]. rewrite HW in V.
  destruct (summary_is hullf s C) as [S1 AF].
  assert (LO : lambda_of s = Ok (xdiv (inject_Z (Z.of_nat (List.length rows))) (Qsum (map ring_area parts)))).
  { unfold lambda_of. rewrite <- V. simpl. rewrite LP, A4. reflexivity. }
  assert (CL : c_lambda_window (p_cache (snd (summary s))) =
    Some (xdiv (inject_Z (Z.of_nat (List.length rows))) (Qsum (map ring_area parts)))).
  { destruct (af_lam _ _ _ AF) as [E|[_ [v [V1 V2]]]]; [|congruence].
    exfalso.
    rewrite L in E. revert E. unfold summary.
    destruct (read_n_ok hullf s C) as [R1 _]. pose proof (read_ok_after _ _ _ _ _ R1) as B1.
    destruct R1 as [_ [_ [C1 [L1 _]]]]. destruct (read_n s) as [n0 t1]. cbn [fst snd] in *.
    destruct (read_mbb_ok hullf t1 C1) as [R2 _]. pose proof (read_ok_after _ _ _ _ _ R2) as B2.
    destruct R2 as [_ [_ [C2 [L2 _]]]]. destruct (read_mbb t1) as [b0 t2]. cbn [fst snd] in *.
    destruct (get_window_ok hullf t2 C2) as [R3 _]. pose proof (read_ok_after _ _ _ _ _ R3) as B3.
    destruct R3 as [V3 [_ [C3 [L3 _]]]]. destruct (get_window t2) as [w0 t3]. cbn [fst snd] in *.
    pose proof (after_trans _ _ _ _ B1 B2) as B12. pose proof (after_trans _ _ _ _ B12 B3) as B13.
    rewrite (after_window _ _ _ B12), <- V in V3. subst w0. simpl window_area.
    assert (L4 : c_lambda_window (p_cache t3) = None) by congruence.
    destruct (read_lambda_window_fresh hullf t3 C3 L4) as [V5 [_ [_ [_ M5]]]].
    rewrite (after_lambda_of _ _ _ B13), LO in V5, M5.
    destruct (read_lambda_window t3) as [r t4]. cbn [fst snd] in *. subst r. simpl. congruence. }
  destruct (history_ok hullf ops _ (af_coh _ _ _ AF)) as [H1 [H2 [_ H4]]].
  specialize (H4 _ CL).
  assert (C2 : coherent hullf s1) by (apply (coherent_ext hullf (history hullf ops (snd (summary s)))); auto).
  destruct (summary_is hullf s1 C2) as [S2 _].
  pose proof (af_core _ _ _ AF) as [_ [_ [_ [_ [_ K6]]]]].
  assert (PP : p_pts s1 = p_pts s) by (simpl; congruence).
  eexists. rewrite S2, PP. unfold window_or_default, shown_lambda. simpl p_win. simpl p_cache.
  rewrite H4, LP, A4. simpl. reflexivity.
Qed.
Print Assumptions C123_summary_stale.

(** Concretely: after one summary and a window a hundred times as large, the summary
    shows an area of 10000 and an intensity of 1/5 for 4 points. *)
Theorem C123_summary_consistent_refuted : exists s a v rest, ex = Ok s /\
  fst (summary (set_window (snd (summary s)) (Some big_window))) =
    ([LTitle; LPoints 4; LBox (mbb_of (p_pts s)); LArea a; LIntensity (Fin v)] ++ rest, None) /\
  a == 10000 /\ ~ v == 4 / a.
Proof.
  do 4 eexists. split; [vm_compute; reflexivity|]. split; [vm_compute; reflexivity|].
  split; [vm_compute; reflexivity|]. vm_compute. discriminate.
Qed.
Print Assumptions C123_summary_consistent_refuted.

(** Six rows, one mark column: the head has five rows; a flip and a new mark. *)
Definition six_rows : list drow :=
  [mrow 1 3 (CStr "b"); mrow 4 5 (CStr "a"); mrow 0 0 (CStr "b"); mrow 2 2 (CStr "a"); mrow 3 1 CNaN;
   mrow 2 4 (CNum 7)].
Example C123_case : exists s s1 a v,
  fst (pattern_init 3 six_rows None None None) = Ok s /\ pattern_len s = 6%nat /\
  fst (summary s) =
    ([LTitle; LPoints 6; LBox (Some (mkbox 0 0 4 5)); LArea a; LIntensity (Fin v);
      LHead (mkframe ["x"; "y"; "mark_0"]%string (firstn 5 six_rows))], None) /\ a == 20 /\ v == 6 # 20 /\
  plot (fun l => firstn 3 l) true "Point Pattern" true true (history (fun l => l) [OFlip; ORead AN] s) =
    (mkfig "Point Pattern" [CNum 3; CNum 5; CNum 0; CNum 2; CNum 1; CNum 4]
       [CNum 1; CNum 4; CNum 0; CNum 2; CNum 3; CNum 2]
       [[[(0, 0); (0, 5); (4, 5); (4, 0); (0, 0)]]; [[(1, 3); (4, 5); (0, 0)]]] true, Ok true, s1).
Proof.
  do 4 eexists. split; [vm_compute; reflexivity|]. split; [vm_compute; reflexivity|].
  split; [vm_compute; reflexivity|]. split; [vm_compute; reflexivity|].
  split; [vm_compute; reflexivity|]. vm_compute. reflexivity.
Qed.
Example C123_case_marks : exists s, ex = Ok s /\
  let s1 := fst (add_marks s [[CNum 9; CNum 9; CNum 9; CStr "q"]] (Some ["x"]%string)) in
  dots (fst (fst (plot (fun l => l) false "" false false s1))) =
    [(CNum 9, CNum 3); (CNum 9, CNum 5); (CNum 9, CNum 0); (CStr "q", CNum 5)] /\
  fst (read_mbb s1) = Some (mkbox 0 0 4 5).
Proof. eexists. split; [vm_compute; reflexivity|]. split; vm_compute; reflexivity. Qed.
