(** Properties C96 and C97: what the quadrat plots show. *)
From Coq Require Import ZArith QArith List Bool Lia Lqa.
From Verif Require Import Base BaseLemmas Spec Quadrat_model Quadrat_spec Quadrat_proofs Quadrat_props Random_model QStat_model QStat_proofs Hexagon_grid QPlot_model.
Import ListNotations.
Local Open Scope Q_scope.

(** ** The dictionary of counts *)
Lemma fold_keys : forall A (key : A -> res Z) l d d',
  foldM (fun d p => bind (key p) (fun k => dincr d k)) l d = Ok d' -> dkeys d' = dkeys d.
Proof.
  intros A key l. induction l as [|p l IH]; intros d d' H; simpl in H; [injection H as <-; reflexivity|].
  apply bind_ok in H. destruct H as (d2 & H1 & H2). rewrite (IH _ _ H2).
  apply bind_ok in H1. destruct H1 as (k & _ & H1).
  destruct (dincr_ok d k (dincr_ok_inv _ _ _ H1)) as (d3 & E & K & _). congruence.
Qed.
Lemma rect_sta_keys : forall r d, rect_location_sta r = Ok d -> dkeys d = rect_keys r.
Proof. intros r d H. unfold rect_location_sta in H. rewrite (fold_keys _ _ _ _ _ H). apply dkeys_init. Qed.
Lemma hex_sta_keys : forall h d, hex_location_sta h = Ok d -> dkeys d = hex_keys h.
Proof.
  intros h d H. unfold hex_location_sta in H.
  rewrite (fold_keys _ (fun p => Ok (hex_cell_id h p)) _ _ _ H). apply dkeys_init.
Qed.
Lemma rect_keys_nodup : forall r, NoDup (rect_keys r).
Proof.
  intro r. unfold rect_keys. destruct (Z_le_gt_dec 0 (rm_cols r)) as [A|A].
  - destruct (Z_le_gt_dec 0 (rm_rows r)) as [B|B]; [rewrite grid_keys by auto; apply zrange_nodup|].
    replace (zrange (rm_rows r)) with (@nil Z); [constructor|]. unfold zrange. replace (Z.to_nat (rm_rows r)) with 0%nat by lia. reflexivity.
  - replace (zrange (rm_cols r)) with (@nil Z).
    + induction (zrange (rm_rows r)); simpl; [constructor|auto].
    + unfold zrange. replace (Z.to_nat (rm_cols r)) with 0%nat by lia. reflexivity.
Qed.
Lemma sta_nodup : forall m d, manager_sta m = Ok d -> NoDup (dkeys d).
Proof.
  intros [r|h] d H; cbn [manager_sta] in H.
  - rewrite (rect_sta_keys _ _ H). apply rect_keys_nodup.
  - rewrite (hex_sta_keys _ _ H). apply hex_keys_nodup.
Qed.
Lemma iter_ids : forall r w h, map (fun c => fst (fst c)) (rect_iter_cells r w h) = rect_keys r.
Proof.
  intros r w h. unfold rect_iter_cells, rect_keys. induction (zrange (rm_rows r)) as [|i l IH]; [reflexivity|].
  cbn [flat_map]. rewrite map_app, IH, map_map. reflexivity.
Qed.

(** When the counting succeeds the cells have a finite size. *)
Lemma finite_size : forall pts cc cr rw rh r d, rect_init pts cc cr rw rh = Ok r -> rect_location_sta r = Ok d ->
  exists w h, rm_w r = Fin w /\ rm_h r = Fin h.
Proof.
  intros pts cc cr rw rh r d I S. unfold rect_init in I. apply bind_ok in I. destruct I as (b & B & I).
  assert (NE : pts <> []) by (intros ->; discriminate).
  destruct (negb (Qeq_bool rw 0) && negb (Qeq_bool rh 0)); injection I as <-; [eexists; eexists; split; reflexivity|].
  cbn [rm_w rm_h].
  assert (K : rect_keys (mkrect pts b cc cr (xdiv (bxmax b - bxmin b) (inject_Z cc)) (xdiv (bymax b - bymin b) (inject_Z cr)) (cc * cr)) <> []).
  { intro E. unfold rect_location_sta in S. rewrite E in S. cbn [rm_points map] in S.
    destruct pts as [|p pts]; [contradiction|]. simpl in S. apply bind_ok in S. destruct S as (d2 & S & _).
    apply bind_ok in S. destruct S as (k & _ & S). discriminate. }
  unfold rect_keys in K. cbn [rm_rows rm_cols] in K. unfold xdiv.
  destruct (Qeq_bool (inject_Z cc) 0) eqn:E1.
  { exfalso. apply K. apply Qeq_bool_iff in E1. apply (inject_Z_eq_inv cc 0) in E1. subst cc. 
    induction (zrange cr); simpl; auto. }
  destruct (Qeq_bool (inject_Z cr) 0) eqn:E2.
  { exfalso. apply K. apply Qeq_bool_iff in E2. apply (inject_Z_eq_inv cr 0) in E2. subst cr. reflexivity. }
  eexists; eexists; split; reflexivity.
Qed.

Lemma cells_exist : forall pts shape nx ny rw rh lh sh m d,
  make_manager pts shape nx ny rw rh lh sh = Ok m -> manager_sta m = Ok d ->
  exists cells, manager_cells m = Ok cells /\ map (fun c => fst (fst c)) cells = dkeys d.
Proof.
  intros pts shape nx ny rw rh lh sh m d M S. destruct shape; cbn [make_manager] in M; [| |discriminate];
    apply bind_ok in M; destruct M as (r & R & M); injection M as <-; cbn [manager_sta manager_cells] in *.
  - destruct (finite_size _ _ _ _ _ _ _ R S) as (w & h & -> & ->). eexists. split; [reflexivity|].
    rewrite map_map. cbn [fst]. rewrite iter_ids. symmetry. apply rect_sta_keys; auto.
  - rewrite S. cbn [bind]. eexists. split; [reflexivity|]. rewrite map_map. cbn [fst]. apply map_id.
Qed.

(** ** Counts *)
(** The plot shows one text per cell of the dictionary, at the centre of the cell:
    its count. *)
Lemma counts_plot : forall pts shape nx ny rw rh lh sh m d c,
  make_manager pts shape nx ny rw rh lh sh = Ok m -> manager_sta m = Ok d ->
  exists cells, manager_cells m = Ok cells /\ map (fun c => fst (fst c)) cells = dkeys d /\
    manager_plot m ShowCounts c =
      Ok (mkdraw (map (fun c => snd (fst c)) cells)
                 (map (fun c => (snd c, LCount (dget0 d (fst (fst c))))) cells) (dkeys d)).
Proof.
  intros. destruct (cells_exist _ _ _ _ _ _ _ _ _ _ H H0) as (cells & C & K). exists cells. split; auto. split; auto.
  unfold manager_plot. rewrite H0. cbn [bind]. rewrite C. cbn [bind]. f_equal.
  rewrite K at 2. f_equal. clear. induction cells as [|a l IH]; cbn [map combine]; [reflexivity|]. rewrite IH. reflexivity.
Qed.

Lemma box_center_inside : forall c, bxmin c < bxmax c -> bymin c < bymax c -> inside_ccw_polygon (box_corners c) (cell_center c).
Proof.
  intros [x0 y0 x1 y1] A B. unfold inside_ccw_polygon, box_corners, cell_center, strictly_left_of_all, strictly_left_of.
  cbn [bxmin bymin bxmax bymax fst snd] in *. repeat split; nra.
Qed.
Lemma hex_center_inside : forall h c, 0 < hx_l h -> 0 < hx_sh h -> inside_ccw_polygon (hex_vertices h c) c.
Proof.
  intros h [x y] A B. apply in_hex_strict_polygon; auto. unfold in_hex_strict. cbn [fst snd].
  set (l := hx_l h) in *. set (s := hx_sh h) in *.
  assert (P : 0 < l * s) by (apply Qmult_lt_0_compat; auto).
  assert (E : l / 2 == l * (1 # 2)) by field. rewrite !E. repeat split; lra.
Qed.

(** Rectangular cells: the text at the centre of a drawn rectangle is the number of
    points in that rectangle. *)
Theorem C96_rectangle_plot : forall pts cc cr rw rh c,
  spread fst pts -> spread snd pts -> valid_grid cc cr rw rh ->
  exists m b dr, make_manager pts ShRect cc cr rw rh 0 0 = Ok m /\ compute_mbb pts = Ok b /\
    manager_plot m ShowCounts c = Ok dr /\
    List.length (dr_patches dr) = List.length (dr_ids dr) /\ List.length (dr_texts dr) = List.length (dr_ids dr) /\
    forall i poly ctr lab, nth_error (dr_patches dr) i = Some poly -> nth_error (dr_texts dr) i = Some (ctr, lab) ->
      inside_ccw_polygon poly ctr /\
      exists cell k, poly = box_corners cell /\ lab = LCount (Z.of_nat k) /\
        Counts (in_drawn_cell (bxmin cell) (bymin cell) (bxmax cell) (bymax cell) (bxmax b) (bymax b)) pts k.
Proof.
  intros pts cc cr rw rh c Sx Sy V.
  destruct (C42_rectangle_cell_counts pts cc cr rw rh Sx Sy V) as (r & w & h & d & b & R & W & H & D & B & _ & _ & _ & K & CT & _).
  exists (MRect r), b. assert (M : make_manager pts ShRect cc cr rw rh 0 0 = Ok (MRect r)) by (cbn [make_manager]; rewrite R; reflexivity).
  destruct (counts_plot _ _ _ _ _ _ _ _ _ d c M D) as (cells & CE & CK & P).
  eexists. split; [exact M|]. split.
  { unfold rect_init in R. apply bind_ok in R. destruct R as (b' & B1 & B2). rewrite B1, B.
    destruct (negb (Qeq_bool rw 0) && negb (Qeq_bool rh 0)); injection B2 as <-; reflexivity. }
  split; [exact P|]. cbn [dr_patches dr_texts dr_ids].
  rewrite <- CK, !map_length. split; [reflexivity|]. split; [reflexivity|].
  intros i poly ctr lab NP NT. cbn [manager_cells] in CE. rewrite W, H in CE. injection CE as <-.
  rewrite nth_error_map in NP, NT. rewrite nth_error_map in NP, NT.
  destruct (nth_error (rect_iter_cells r w h) i) as [[[id cell] ctr']|] eqn:E; [|discriminate].
  cbn [option_map fst snd] in NP, NT. injection NP as <-. injection NT as <- <-.
  apply nth_error_In in E. destruct (CT id cell ctr' E) as (E1 & E2 & I1 & I2 & k & G & CO).
  assert (EC : ctr' = cell_center cell).
  { unfold rect_iter_cells in E. apply in_flat_map in E. destruct E as (iy & _ & E). apply in_map_iff in E.
    destruct E as (ix & E & _). injection E as _ <- <-. reflexivity. }
  split.
  - rewrite EC. apply box_center_inside; lra.
  - exists cell, k. split; auto. split; auto. unfold dget0. rewrite G. reflexivity.
Qed.
Print Assumptions C96_rectangle_plot.

(** Hexagons: the text lies inside the drawn hexagon and shows the number of points
    assigned to it; whenever the counting succeeds, so does the plot. *)
Theorem C96_hexagon_plot : forall pts nx ny rw rh l s m d c,
  make_manager pts ShHex nx ny rw rh l s = Ok m -> 0 < l -> 0 < s -> manager_sta m = Ok d ->
  exists dr, manager_plot m ShowCounts c = Ok dr /\ dr_ids dr = dkeys d /\
    List.length (dr_patches dr) = List.length (dr_ids dr) /\ List.length (dr_texts dr) = List.length (dr_ids dr) /\
    forall i poly ctr lab, nth_error (dr_patches dr) i = Some poly -> nth_error (dr_texts dr) i = Some (ctr, lab) ->
      inside_ccw_polygon poly ctr /\ exists k, lab = LCount k /\ nth_error (dvals d) i = Some k.
Proof.
  intros pts nx ny rw rh l s m d c M L S D.
  destruct (counts_plot _ _ _ _ _ _ _ _ _ d c M D) as (cells & CE & CK & P).
  eexists. split; [exact P|]. cbn [dr_patches dr_texts dr_ids]. split; [reflexivity|].
  rewrite <- CK, !map_length. split; [reflexivity|]. split; [reflexivity|].
  intros i poly ctr lab NP NT. cbn [make_manager] in M. apply bind_ok in M. destruct M as (h & HI & M). injection M as <-.
  destruct (hex_init_inv _ _ _ _ HI) as (_ & Hl & Hs & _).
  cbn [manager_cells manager_sta] in *. rewrite D in CE. cbn [bind] in CE. injection CE as <-.
  rewrite nth_error_map in NP, NT. rewrite nth_error_map in NP, NT.
  destruct (nth_error (dkeys d) i) as [id|] eqn:E; [|discriminate].
  cbn [option_map fst snd] in NP, NT. injection NP as <-. injection NT as <- <-.
  split; [generalize (hex_center h id); intro ctr; apply hex_center_inside; congruence|]. eexists. split; [reflexivity|].
  pose proof (sta_nodup (MHex h) d D) as ND. clear - E ND. revert i E.
  induction d as [|[k v] d IH]; intros [|i] E; try discriminate.
  - cbn in E. injection E as ->. cbn. unfold dget0. cbn. rewrite Z.eqb_refl. reflexivity.
  - cbn in E. unfold dkeys in ND. cbn [map fst] in ND. inversion ND as [|x y Nk ND' EQ]. cbn [dvals map nth_error snd]. 
    unfold dget0. cbn [dget]. destruct (Z.eqb_spec id k) as [->|NE].
    { exfalso. apply Nk. apply nth_error_In in E. exact E. }
    apply (IH ND' i E).
Qed.
Print Assumptions C96_hexagon_plot.

(** ** Contributions *)
Lemma assoc_last_notin : forall l k d, ~ In k (map fst l) -> assoc_last l k d = d.
Proof.
  induction l as [|[k' v] l IH]; intros k d N; [reflexivity|]. cbn [assoc_last]. cbn [map fst In] in N.
  rewrite IH by tauto. destruct (Z.eqb_spec k k'); [subst; tauto|reflexivity].
Qed.
Lemma assoc_last_combine : forall ks vs d, NoDup ks -> List.length ks = List.length vs ->
  map (fun k => assoc_last (combine ks vs) k d) ks = vs.
Proof.
  induction ks as [|k ks IH]; intros [|v vs] d N L; try discriminate; [reflexivity|].
  inversion N as [|x y Nk N' E]. subst. cbn [combine map assoc_last]. rewrite Z.eqb_refl.
  assert (F : map fst (combine ks vs) = ks).
  { clear - L. cbn in L. injection L as L. revert vs L. induction ks; intros [|v2 vs2] L; try discriminate; [reflexivity|]. cbn. f_equal. apply IHks. cbn in L. lia. }
  rewrite assoc_last_notin by (rewrite F; auto). f_equal.
  transitivity (map (fun k => assoc_last (combine ks vs) k d) ks); [|apply IH; [exact N'|cbn in L; lia]]. apply map_ext_in. intros a Ha.
  destruct (Z.eqb_spec a k); [subst; contradiction|reflexivity].
Qed.

(** The chi-square plot of QStatistic shows the cells of the count plot, and at the
    position of the count k the contribution (k - e)^2 / e of that cell, where e is
    the mean count. *)
Theorem C96_contributions : forall pts shape nx ny rw rh lh sh R w us q rest m,
  qstatistic pts shape nx ny rw rh lh sh R w us = Val q rest -> make_manager pts shape nx ny rw rh lh sh = Ok m ->
  0 < Qmean (q_counts q) ->
  exists dc dx, qstat_plot m (q_cell_ids q) (q_contrib q) ShowCounts = Ok dc /\
    qstat_plot m (q_cell_ids q) (q_contrib q) ShowChi2 = Ok dx /\
    dr_patches dx = dr_patches dc /\ dr_ids dc = q_cell_ids q /\ dr_ids dx = q_cell_ids q /\
    List.length (dr_texts dc) = List.length (q_cell_ids q) /\
    map fst (dr_texts dx) = map fst (dr_texts dc) /\
    map snd (dr_texts dc) = map (fun o => LCount (Qtrunc o)) (q_counts q) /\
    map snd (dr_texts dx) = map (fun o => LValue (Fin ((o - Qmean (q_counts q)) * (o - Qmean (q_counts q)) / Qmean (q_counts q)))) (q_counts q).
Proof.
  intros pts shape nx ny rw rh lh sh R w us q rest m QS M E.
  destruct (qstat_obs _ _ _ _ _ _ _ _ _ _ _ _ _ QS) as (m' & d & M' & D & QI & QC & _ & _ & QX).
  rewrite M in M'. injection M' as <-. rewrite QI, QX, QC in *.
  destruct (counts_plot _ _ _ _ _ _ _ _ _ d None M D) as (cells & CE & CK & P).
  assert (LX : List.length (chi2_contrib (counts_of d)) = List.length (dkeys d)).
  { unfold chi2_contrib, counts_of, dvals, dkeys. destruct d as [|kv d]; [reflexivity|]. cbn [map].
    destruct (Qltb _ _); cbn [List.length]; rewrite !map_length; reflexivity. }
  pose proof (sta_nodup m d D) as ND.
  assert (LC : List.length cells = List.length (dkeys d)) by (rewrite <- CK, map_length; reflexivity).
  eexists. eexists. split; [exact P|]. split.
  { cbn [qstat_plot]. rewrite P. cbn [bind dr_ids]. rewrite LX, Nat.eqb_refl.
    rewrite assoc_last_combine by auto. unfold manager_plot. rewrite D. cbn [bind]. rewrite CE. cbn [bind].
    rewrite CK, LX, Nat.eqb_refl. reflexivity. }
  cbn [dr_patches dr_texts dr_ids]. repeat (split; [reflexivity|]). split; [rewrite map_length; exact LC|].
  assert (FST : forall A B (l : list A) (l' : list B), List.length l = List.length l' -> map fst (combine l l') = l /\ map snd (combine l l') = l').
  { clear. induction l as [|a l IH]; intros [|b l'] L; try discriminate; [auto|]. cbn in *. destruct (IH l') as [X Y]; [lia|]. rewrite X, Y. auto. }
  destruct (FST _ _ (map snd cells) (map LValue (chi2_contrib (counts_of d)))) as [F1 F2]; [rewrite !map_length, LX; exact LC|].
  rewrite F1, F2, !map_map. cbn [fst snd]. split; [reflexivity|]. split.
  - rewrite <- (map_map (fun c => fst (fst c)) (fun k => LCount (dget0 d k))), CK.
    unfold counts_of. rewrite map_map. unfold dkeys, dvals. rewrite !map_map. apply map_ext_in. intros [k v] H. cbn [fst snd].
    rewrite Qtrunc_inject. f_equal. clear - ND H. induction d as [|[k' v'] d IH]; [destruct H|].
    unfold dkeys in ND. cbn [map fst] in ND. inversion ND as [|x y Nk ND' EQ]. unfold dget0. cbn [dget]. destruct H as [H|H].
    + injection H as -> ->. rewrite Z.eqb_refl. reflexivity.
    + destruct (Z.eqb_spec k k') as [->|]; [|apply (IH ND' H)]. exfalso. apply Nk. apply (in_map fst) in H. exact H.
  - unfold chi2_contrib. apply Qltb_lt in E. destruct (counts_of d) as [|o l] eqn:EO; [reflexivity|]. rewrite E, map_map. reflexivity.
Qed.
Print Assumptions C96_contributions.

(** ** Arguments *)
Theorem C96_errors : forall pts shape nx ny rw rh lh sh m d show contrib,
  make_manager pts shape nx ny rw rh lh sh = Ok m -> manager_sta m = Ok d ->
  (manager_plot m show contrib = Raise ValueError <->
     show = ShowOther \/ show = ShowChi2 /\ (forall v, contrib = Some v -> List.length v <> List.length (dkeys d))) /\
  (forall e, manager_plot m show contrib = Raise e -> e = ValueError) /\
  (forall ids v, qstat_plot m ids v ShowOther = Raise ValueError).
Proof.
  intros pts shape nx ny rw rh lh sh m d show contrib M D.
  destruct (cells_exist _ _ _ _ _ _ _ _ _ _ M D) as (cells & CE & CK).
  unfold manager_plot. rewrite D. cbn [bind]. rewrite CE. cbn [bind]. rewrite CK.
  split; [|split; [|reflexivity]].
  - destruct show.
    + split; [discriminate|]. intros [X|[X _]]; discriminate.
    + destruct contrib as [v|].
      * destruct (Nat.eqb_spec (List.length v) (List.length (dkeys d))) as [E|E].
        -- split; [discriminate|]. intros [X|[_ X]]; [discriminate|]. exfalso. apply (X v eq_refl E).
        -- split; [|auto]. intros _. right. split; auto. intros v' X. injection X as <-. exact E.
      * split; [|auto]. intros _. right. split; auto. discriminate.
    + split; auto.
  - intro e. destruct show; [discriminate| |intro X; injection X as <-; reflexivity].
    destruct contrib as [v|]; [|intro X; injection X as <-; reflexivity].
    destruct (Nat.eqb _ _); [discriminate|intro X; injection X as <-; reflexivity].
Qed.
Print Assumptions C96_errors.

Definition plot_pts : list pt := [(0, 0); (1, 1); (2, 2); (2, 0)].
Example C96_case : exists m dr, make_manager plot_pts ShRect 2 1 0 0 0 0 = Ok m /\
  manager_plot m ShowCounts None = Ok dr /\
  map snd (dr_texts dr) = [LCount 1; LCount 3] /\
  exists dx, qstat_plot m [0; 1]%Z (chi2_contrib [1; 3]) ShowChi2 = Ok dx /\
    match map snd (dr_texts dx) with [LValue (Fin a); LValue (Fin b)] => a == 1 # 2 /\ b == 1 # 2 | _ => False end.
Proof. eexists. eexists. split; [reflexivity|]. split; [reflexivity|]. split; [reflexivity|]. eexists. split; [reflexivity|]. vm_compute. auto. Qed.

(** ** The outline of the window *)
(** A polygon that is part of a geometry, at any depth. *)
Inductive part_of : geom -> ring -> list ring -> Prop :=
| part_self : forall e l, part_of (GPolygon e l) e l
| part_in : forall gs g e l, In g gs -> part_of g e l -> part_of (GMulti gs) e l.
(** Number of polygons and number of holes. *)
Fixpoint polygons (g : geom) : nat :=
  match g with GPolygon _ _ => 1 | GMulti l => fold_right plus 0 (map polygons l) | GOther => 0 end%nat.
Fixpoint holes (g : geom) : nat :=
  match g with GPolygon _ l => List.length l | GMulti l => fold_right plus 0%nat (map holes l) | GOther => 0%nat end.

Section GeomInd.
  Variable P : geom -> Prop.
  Hypothesis HP : forall e l, P (GPolygon e l).
  Hypothesis HM : forall l, Forall P l -> P (GMulti l).
  Hypothesis HO : P GOther.
  Fixpoint geom_ind' (g : geom) : P g :=
    match g with
    | GPolygon e l => HP e l
    | GMulti l => HM l ((fix go (l : list geom) : Forall P l :=
        match l with [] => Forall_nil _ | g :: t => Forall_cons _ (geom_ind' g) (go t) end) l)
    | GOther => HO
    end.
End GeomInd.

(** A ring is drawn exactly if it is the exterior or a hole of a polygon that is
    part of the window; nothing is drawn twice or left out. *)
Theorem C97_outline : forall g,
  (forall r, In r (window_paths (Some g)) <-> exists e l, part_of g e l /\ (r = e \/ In r l)) /\
  List.length (window_paths (Some g)) = (polygons g + holes g)%nat /\
  window_paths None = [].
Proof.
  intro g. cbn [window_paths]. split; [|split; [|reflexivity]].
  - induction g as [e l|l IH|] using geom_ind'; intro r; cbn [window_to_paths].
    + split.
      * intros [<-|H]; exists e, l; split; auto using part_self.
      * intros (e' & l' & H & D). inversion H; subst. destruct D as [->|D]; [left; auto|right; auto].
    + rewrite in_flat_map. rewrite Forall_forall in IH. split.
      * intros (g & Hg & Hr). apply (IH g Hg) in Hr. destruct Hr as (e & l' & P & D). exists e, l'. split; auto. apply part_in with g; auto.
      * intros (e & l' & P & D). inversion P as [|gs g e0 l0 Hg Pg]; subst. exists g. split; auto. apply (IH g Hg). exists e, l'. auto.
    + split; [intros []|]. intros (e & l' & P & _). inversion P.
  - induction g as [e l|l IH|] using geom_ind'; cbn [window_to_paths polygons holes]; [reflexivity| |reflexivity].
    induction IH as [|g l Hg Hl IH]; cbn [flat_map map fold_right]; [reflexivity|]. rewrite app_length, Hg, IH. lia.
Qed.
Print Assumptions C97_outline.
Example C97_case : let a := [(0, 0); (1, 0); (0, 1)] in let b := [(5, 5)] in let c := [(7, 7)] in
  window_paths (Some (GMulti [GPolygon a [b]; GOther; GMulti [GPolygon c []]])) = [a; b; c].
Proof. reflexivity. Qed.
