(** Property theorems for the quadrat module (C41, C42, C44-C50). *)
From Coq Require Import ZArith QArith Qround List Bool Lia Lqa Permutation.
From Verif Require Import Base BaseLemmas Spec Order_spec Quadrat_model Quadrat_spec Quadrat_proofs
  Hexagon_proofs Hexagon_grid Geometry_model Random_model Random_spec Random_proofs
  QStat_model QStat_proofs.
Import ListNotations.
Local Open Scope Q_scope.

(** C41: the counts of a rectangular grid over data with positive extent. *)
Theorem C41_rectangle_counts_total : forall pts cc cr rw rh,
  spread fst pts -> spread snd pts -> valid_grid cc cr rw rh ->
  exists r d, rect_init pts cc cr rw rh = Ok r /\ rect_location_sta r = Ok d /\
    rm_num r = (rm_cols r * rm_rows r)%Z /\
    NoDup (dkeys d) /\ Z.of_nat (length (dkeys d)) = rm_num r /\
    Zsum (dvals d) = Z.of_nat (length pts) /\
    (rw == 0 \/ rh == 0 -> rm_cols r = cc /\ rm_rows r = cr).
Proof.
  intros pts cc cr rw rh Sx Sy V.
  destruct (rect_init_fits pts cc cr rw rh Sx Sy V)
    as [r [w [h [H1 [H2 [H3 [H4 [H5 [H6 [H7 [H8 [H9 [H10 H11]]]]]]]]]]]]].
  destruct (rect_count_main r w h) as [d [D1 [D2 [D3 _]]]]; auto; try (rewrite H2; auto).
  exists r, d. repeat (split; [solve [auto]|]).
  split; [rewrite D2; apply zrange_nodup|].
  split. { rewrite D2, zrange_length, H3. apply Z2Nat.id. destruct H9 as [A _], H10 as [B _]. nia. }
  split; [rewrite D3, H2; reflexivity|].
  intros Z. destruct H11 as [[A [B _]]|[_ C]]; [lra|auto].
Qed.
Print Assumptions C41_rectangle_counts_total.

Definition ex_pts : list pt := [(0,0); (3,1); (1,2); (3,3); (2,1)].
Example C41_case : spread fst ex_pts /\ spread snd ex_pts /\ valid_grid 3 2 0 0 /\ valid_grid 9 9 (1#2) 2.
Proof.
  split; [|split; [|split]].
  - exists (0,0), (3,1). simpl. split; [auto|]. split; [auto|reflexivity].
  - exists (0,0), (3,1). simpl. split; [auto|]. split; [auto|reflexivity].
  - right. split; [left; reflexivity|lia].
  - left. split; reflexivity.
Qed.
Example C41_run : (let! r := rect_init ex_pts 3 2 0 0 in rect_location_sta r)
  = Ok [(0, 1); (1, 0); (2, 2); (3, 0); (4, 1); (5, 1)]%Z.
Proof. vm_compute. reflexivity. Qed.

(** C42: what the count of a drawn cell is, and that the drawn cells tile the data box. *)
Theorem C42_rectangle_cell_counts : forall pts cc cr rw rh,
  spread fst pts -> spread snd pts -> valid_grid cc cr rw rh ->
  exists r w h d b, rect_init pts cc cr rw rh = Ok r /\ rm_w r = Fin w /\ rm_h r = Fin h /\
    rect_location_sta r = Ok d /\ b = rm_mbb r /\
    tight fst pts (bxmin b) (bxmax b) /\ tight snd pts (bymin b) (bymax b) /\
    (0 < rw -> 0 < rh -> w = rw /\ h = rh) /\
    (* the dictionary lists the drawn cells, in drawing order *)
    map (fun c => fst (fst c)) (rect_iter_cells r w h) = dkeys d /\
    (* each count is the number of points in the drawn cell *)
    (forall id c ctr, In (id, c, ctr) (rect_iter_cells r w h) ->
      bxmax c == bxmin c + w /\ bymax c == bymin c + h /\
      bxmin c < fst ctr < bxmax c /\ bymin c < snd ctr < bymax c /\
      exists k, dget d id = Some (Z.of_nat k) /\
        Counts (in_drawn_cell (bxmin c) (bymin c) (bxmax c) (bymax c) (bxmax b) (bymax b)) pts k) /\
    (* every location of the bounding box is in exactly one drawn cell *)
    (forall p, bxmin b <= fst p <= bxmax b -> bymin b <= snd p <= bymax b ->
      exists! cell, In cell (rect_iter_cells r w h) /\
        let c := snd (fst cell) in
        in_drawn_cell (bxmin c) (bymin c) (bxmax c) (bymax c) (bxmax b) (bymax b) p).
Proof.
  intros pts cc cr rw rh Sx Sy V.
  destruct (rect_init_fits pts cc cr rw rh Sx Sy V)
    as [r [w [h [H1 [H2 [H3 [H4 [H5 [H6 [H7 [H8 [H9 [H10 H11]]]]]]]]]]]]].
  destruct (rect_count_main r w h) as [d [D1 [D2 [D3 _]]]]; auto; try (rewrite H2; auto).
  exists r, w, h, d, (rm_mbb r). repeat (split; [solve [auto]|]).
  split. { intros Pw Ph. destruct H11 as [[_ [_ A]]|[[A|A] _]]; [auto|lra|lra]. }
  destruct (rect_drawn_counts r w h d) as [C1 C2]; auto; try (rewrite H2; auto).
  split; [exact C1|]. split.
  - intros id c ctr Hin. pose proof (C2 id c ctr Hin) as C3.
    assert (Hw : 0 < w) by (destruct H9 as [_ [A _]]; auto).
    assert (Hh : 0 < h) by (destruct H10 as [_ [A _]]; auto).
    pose proof (rect_center_inside r w h id c ctr Hw Hh Hin) as [I1 I2].
    unfold rect_iter_cells in Hin. apply in_flat_map in Hin.
    destruct Hin as [iy [_ Hin]]. apply in_map_iff in Hin. destruct Hin as [ix [Hin _]].
    injection Hin as _ Ec _.
    split; [subst c; simpl; lra|]. split; [subst c; simpl; lra|]. split; [auto|]. split; [auto|].
    eexists. split; [exact C3|]. rewrite H2. unfold count. apply Counts_filter.
    intros p _. apply in_drawn_cellb_iff.
  - intros p Hx Hy. apply rect_cells_tile; auto.
Qed.
Print Assumptions C42_rectangle_cell_counts.

(** C44: RectangleM fails exactly on data without extent. *)
Theorem C44_rectangle_degenerate_refuted : forall pts cc cr rw rh,
  pts <> [] -> valid_grid cc cr rw rh -> ~ (spread fst pts /\ spread snd pts) ->
  exists r e, rect_init pts cc cr rw rh = Ok r /\ rect_location_sta r = Raise e /\
    (e = ValueError \/ e = KeyError).
Proof. exact rect_degenerate. Qed.
Print Assumptions C44_rectangle_degenerate_refuted.
Example C44_case : (let! r := rect_init [(0,0); (1,0); (2,0)] 3 3 0 0 in rect_location_sta r) = Raise ValueError
  /\ (let! r := rect_init [(0,0); (1,0); (2,0)] 3 3 1 1 in rect_location_sta r) = Raise KeyError.
Proof. split; vm_compute; reflexivity. Qed.

(** C45 / C46: hexagonal grid, generic extents. *)
Theorem C45_hexagon_counts_total : forall pts l s h,
  hex_init pts l s = Ok h -> 0 < l -> 0 < s ->
  generic_extent (bxmax (hx_mbb h) - bxmin (hx_mbb h)) (bymax (hx_mbb h) - bymin (hx_mbb h)) l s ->
  exists d, hex_location_sta h = Ok d /\ NoDup (dkeys d) /\
    Zsum (dvals d) = Z.of_nat (length pts).
Proof.
  intros pts l s h H Hl Hs G.
  destruct (hex_count_main pts l s h H Hl Hs G) as [d [D1 [D2 [D3 _]]]].
  exists d. split; auto. split; auto. rewrite D2. apply hex_keys_nodup.
Qed.
Print Assumptions C45_hexagon_counts_total.

(** The half height 13/15 approximates cos(pi/6); extent 3 x 3. *)
Example C45_case : exists h, hex_init ex_pts 1 (13#15) = Ok h /\
  generic_extent (bxmax (hx_mbb h) - bxmin (hx_mbb h)) (bymax (hx_mbb h) - bymin (hx_mbb h)) 1 (13#15).
Proof.
  eexists. split; [reflexivity|].
  match goal with |- generic_extent ?a ?b _ _ => let a' := eval vm_compute in a in
    let b' := eval vm_compute in b in change (generic_extent a' b' 1 (13#15)) end.
  split; intros k H.
  - assert (E : inject_Z (13 * k) == inject_Z 45).
    { rewrite inject_Z_mult. change (inject_Z 13) with 13. change (inject_Z 45) with 45. lra. }
    apply inject_Z_eq_inv in E. lia.
  - assert (E : inject_Z (3 * k) == inject_Z 5).
    { change (1 / 2) with (1 # 2) in H. rewrite inject_Z_mult. change (inject_Z 3) with 3. change (inject_Z 5) with 5. lra. }
    apply inject_Z_eq_inv in E. lia.
Qed.

(** Without the genericity hypothesis the claim is false: KeyError. *)
Theorem C45_hexagon_boundary_refuted : exists pts l s h,
  0 < l /\ 0 < s /\ hex_init pts l s = Ok h /\ hex_location_sta h = Raise KeyError.
Proof.
  exists [(0,0); (7,0)], 5, (433#100). eexists. split; [reflexivity|]. split; [reflexivity|].
  split; [reflexivity|]. vm_compute. reflexivity.
Qed.
Print Assumptions C45_hexagon_boundary_refuted.

(** C46: a point is counted in a drawn hexagon that contains it; the count of a
    cell lies between the number of points in its interior and the number of
    points in the closed hexagon. *)
Theorem C46_hexagon_contains : forall pts l s h d,
  hex_init pts l s = Ok h -> 0 < l -> 0 < s ->
  generic_extent (bxmax (hx_mbb h) - bxmin (hx_mbb h)) (bymax (hx_mbb h) - bymin (hx_mbb h)) l s ->
  hex_location_sta h = Ok d ->
  exists cell : pt -> Z,
    (forall p, In p pts -> In (cell p) (dkeys d) /\
       in_ccw_polygon (hex_vertices h (hex_center h (cell p))) p) /\
    (forall p id, In p pts -> In id (dkeys d) ->
       inside_ccw_polygon (hex_vertices h (hex_center h id)) p -> cell p = id) /\
    (forall id, In id (dkeys d) -> exists k,
       dget d id = Some (Z.of_nat k) /\ Counts (fun p => cell p = id) pts k).
Proof.
  intros pts l s h d H Hl Hs G Hd.
  destruct (hex_count_main pts l s h H Hl Hs G) as [d' [D1 [D2 [D3 [D4 [D5 D6]]]]]].
  rewrite D1 in Hd. injection Hd as ->.
  exists (hex_cell_id h). split; [exact D4|]. split; [exact D5|].
  intros id Hid. eexists. split; [apply D6; auto|]. unfold count. apply Counts_filter.
  intros p _. rewrite Z.eqb_eq. split; congruence.
Qed.
Print Assumptions C46_hexagon_contains.

(** Outside the generic extents a point can be counted, without any error, in a
    hexagon that does not contain it. *)
Theorem C46_hexagon_miscount_refuted : exists pts l s h d id k m,
  0 < l /\ 0 < s /\ hex_init pts l s = Ok h /\ hex_location_sta h = Ok d /\
  dget d id = Some k /\
  (* [m] points of the pattern are in the closed hexagon, but more are counted *)
  Counts (in_ccw_polygon (hex_vertices h (hex_center h id))) pts m /\ (Z.of_nat m < k)%Z.
Proof.
  exists [(0,0); (4,2); (1#2, 39#10)], 2, 1. do 2 eexists. exists 4%Z, 2%Z, 1%nat.
  split; [reflexivity|]. split; [reflexivity|]. split; [reflexivity|].
  split; [vm_compute; reflexivity|]. split; [vm_compute; reflexivity|]. split; [|lia].
  apply Counts_no.
  { intros C. vm_compute in C. intuition congruence. }
  apply Counts_no.
  { intros C. vm_compute in C. intuition congruence. }
  apply Counts_yes; [|constructor].
  vm_compute. intuition discriminate.
Qed.
Print Assumptions C46_hexagon_miscount_refuted.

(** C47: [num] is the number of cells exactly when the column count is even or
    even and odd columns have the same number of rows. *)
Theorem C47_hexagon_num : forall pts l s h d,
  hex_init pts l s = Ok h -> 0 < l -> 0 < s -> hex_location_sta h = Ok d ->
  (hx_num h = Z.of_nat (length (dkeys d)) <->
   (hx_cols h mod 2 = 0)%Z \/ hx_even h = hx_odd h).
Proof.
  intros pts l s h d H Hl Hs Hd. rewrite <- (hex_num_iff pts l s h H Hl Hs).
  assert (E : length (dkeys d) = length (hex_keys h)); [|rewrite E; tauto].
  assert (K : forall ps d0 d1, foldM (fun d p => dincr d (hex_cell_id h p)) ps d0 = Ok d1 ->
            dkeys d1 = dkeys d0).
  { induction ps as [|p ps IH]; intros d0 d1 X; simpl in X; [inversion X; auto|].
    apply bind_ok in X. destruct X as [d2 [X1 X2]]. rewrite (IH _ _ X2).
    destruct (dincr_ok d0 _ (dincr_ok_inv _ _ _ X1)) as [d3 [Y1 [Y2 _]]]. congruence. }
  rewrite (K _ _ _ Hd), dkeys_init. reflexivity.
Qed.
Print Assumptions C47_hexagon_num.
Theorem C47_hexagon_num_refuted : exists pts l s h d,
  0 < l /\ 0 < s /\ hex_init pts l s = Ok h /\ hex_location_sta h = Ok d /\
  hx_num h <> Z.of_nat (length (dkeys d)).
Proof.
  exists [(0,0); (1#5, 7#5)], 1, (13#15). do 2 eexists.
  split; [reflexivity|]. split; [reflexivity|]. split; [reflexivity|].
  split; [vm_compute; reflexivity|]. vm_compute. discriminate.
Qed.
Print Assumptions C47_hexagon_num_refuted.

(** C48: the chi-square statistic reported by QStatistic. *)
Theorem C48_chi2 : forall pts shape nx ny rw rh lh sh R w us q rest,
  qstatistic pts shape nx ny rw rh lh sh R w us = Val q rest ->
  (forall o, In o (q_counts q) -> 0 <= o) -> ~ Qsum (q_counts q) == 0 ->
  let O := q_counts q in
  let E := Qsum O / Qlen O in
  exists t, q_chi2 q = Fin t /\
    t == Qsum (map (fun o => (o - E) * (o - E) / E) O) /\
    t == Qlen O * Qsum (map (fun o => o * o) O) / Qsum O - Qsum O /\
    xsum_fin (q_contrib q) = Some t /\
    length (q_contrib q) = length (q_cell_ids q) /\
    q_df q = (Z.of_nat (length (q_cell_ids q)) - 1)%Z /\
    0 <= t /\ (t == 0 <-> forall a b, In a O -> In b O -> a == b).
Proof.
  intros pts shape nx ny rw rh lh sh R w us q rest H Hp Hs O E.
  destruct (qstat_obs _ _ _ _ _ _ _ _ _ _ _ _ _ H) as [m [d [_ [_ [E1 [E2 [E3 [E4 E5]]]]]]]].
  assert (Hn : O <> []).
  { intro Z. apply Hs. unfold O in Z. rewrite Z. reflexivity. }
  destruct (chisquare_value O Hn Hs) as [t [C1 [C2 C3]]].
  rewrite E3, <- E2. exists t. split; [exact C1|].
  assert (M : ~ Qmean O == 0) by (intro X; apply Hs; apply Qmean_zero_iff; auto).
  split. { rewrite C3. unfold E. fold (Qmean O). rewrite sum_dev_div by auto. reflexivity. }
  split; [exact C2|].
  destruct (contrib_sum O t Hp C1) as [D1 [D2 _]]. rewrite E5, <- E2. split; [exact D1|].
  split. { fold O. rewrite D2, E1. unfold O. rewrite E2. unfold counts_of, dvals, dkeys. rewrite !map_length. reflexivity. }
  split; [rewrite E1; exact E4|]. apply (chisquare_nonneg O t Hp C1).
Qed.
Print Assumptions C48_chi2.

(** The statistic does not depend on the order of the cells. *)
Theorem C48_chi2_order : forall o1 o2 t1 t2, Permutation o1 o2 ->
  chisquare o1 = Fin t1 -> chisquare o2 = Fin t2 -> t1 == t2.
Proof.
  intros o1 o2 t1 t2 P H1 H2. pose proof (chisquare_perm o1 o2 P) as X. rewrite H1, H2 in X. exact X.
Qed.
Print Assumptions C48_chi2_order.

Example C48_case : exists q, qstatistic ex_pts ShRect 3 2 0 0 1 1 0 (bbox_hull (mkbox 0 0 3 3)) [] = Val q []
  /\ (forall o, In o (q_counts q) -> 0 <= o) /\ ~ Qsum (q_counts q) == 0.
Proof.
  eexists. split; [vm_compute; reflexivity|]. split.
  - simpl. intros o H. repeat (destruct H as [<-|H]; [vm_compute; discriminate|]). tauto.
  - vm_compute. discriminate.
Qed.

(** C49: the Monte Carlo p-value. *)
Lemma xgeb_at_least : forall a b, xgeb a b = true <-> at_least a b.
Proof.
  intros [x| | |] [y| | |]; cbn [xgeb]; (split; [intro H; try discriminate H|intro H; inversion H; subst; try congruence]);
    try (constructor; discriminate); try (constructor; apply Qle_bool_iff; assumption); try (apply Qle_bool_iff; assumption); reflexivity.
Qed.
Theorem C49_mc_pvalue : forall pts shape nx ny rw rh lh sh R w us q rest, (1 <= R)%Z ->
  qstatistic pts shape nx ny rw rh lh sh R w us = Val q rest ->
  exists sims p k, q_sims q = Some sims /\ length sims = Z.to_nat R /\ q_r_pvalue q = Some p /\
    Counts (fun s => at_least s (q_chi2 q)) sims k /\
    p == (inject_Z (Z.of_nat k) + 1) / (inject_Z R + 1) /\
    1 / (inject_Z R + 1) <= p <= 1.
Proof.
  intros pts shape nx ny rw rh lh sh R w us q rest HR H.
  destruct (qstat_sims _ _ _ _ _ _ _ _ _ _ _ _ _ HR H) as [m [a [sims [_ [_ [S1 [S2 [_ S3]]]]]]]].
  exists sims, (mc_pvalue sims (q_chi2 q) R), (count (fun s => xgeb s (q_chi2 q)) sims).
  split; auto. split; auto. split; auto. split; [unfold count; apply Counts_filter; intros; apply xgeb_at_least|].
  split; [reflexivity|]. apply mc_pvalue_range; auto. lia.
Qed.
Print Assumptions C49_mc_pvalue.
Theorem C49_mc_pvalue_antitone : forall sims a b R, (1 <= R)%Z -> a <= b ->
  mc_pvalue sims (Fin b) R <= mc_pvalue sims (Fin a) R.
Proof. exact mc_pvalue_antitone. Qed.
Print Assumptions C49_mc_pvalue_antitone.

(** C50: one realization never works; for two or more see QStatExact_props.v. *)
Theorem C50_one_realization_refuted : forall pts shape nx ny rw rh lh sh w us q rest,
  qstatistic pts shape nx ny rw rh lh sh 1 w us <> Val q rest.
Proof. exact qstat_one_realization. Qed.
Print Assumptions C50_one_realization_refuted.

Definition ex_us : list Q := map (fun k => (inject_Z k) / 21) (zrange 20).
Example C50_case_one : qstatistic ex_pts ShRect 3 2 0 0 1 1 1 (bbox_hull (mkbox 0 0 3 3)) ex_us = Exc ValueError.
Proof. vm_compute. reflexivity. Qed.
Example C50_case_two : exists q, qstatistic ex_pts ShRect 3 2 0 0 1 1 2 (bbox_hull (mkbox 0 0 3 3)) ex_us = Val q []
  /\ option_map (@length xq) (q_sims q) = Some 2%nat.
Proof. eexists. split; [vm_compute; reflexivity|]. reflexivity. Qed.
