(** Proofs about the rectangular quadrat grid. *)
From Coq Require Import ZArith QArith Qround Qminmax List Bool Lia Lqa Setoid Morphisms.
From Verif Require Import Base BaseLemmas Quadrat_model Quadrat_spec.
Import ListNotations.
Local Open Scope Q_scope.

(** ** Bounding box *)
Lemma tight_of_list : forall (f : pt -> Q) p l,
  tight f (p :: l) (Qmin_list (f p) (map f l)) (Qmax_list (f p) (map f l)).
Proof.
  intros f p l. repeat split.
  - destruct H as [->|H]; [apply (proj1 (Qmin_list_le _ _))|].
    apply (proj2 (Qmin_list_le _ _)). apply in_map. auto.
  - destruct H as [->|H]; [apply (proj1 (Qmax_list_ge _ _))|].
    apply (proj2 (Qmax_list_ge _ _)). apply in_map. auto.
  - destruct (Qmin_list_in (map f l) (f p)) as [y [H1 H2]].
    destruct H1 as [H1|H1]; [exists p; subst; simpl; auto|].
    apply in_map_iff in H1. destruct H1 as [q [H1 H3]]. exists q. subst; simpl; auto.
  - destruct (Qmax_list_in (map f l) (f p)) as [y [H1 H2]].
    destruct H1 as [H1|H1]; [exists p; subst; simpl; auto|].
    apply in_map_iff in H1. destruct H1 as [q [H1 H3]]. exists q. subst; simpl; auto.
Qed.

Lemma compute_mbb_tight : forall pts b, compute_mbb pts = Ok b ->
  pts <> [] /\ tight fst pts (bxmin b) (bxmax b) /\ tight snd pts (bymin b) (bymax b).
Proof.
  intros [|p l] b H; simpl in H; [discriminate|]. injection H as <-. simpl.
  split; [discriminate|]. split; apply (tight_of_list _ p l).
Qed.

Lemma compute_mbb_ok : forall pts, pts <> [] -> exists b, compute_mbb pts = Ok b.
Proof. intros [|p l] H; [congruence|]. simpl. eauto. Qed.

Lemma spread_range : forall f pts lo hi, tight f pts lo hi -> spread f pts -> lo < hi.
Proof.
  intros f pts lo hi [H _] [p [q [H1 [H2 H3]]]].
  pose proof (H p H1). pose proof (H q H2). lra.
Qed.

Lemma no_spread_range : forall f pts lo hi, tight f pts lo hi ->
  ~ spread f pts -> lo == hi.
Proof.
  intros f pts lo hi [H [[p [Hp1 Hp2]] [q [Hq1 Hq2]]]] Hs.
  assert (lo <= hi) by (specialize (H p Hp1); lra).
  destruct (Qlt_le_dec lo hi); [|lra].
  exfalso. apply Hs. exists p, q. repeat split; auto. lra.
Qed.

(** ** Slots *)
Lemma in_slotb_iff : forall lo w m c x, in_slotb lo w m c x = true <-> in_slot lo w m c x.
Proof.
  intros. unfold in_slotb, in_slot. rewrite !andb_true_iff, orb_true_iff, andb_true_iff.
  rewrite negb_true_iff, Qleb_gt, Qleb_le, Qeqb_eq, Z.leb_le, Z.ltb_lt, Z.eqb_eq. tauto.
Qed.

(** The slot index computed with exact arithmetic. *)
Definition slot_index (x lo w : Q) (m : Z) : Z :=
  let f := Qfloor ((x - lo) / w) in if (f =? m)%Z then (f - 1)%Z else f.

Lemma rect_index_exact : forall x lo w m, 0 < w ->
  exists q, rect_index x lo (Fin w) m = Fin q /\ q == inject_Z (slot_index x lo w m).
Proof.
  intros. unfold rect_index, xfloordiv, slot_index, xeqz.
  destruct (Qeq_bool w 0) eqn:E; qb; [lra|].
  destruct (Qeq_bool (inject_Z (Qfloor ((x - lo) / w))) (inject_Z m)) eqn:E1; qb.
  - apply inject_Z_eq_inv in E1. rewrite E1, Z.eqb_refl. simpl. eexists; split; eauto.
    unfold Zminus. rewrite inject_Z_plus. reflexivity.
  - destruct (Z.eqb_spec (Qfloor ((x - lo) / w)) m).
    + exfalso. apply E1. rewrite e. reflexivity.
    + eexists; split; eauto. reflexivity.
Qed.

Lemma rect_index_int : forall x lo w m, 0 < w ->
  xint (rect_index x lo (Fin w) m) = Ok (slot_index x lo w m).
Proof.
  intros. destruct (rect_index_exact x lo w m H) as [q [H1 H2]].
  rewrite H1. simpl. rewrite H2, Qtrunc_inject. reflexivity.
Qed.

(** The number of slots fits the range. *)
Definition fits (range w : Q) (m : Z) : Prop :=
  (1 <= m)%Z /\ 0 < w /\ (inject_Z m - 1) * w < range <= inject_Z m * w.

Lemma slot_index_in : forall lo hi w m x, fits (hi - lo) w m -> lo <= x <= hi ->
  in_slot lo w m (slot_index x lo w m) x.
Proof.
  intros lo hi w m x [Hm [Hw [F1 F2]]] [H1 H2].
  unfold slot_index. set (f := Qfloor ((x - lo) / w)).
  destruct (Qfloor_bounds ((x - lo) / w)) as [B1 B2]. fold f in B1, B2.
  apply Qle_div_mul in B1; auto. apply Qdiv_lt_mul in B2; auto.
  assert (0 <= f)%Z by (apply Qfloor_nonneg, Qdiv_nonneg; lra).
  assert (f <= m)%Z.
  { apply inject_Z_le_inv. apply Qnot_lt_le. intro.
    assert (inject_Z m * w < inject_Z f * w) by (apply Qmult_lt_compat_r; auto). lra. }
  destruct (Z.eqb_spec f m).
  - rewrite e in *. split; [lia|]. unfold Zminus at 1. rewrite inject_Z_plus.
    change (inject_Z (-(1))) with (-1). split; [nra|]. right. split; [lia|]. lra.
  - split; [lia|]. split; [lra|]. left. lra.
Qed.

Lemma in_slot_unique : forall lo w m c c' x, 0 < w -> in_slot lo w m c x -> in_slot lo w m c' x -> c = c'.
Proof.
  assert (A: forall lo w m c c' x, 0 < w -> in_slot lo w m c x -> in_slot lo w m c' x -> (c <= c')%Z).
  { intros lo w m c c' x Hw [A1 [A2 A3]] [B1 [B2 B3]].
    destruct (Z_le_gt_dec c c') as [|G]; auto. exfalso.
    assert (inject_Z c' + 1 <= inject_Z c).
    { rewrite <- inject_Z_succ. apply inject_Z_le. lia. }
    destruct B3 as [B3|[B3 _]]; [|lia].
    assert ((inject_Z c' + 1) * w <= inject_Z c * w) by (apply Qmult_le_compat_r; lra). lra. }
  intros. apply Z.le_antisymm; eapply A; eauto.
Qed.

Lemma in_slot_iff_index : forall lo hi w m x c, fits (hi - lo) w m -> lo <= x <= hi ->
  in_slot lo w m c x <-> c = slot_index x lo w m.
Proof.
  intros. pose proof (slot_index_in lo hi w m x H H0). split.
  - intros. eapply in_slot_unique; eauto. apply H.
  - intros ->. auto.
Qed.

(** ** Keys of the dictionary *)
Lemma grid_keys : forall cols rows, (0 <= cols)%Z -> (0 <= rows)%Z ->
  flat_map (fun i => map (fun j => (j + i * cols)%Z) (zrange cols)) (zrange rows)
  = zrange (cols * rows).
Proof.
  intros cols rows Hc Hr.
  rewrite <- (Z2Nat.id rows) by auto. clear Hr.
  induction (Z.to_nat rows) as [|k IH].
  - simpl. rewrite Z.mul_0_r. reflexivity.
  - rewrite Nat2Z.inj_succ. unfold Z.succ. rewrite zrange_succ by lia.
    rewrite flat_map_app, IH. simpl. rewrite app_nil_r.
    rewrite Z.mul_add_distr_l, Z.mul_1_r. unfold zrange.
    rewrite (Z2Nat.inj_add (cols * Z.of_nat k) cols) by lia.
    rewrite seq_app, map_app. f_equal. simpl.
    rewrite map_map.
    rewrite <- (Nat.add_0_r (Z.to_nat (cols * Z.of_nat k))) at 1.
    generalize 0%nat. induction (Z.to_nat cols) as [|c IHc] in Hc |- *; intros s; simpl; auto.
    f_equal; [lia|]. rewrite <- Nat.add_succ_r. apply IHc; auto.
Qed.

Lemma dkeys_init : forall l, dkeys (map (fun k => (k, 0%Z)) l) = l.
Proof. induction l; simpl; congruence. Qed.
Lemma dvals_init : forall l, Zsum (dvals (map (fun k => (k, 0%Z)) l)) = 0%Z.
Proof. induction l; simpl; auto. Qed.
Lemma dget_init : forall l j, In j l -> dget (map (fun k => (k, 0%Z)) l) j = Some 0%Z.
Proof.
  induction l; simpl; intros; [tauto|]. destruct (Z.eqb_spec j a); auto.
  apply IHl. destruct H; congruence.
Qed.

(** ** Main counting theorem for a grid that fits the data *)
Lemma rect_count_main : forall r w h,
  rm_w r = Fin w -> rm_h r = Fin h ->
  fits (bxmax (rm_mbb r) - bxmin (rm_mbb r)) w (rm_cols r) ->
  fits (bymax (rm_mbb r) - bymin (rm_mbb r)) h (rm_rows r) ->
  tight fst (rm_points r) (bxmin (rm_mbb r)) (bxmax (rm_mbb r)) ->
  tight snd (rm_points r) (bymin (rm_mbb r)) (bymax (rm_mbb r)) ->
  exists d, rect_location_sta r = Ok d /\
    dkeys d = zrange (rm_cols r * rm_rows r) /\
    Zsum (dvals d) = Z.of_nat (length (rm_points r)) /\
    forall ix iy, (0 <= ix < rm_cols r)%Z -> (0 <= iy < rm_rows r)%Z ->
      dget d (ix + iy * rm_cols r)%Z =
      Some (Z.of_nat (count (fun p =>
              in_slotb (bxmin (rm_mbb r)) w (rm_cols r) ix (fst p) &&
              in_slotb (bymin (rm_mbb r)) h (rm_rows r) iy (snd p)) (rm_points r))).
Proof.
  intros r w h Hw Hh Fx Fy [Tx _] [Ty _].
  set (ix := fun p : pt => slot_index (fst p) (bxmin (rm_mbb r)) w (rm_cols r)).
  set (iy := fun p : pt => slot_index (snd p) (bymin (rm_mbb r)) h (rm_rows r)).
  assert (Kx : forall p, In p (rm_points r) -> (0 <= ix p < rm_cols r)%Z).
  { intros. pose proof (slot_index_in _ _ _ _ _ Fx (Tx p H)). apply H0. }
  assert (Ky : forall p, In p (rm_points r) -> (0 <= iy p < rm_rows r)%Z).
  { intros. pose proof (slot_index_in _ _ _ _ _ Fy (Ty p H)). apply H0. }
  pose proof Fx as [Cx [Wx _]]. pose proof Fy as [Cy [Wy _]].
  destruct (fold_dincr_ok pt (rect_cell_id r) (fun p => iy p * rm_cols r + ix p)%Z
              (rm_points r) (map (fun k => (k, 0%Z)) (rect_keys r))) as [d [D1 [D2 [D3 D4]]]].
  { intros p Hp. unfold rect_cell_id. rewrite Hw, Hh, !rect_index_int by auto. reflexivity. }
  { intros p Hp. rewrite dkeys_init. unfold rect_keys. rewrite grid_keys by lia.
    apply in_zrange. specialize (Kx p Hp). specialize (Ky p Hp). nia. }
  exists d. split; [exact D1|]. split.
  { rewrite D2, dkeys_init. unfold rect_keys. apply grid_keys; lia. }
  split. { rewrite D3, dvals_init. lia. }
  intros jx jy Hjx Hjy. rewrite D4, dget_init.
  2:{ unfold rect_keys. rewrite grid_keys by lia. apply in_zrange. nia. }
  simpl. do 2 f_equal. apply count_ext. intros p Hp. apply eq_true_iff_eq.
  rewrite andb_true_iff, !in_slotb_iff.
  rewrite (in_slot_iff_index _ _ _ _ _ _ Fx (Tx p Hp)), (in_slot_iff_index _ _ _ _ _ _ Fy (Ty p Hp)).
  fold (ix p) (iy p). rewrite Z.eqb_eq. specialize (Kx p Hp). specialize (Ky p Hp).
  split; [|intros [-> ->]; lia].
  intros E. assert (jy = iy p) by nia. split; nia.
Qed.

Lemma fits_ceiling : forall range w, 0 < range -> 0 < w -> fits range w (Qceiling (range / w)).
Proof.
  intros. destruct (Qceiling_bounds (range / w)) as [B1 B2].
  assert (0 < range / w) by (apply Qdiv_pos; auto).
  split; [|split; auto].
  - assert (inject_Z 0 < inject_Z (Qceiling (range / w))) by (change (inject_Z 0) with 0; lra).
    apply inject_Z_lt_inv in H2. lia.
  - apply Qlt_div_mul in B1; auto. apply Qdiv_le_mul in B2; auto.
Qed.

Lemma fits_division : forall range m, 0 < range -> (1 <= m)%Z ->
  fits range (range / inject_Z m) m.
Proof.
  intros. assert (0 < inject_Z m) by (apply inject_Z_pos; lia).
  assert (0 < range / inject_Z m) by (apply Qdiv_pos; auto).
  split; auto. split; auto.
  assert (inject_Z m * (range / inject_Z m) == range) by (field; lra). nra.
Qed.

(** The grid request is meaningful: positive cell size, or a positive number of
    rows and columns. *)
Definition valid_grid (cc cr : Z) (rw rh : Q) : Prop :=
  (0 < rw /\ 0 < rh) \/ ((rw == 0 \/ rh == 0) /\ (1 <= cc)%Z /\ (1 <= cr)%Z).

Lemma rect_init_fits : forall pts cc cr rw rh,
  spread fst pts -> spread snd pts -> valid_grid cc cr rw rh ->
  exists r w h, rect_init pts cc cr rw rh = Ok r /\
    rm_points r = pts /\ rm_num r = (rm_cols r * rm_rows r)%Z /\
    compute_mbb pts = Ok (rm_mbb r) /\
    tight fst pts (bxmin (rm_mbb r)) (bxmax (rm_mbb r)) /\
    tight snd pts (bymin (rm_mbb r)) (bymax (rm_mbb r)) /\
    rm_w r = Fin w /\ rm_h r = Fin h /\
    fits (bxmax (rm_mbb r) - bxmin (rm_mbb r)) w (rm_cols r) /\
    fits (bymax (rm_mbb r) - bymin (rm_mbb r)) h (rm_rows r) /\
    (0 < rw /\ 0 < rh /\ w = rw /\ h = rh \/
     (rw == 0 \/ rh == 0) /\ rm_cols r = cc /\ rm_rows r = cr).
Proof.
  intros pts cc cr rw rh Sx Sy V.
  destruct (compute_mbb_ok pts) as [b Hb].
  { destruct Sx as [p [q [H _]]]. intro; subst; inversion H. }
  destruct (compute_mbb_tight pts b Hb) as [_ [Tx Ty]].
  pose proof (spread_range _ _ _ _ Tx Sx) as Rx. pose proof (spread_range _ _ _ _ Ty Sy) as Ry.
  assert (Rx' : 0 < bxmax b - bxmin b) by lra. assert (Ry' : 0 < bymax b - bymin b) by lra.
  unfold rect_init. rewrite Hb. simpl.
  destruct V as [[V1 V2]|[V1 [V2 V3]]].
  - destruct (Qeq_bool rw 0) eqn:E1; [qb; lra|]. destruct (Qeq_bool rh 0) eqn:E2; [qb; lra|]. simpl.
    eexists; exists rw, rh. split; [reflexivity|]. cbn [rm_points rm_mbb rm_w rm_h rm_cols rm_rows rm_num].
    do 3 (split; [reflexivity || auto|]). split; [exact Tx|]. split; [exact Ty|].
    split; [reflexivity|]. split; [reflexivity|].
    split; [apply fits_ceiling; auto|]. split; [apply fits_ceiling; auto|]. left; auto.
  - assert (E : negb (Qeq_bool rw 0) && negb (Qeq_bool rh 0) = false).
    { destruct V1 as [V1|V1]; apply Qeqb_eq in V1; rewrite V1; simpl; auto. apply andb_false_r. }
    rewrite E. unfold xdiv.
    assert (0 < inject_Z cc) by (apply inject_Z_pos; lia).
    assert (0 < inject_Z cr) by (apply inject_Z_pos; lia).
    destruct (Qeq_bool (inject_Z cc) 0) eqn:E1; [qb; lra|].
    destruct (Qeq_bool (inject_Z cr) 0) eqn:E2; [qb; lra|].
    eexists; eexists; eexists. split; [reflexivity|]. cbn [rm_points rm_mbb rm_w rm_h rm_cols rm_rows rm_num].
    do 3 (split; [reflexivity || auto|]). split; [exact Tx|]. split; [exact Ty|].
    split; [reflexivity|]. split; [reflexivity|].
    split; [apply fits_division; auto|]. split; [apply fits_division; auto|]. right; auto.
Qed.

(** Every location of the bounding box is in exactly one cell. *)
Lemma cells_tile : forall lo hi w m x, fits (hi - lo) w m -> lo <= x <= hi ->
  exists! c, in_slot lo w m c x.
Proof.
  intros. exists (slot_index x lo w m). split. eapply slot_index_in; eauto.
  intros. symmetry. eapply in_slot_iff_index; eauto.
Qed.

(** ** Drawn cells *)
Lemma in_slot_drawn : forall lo hi w m c x, fits (hi - lo) w m -> lo <= x <= hi -> (0 <= c < m)%Z ->
  (in_slot lo w m c x <->
   (lo + inject_Z c * w <= x /\
    (x < lo + inject_Z c * w + w \/
     x == lo + inject_Z c * w + w /\ lo + inject_Z c * w + w == hi))).
Proof.
  intros lo hi w m c x [Hm [Hw [F1 F2]]] [H1 H2] Hc. unfold in_slot. split.
  - intros [_ [A [B|[B1 B2]]]]; (split; [auto|]); [left; lra|].
    subst c. right. unfold Zminus in *. rewrite inject_Z_plus in *.
    change (inject_Z (-(1))) with (-1) in *.
    assert (hi == lo + inject_Z m * w) by lra. split; lra.
  - intros [A B]. split; auto. split; auto. destruct B as [B|[B1 B2]]; [left; lra|].
    right. assert (E : c = (m - 1)%Z).
    { assert (m - 1 < c + 1)%Z; [|lia].
      apply inject_Z_lt_inv. rewrite inject_Z_succ. unfold Zminus. rewrite inject_Z_plus.
      change (inject_Z (-(1))) with (-1).
      apply Qnot_le_lt. intro G.
      assert ((inject_Z c + 1) * w <= (inject_Z m - 1) * w) by (apply Qmult_le_compat_r; lra). lra. }
    split; auto. subst c. unfold Zminus in *. rewrite inject_Z_plus in *.
    change (inject_Z (-(1))) with (-1) in *. lra.
Qed.

Definition in_drawn_cellb (c : box) (xhi yhi : Q) (p : pt) : bool :=
  (Qle_bool (bxmin c) (fst p) &&
     (Qltb (fst p) (bxmax c) || (Qeq_bool (fst p) (bxmax c) && Qeq_bool (bxmax c) xhi))) &&
  (Qle_bool (bymin c) (snd p) &&
     (Qltb (snd p) (bymax c) || (Qeq_bool (snd p) (bymax c) && Qeq_bool (bymax c) yhi))).

Lemma in_drawn_cellb_iff : forall c xhi yhi p,
  in_drawn_cellb c xhi yhi p = true <->
  in_drawn_cell (bxmin c) (bymin c) (bxmax c) (bymax c) xhi yhi p.
Proof.
  intros. unfold in_drawn_cellb, in_drawn_cell.
  rewrite !andb_true_iff, !orb_true_iff, !andb_true_iff.
  rewrite !Qleb_le, !Qltb_lt, !Qeqb_eq. tauto.
Qed.

Lemma rect_drawn_counts : forall r w h d,
  rm_w r = Fin w -> rm_h r = Fin h ->
  fits (bxmax (rm_mbb r) - bxmin (rm_mbb r)) w (rm_cols r) ->
  fits (bymax (rm_mbb r) - bymin (rm_mbb r)) h (rm_rows r) ->
  tight fst (rm_points r) (bxmin (rm_mbb r)) (bxmax (rm_mbb r)) ->
  tight snd (rm_points r) (bymin (rm_mbb r)) (bymax (rm_mbb r)) ->
  rect_location_sta r = Ok d ->
  map (fun c => fst (fst c)) (rect_iter_cells r w h) = dkeys d /\
  forall id c ctr, In (id, c, ctr) (rect_iter_cells r w h) ->
    dget d id = Some (Z.of_nat (count (in_drawn_cellb c (bxmax (rm_mbb r)) (bymax (rm_mbb r))) (rm_points r))).
Proof.
  intros r w h d Hw Hh Fx Fy Tx Ty Hd.
  destruct (rect_count_main r w h Hw Hh Fx Fy Tx Ty) as [d' [D1 [D2 [D3 D4]]]].
  rewrite D1 in Hd. injection Hd as ->.
  pose proof Fx as [Cx _]. pose proof Fy as [Cy _].
  split.
  - rewrite D2. rewrite <- grid_keys by lia. unfold rect_iter_cells.
    rewrite flat_map_concat_map, concat_map, map_map, <- flat_map_concat_map.
    apply flat_map_ext. intros. rewrite map_map. reflexivity.
  - intros id c ctr Hin. unfold rect_iter_cells in Hin. apply in_flat_map in Hin.
    destruct Hin as [iy [H1 H2]]. apply in_map_iff in H2. destruct H2 as [ix [H2 H3]].
    apply in_zrange in H1. apply in_zrange in H3. injection H2 as <- <- <-.
    rewrite D4 by auto. do 2 f_equal. apply count_ext. intros p Hp.
    apply eq_true_iff_eq. rewrite andb_true_iff, !in_slotb_iff, in_drawn_cellb_iff.
    destruct Tx as [Tx _]. destruct Ty as [Ty _].
    rewrite (in_slot_drawn _ _ _ _ _ _ Fx (Tx p Hp) H3), (in_slot_drawn _ _ _ _ _ _ Fy (Ty p Hp) H1).
    unfold in_drawn_cell, rect_cell_bounds. simpl. tauto.
Qed.

(** The centre drawn for a cell lies in the cell. *)
Lemma rect_center_inside : forall r w h id c ctr, 0 < w -> 0 < h ->
  In (id, c, ctr) (rect_iter_cells r w h) ->
  bxmin c < fst ctr < bxmax c /\ bymin c < snd ctr < bymax c.
Proof.
  intros r w h id c ctr Hw Hh Hin. unfold rect_iter_cells in Hin. apply in_flat_map in Hin.
  destruct Hin as [iy [H1 H2]]. apply in_map_iff in H2. destruct H2 as [ix [H2 H3]].
  injection H2 as <- <- <-. unfold cell_center, rect_cell_bounds; simpl. lra.
Qed.

(** ** Degenerate data *)
Lemma rect_degenerate : forall pts cc cr rw rh, pts <> [] -> valid_grid cc cr rw rh ->
  ~ (spread fst pts /\ spread snd pts) ->
  exists r e, rect_init pts cc cr rw rh = Ok r /\ rect_location_sta r = Raise e /\
    (e = ValueError \/ e = KeyError).
Proof.
  intros pts cc cr rw rh Hne V Hs.
  destruct (compute_mbb_ok pts Hne) as [b Hb].
  destruct (compute_mbb_tight pts b Hb) as [_ [Tx Ty]].
  assert (Hdeg : bxmax b - bxmin b == 0 \/ bymax b - bymin b == 0).
  { destruct (Qlt_le_dec (bxmin b) (bxmax b)) as [Lx|Lx].
    - destruct (Qlt_le_dec (bymin b) (bymax b)) as [Ly|Ly].
      + exfalso. apply Hs.
        destruct Tx as [_ [[p1 [A1 A2]] [p2 [A3 A4]]]]. destruct Ty as [_ [[p3 [A5 A6]] [p4 [A7 A8]]]].
        split; [exists p1, p2|exists p3, p4]; repeat split; auto; lra.
      + right. destruct Ty as [A [[p [A1 A2]] _]]. specialize (A p A1). lra.
    - left. destruct Tx as [A [[p [A1 A2]] _]]. specialize (A p A1). lra. }
  assert (Hx : forall p, In p pts -> 0 <= fst p - bxmin b <= bxmax b - bxmin b).
  { intros p Hp. destruct Tx as [A _]. specialize (A p Hp). lra. }
  assert (Hy : forall p, In p pts -> 0 <= snd p - bymin b <= bymax b - bymin b).
  { intros p Hp. destruct Ty as [A _]. specialize (A p Hp). lra. }
  destruct pts as [|p pts]; [congruence|].
  assert (Hp := Hx p (or_introl eq_refl)). assert (Hq := Hy p (or_introl eq_refl)).
  unfold rect_init. rewrite Hb. simpl bind.
  destruct V as [[V1 V2]|[V1 [V2 V3]]].
  - destruct (Qeq_bool rw 0) eqn:E1; [qb; lra|]. destruct (Qeq_bool rh 0) eqn:E2; [qb; lra|].
    cbn [negb andb].
    eexists; exists KeyError. split; [reflexivity|]. split; [|auto].
    unfold rect_location_sta, rect_cell_id. cbn [rm_points rm_mbb rm_w rm_h rm_cols rm_rows].
    cbn [foldM]. rewrite !rect_index_int by auto. cbn [bind].
    rewrite dincr_keyerror; [reflexivity|]. rewrite dkeys_init. unfold rect_keys.
    cbn [rm_cols rm_rows].
    assert (Z0 : forall r s, r == 0 -> 0 < s -> Qceiling (r / s) = 0%Z).
    { intros r s E F. apply Qceiling_spec. change (inject_Z 0) with 0.
      assert (r / s == 0) by (rewrite E; field; lra). lra. }
    destruct Hdeg as [D|D].
    + rewrite (Z0 _ _ D V1). intro G. apply in_flat_map in G. destruct G as [? [_ G]]. inversion G.
    + rewrite (Z0 _ _ D V2). simpl. auto.
  - assert (E : negb (Qeq_bool rw 0) && negb (Qeq_bool rh 0) = false).
    { destruct V1 as [V1|V1]; apply Qeqb_eq in V1; rewrite V1; simpl; auto. apply andb_false_r. }
    rewrite E. eexists; exists ValueError. split; [reflexivity|]. split; [|auto].
    unfold rect_location_sta, rect_cell_id. cbn [rm_points rm_mbb rm_w rm_h rm_cols rm_rows].
    cbn [foldM].
    assert (N : forall x lo r m, (1 <= m)%Z -> r == 0 -> 0 <= x - lo <= r ->
              xint (rect_index x lo (xdiv r (inject_Z m)) m) = Raise ValueError).
    { intros x lo r m Hm Hr Hx0. unfold rect_index, xdiv.
      assert (0 < inject_Z m) by (apply inject_Z_pos; lia).
      destruct (Qeq_bool (inject_Z m) 0) eqn:E1; [qb; lra|].
      unfold xfloordiv.
      destruct (Qeq_bool (r / inject_Z m) 0) eqn:E2.
      2:{ qb. exfalso. apply E2. rewrite Hr. field. lra. }
      unfold xdiv. destruct (Qeq_bool 0 0) eqn:E3; [|qb; exfalso; apply E3; reflexivity].
      destruct (Qeq_bool (x - lo) 0) eqn:E4; [reflexivity|]. qb. exfalso. apply E4. lra. }
    assert (P : forall x lo hi m, (1 <= m)%Z -> 0 <= x - lo <= hi - lo ->
              (exists z, xint (rect_index x lo (xdiv (hi - lo) (inject_Z m)) m) = Ok z) \/
              xint (rect_index x lo (xdiv (hi - lo) (inject_Z m)) m) = Raise ValueError).
    { intros x lo hi m Hm H0. assert (0 < inject_Z m) by (apply inject_Z_pos; lia).
      destruct (Qlt_le_dec lo hi).
      - left. unfold xdiv. destruct (Qeq_bool (inject_Z m) 0) eqn:E1; [qb; lra|].
        eexists. apply rect_index_int. apply Qdiv_pos; lra.
      - right. apply N; auto; lra. }
    destruct Hdeg as [D|D].
    + destruct (P (snd p) (bymin b) (bymax b) cr V3) as [[z Hz]|Hz]; [lra| |].
      * rewrite Hz. cbn [bind]. rewrite N; auto.
      * rewrite Hz. reflexivity.
    + rewrite (N (snd p)); auto.
Qed.

(** ** Every location of the bounding box lies in exactly one drawn cell. *)
Lemma rect_cells_tile : forall r w h p,
  fits (bxmax (rm_mbb r) - bxmin (rm_mbb r)) w (rm_cols r) ->
  fits (bymax (rm_mbb r) - bymin (rm_mbb r)) h (rm_rows r) ->
  bxmin (rm_mbb r) <= fst p <= bxmax (rm_mbb r) ->
  bymin (rm_mbb r) <= snd p <= bymax (rm_mbb r) ->
  exists! cell, In cell (rect_iter_cells r w h) /\
    let c := snd (fst cell) in
    in_drawn_cell (bxmin c) (bymin c) (bxmax c) (bymax c) (bxmax (rm_mbb r)) (bymax (rm_mbb r)) p.
Proof.
  intros r w h p Fx Fy Hx Hy.
  set (ix := slot_index (fst p) (bxmin (rm_mbb r)) w (rm_cols r)).
  set (iy := slot_index (snd p) (bymin (rm_mbb r)) h (rm_rows r)).
  pose proof (slot_index_in _ _ _ _ _ Fx Hx) as Sx. pose proof (slot_index_in _ _ _ _ _ Fy Hy) as Sy.
  fold ix in Sx. fold iy in Sy.
  assert (Kx : (0 <= ix < rm_cols r)%Z) by apply Sx. assert (Ky : (0 <= iy < rm_rows r)%Z) by apply Sy.
  exists ((ix + iy * rm_cols r)%Z, rect_cell_bounds (rm_mbb r) w h ix iy,
          cell_center (rect_cell_bounds (rm_mbb r) w h ix iy)).
  split.
  - split.
    + unfold rect_iter_cells. apply in_flat_map. exists iy. split; [apply in_zrange; auto|].
      apply in_map_iff. exists ix. split; [reflexivity|apply in_zrange; auto].
    + simpl. apply (in_slot_drawn _ _ _ _ _ _ Fx Hx Kx) in Sx.
      apply (in_slot_drawn _ _ _ _ _ _ Fy Hy Ky) in Sy.
      unfold in_drawn_cell, rect_cell_bounds. simpl. tauto.
  - intros [[id c] ctr] [Hin Hc]. unfold rect_iter_cells in Hin. apply in_flat_map in Hin.
    destruct Hin as [jy [H1 H2]]. apply in_map_iff in H2. destruct H2 as [jx [H2 H3]].
    apply in_zrange in H1. apply in_zrange in H3. injection H2 as <- <- <-.
    unfold in_drawn_cell, rect_cell_bounds in Hc. simpl in Hc.
    assert (Ex : jx = ix).
    { apply (in_slot_iff_index _ _ _ _ _ _ Fx Hx). apply (in_slot_drawn _ _ _ _ _ _ Fx Hx H3). tauto. }
    assert (Ey : jy = iy).
    { apply (in_slot_iff_index _ _ _ _ _ _ Fy Hy). apply (in_slot_drawn _ _ _ _ _ _ Fy Hy H1). tauto. }
    subst jx jy. reflexivity.
Qed.
