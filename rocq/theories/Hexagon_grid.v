(** Key set of the hexagonal grid, index ranges, and the counting theorem. *)
From Coq Require Import ZArith QArith Qround Qminmax Qabs List Bool Lia Lqa Setoid Morphisms.
From Verif Require Import Base BaseLemmas Quadrat_model Quadrat_spec Quadrat_proofs Hexagon_proofs.
Import ListNotations.
Local Open Scope Q_scope.

Lemma in_hex_keys : forall h k,
  In k (hex_keys h) <->
  exists i j, (0 <= i < hx_even h)%Z /\ (0 <= j < hx_cols h)%Z /\
    ~ (hx_even h <> hx_odd h /\ i = (hx_even h - 1)%Z /\ (j mod 2 = 1)%Z) /\
    k = (j + i * hx_cols h)%Z.
Proof.
  intros. unfold hex_keys. rewrite in_flat_map. split.
  - intros [i [H1 H2]]. apply in_map_iff in H2. destruct H2 as [j [H2 H3]].
    apply filter_In in H3. destruct H3 as [H3 H4]. apply in_zrange in H1. apply in_zrange in H3.
    exists i, j. split; auto. split; auto. split; [|auto]. intros [A [B C]].
    rewrite B, C, Z.eqb_refl in H4. simpl in H4.
    destruct (Z.eqb_spec (hx_even h) (hx_odd h)); [auto|]. discriminate.
  - intros [i [j [H1 [H2 [H3 H4]]]]]. exists i. split; [apply in_zrange; auto|].
    apply in_map_iff. exists j. split; auto. apply filter_In. split; [apply in_zrange; auto|].
    destruct (Z.eqb_spec (hx_even h) (hx_odd h)); simpl; auto.
    destruct (Z.eqb_spec i (hx_even h - 1)); simpl; auto.
    destruct (Z.eqb_spec (j mod 2) 1); simpl; auto; try (exfalso; auto).
Qed.

Lemma NoDup_flat_map : forall A B (f : A -> list B) l, NoDup l ->
  (forall a, In a l -> NoDup (f a)) ->
  (forall a a' b, In a l -> In a' l -> In b (f a) -> In b (f a') -> a = a') ->
  NoDup (flat_map f l).
Proof.
  induction l; simpl; intros H1 H2 H3; [constructor|]. inversion H1; subst.
  assert (A1 : NoDup (flat_map f l)).
  { apply IHl; auto. intros x y z X Y. apply H3; auto. }
  assert (A2 : forall b, In b (f a) -> ~ In b (flat_map f l)).
  { intros b Hb Hc. apply in_flat_map in Hc. destruct Hc as [x [X1 X2]].
    assert (a = x) by (eapply H3; eauto). subst; auto. }
  clear - A1 A2 H2. specialize (H2 a (or_introl eq_refl)).
  induction (f a); simpl; auto. inversion H2; subst. constructor.
  - rewrite in_app_iff. intros [X|X]; auto. eapply A2; simpl; eauto.
  - apply IHl0; auto. intros; apply A2; simpl; auto.
Qed.

Lemma hex_keys_nodup : forall h, NoDup (hex_keys h).
Proof.
  intros. unfold hex_keys. apply NoDup_flat_map.
  - apply zrange_nodup.
  - intros. apply FinFun.Injective_map_NoDup. { intros x y. lia. }
    apply NoDup_filter, zrange_nodup.
  - intros i i' b _ _ H1 H2.
    apply in_map_iff in H1. destruct H1 as [j [E1 F1]]. apply in_map_iff in H2. destruct H2 as [j' [E2 F2]].
    apply filter_In in F1. apply filter_In in F2.
    destruct F1 as [F1 _]. destruct F2 as [F2 _]. apply in_zrange in F1. apply in_zrange in F2. nia.
Qed.

(** Unfolding of the constructor. *)
Lemma hex_init_inv : forall pts l s h, hex_init pts l s = Ok h ->
  hx_points h = pts /\ hx_l h = l /\ hx_sh h = s /\ compute_mbb pts = Ok (hx_mbb h) /\
  let rx := bxmax (hx_mbb h) - bxmin (hx_mbb h) in
  let ry := bymax (hx_mbb h) - bymin (hx_mbb h) in
  hx_cols h = (1 + (if Qltb (l / 2) rx then Qceiling ((rx - l / 2) / ((3 # 2) * l)) else 0))%Z /\
  hx_even h = (1 + (if Qltb s ry then Qceiling ((ry - s) / (2 * s)) else 0))%Z /\
  hx_odd h = Qceiling (ry / (2 * s)) /\
  hx_num h = (hx_odd h * (hx_cols h / 2 + hx_cols h mod 2) + hx_even h * (hx_cols h / 2))%Z.
Proof.
  intros pts l s h H. unfold hex_init in H. apply bind_ok in H. destruct H as [b [H1 H2]].
  injection H2 as <-. cbn [hx_points hx_l hx_sh hx_mbb hx_cols hx_even hx_odd hx_num]. auto 10.
Qed.

(** Even and odd columns differ by at most one row. *)
Lemma hex_rows_relation : forall pts l s h, hex_init pts l s = Ok h -> 0 < s ->
  (hx_even h = hx_odd h \/ hx_even h = hx_odd h + 1)%Z /\ (1 <= hx_even h)%Z /\ (0 <= hx_odd h)%Z.
Proof.
  intros pts l s h H Hs. destruct (hex_init_inv _ _ _ _ H) as [_ [_ [_ [Hb [_ [He [Ho _]]]]]]].
  destruct (compute_mbb_tight _ _ Hb) as [_ [_ Ty]].
  rewrite He, Ho. set (ry := bymax (hx_mbb h) - bymin (hx_mbb h)) in *.
  assert (R : 0 <= ry).
  { destruct Ty as [A [[p [B C]] _]]. specialize (A p B). unfold ry. lra. }
  set (t := ry / (2 * s)).
  assert (Et : (ry - s) / (2 * s) == t - (1#2)) by (unfold t; field; lra).
  assert (T0 : 0 <= t) by (apply Qdiv_nonneg; lra).
  destruct (Qceiling_bounds t) as [B1 B2].
  assert (Ho0 : (-1 < Qceiling t)%Z).
  { apply inject_Z_lt_inv. change (inject_Z (-1)) with (-1). lra. }
  destruct (Qltb s ry) eqn:E; qb.
  - rewrite Et. destruct (Qceiling_bounds (t - (1#2))) as [A1 A2].
    assert (Z1 : (Qceiling (t - (1#2)) < Qceiling t + 1)%Z).
    { apply inject_Z_lt_inv. rewrite inject_Z_succ. lra. }
    assert (Z2 : (Qceiling t < Qceiling (t - (1#2)) + 2)%Z).
    { apply inject_Z_lt_inv. rewrite inject_Z_plus. change (inject_Z 2) with 2. lra. }
    assert (Z3 : (1 <= Qceiling t)%Z).
    { assert (0 < t) by (apply Qdiv_pos; lra).
      assert (0 < Qceiling t)%Z by (apply inject_Z_lt_inv; change (inject_Z 0) with 0; lra). lia. }
    lia.
  - assert (T1 : t <= 1#2).
    { apply Qdiv_le; [lra|]. lra. }
    assert (Z3 : (Qceiling t < 2)%Z).
    { apply inject_Z_lt_inv. change (inject_Z 2) with 2. lra. }
    lia.
Qed.

(** A pair of indices inside the grid is a key. *)
Lemma hex_key_ok : forall pts l s h cx cy, hex_init pts l s = Ok h -> 0 < s ->
  (0 <= cx < hx_cols h)%Z -> (0 <= cy)%Z ->
  (cy < if (cx mod 2 =? 0)%Z then hx_even h else hx_odd h)%Z ->
  In (cx + cy * hx_cols h)%Z (hex_keys h).
Proof.
  intros pts l s h cx cy H Hs H1 H2 H3.
  destruct (hex_rows_relation _ _ _ _ H Hs) as [R1 R2].
  apply in_hex_keys. exists cy, cx. rewrite <- (negb_involutive (cx mod 2 =? 0)%Z) in H3.
  rewrite <- mod2 in H3.
  destruct (Z.eqb_spec (cx mod 2) 1); simpl in H3; (split; [lia|]; split; [lia|]; split; [|reflexivity]);
    intros [X1 [X2 X3]]; lia.
Qed.

(** Generic size: no coincidence between the data extent and the grid. *)
Definition generic_extent (rx ry l s : Q) : Prop :=
  (forall k : Z, ~ ry == inject_Z k * s) /\
  (forall k : Z, ~ rx == (3 * inject_Z k + 1) * (l / 2)).

Lemma hex_cell_in_grid : forall pts l s h p, hex_init pts l s = Ok h -> 0 < l -> 0 < s ->
  generic_extent (bxmax (hx_mbb h) - bxmin (hx_mbb h)) (bymax (hx_mbb h) - bymin (hx_mbb h)) l s ->
  In p pts ->
  let c := hex_cell h p in
  (0 <= fst c < hx_cols h)%Z /\ (0 <= snd c)%Z /\
  (snd c < if (fst c mod 2 =? 0)%Z then hx_even h else hx_odd h)%Z.
Proof.
  intros pts l s h p H Hl Hs [Gy Gx] Hp c.
  destruct (hex_init_inv _ _ _ _ H) as [Ep [El [Es [Hb [Hc [He [Ho _]]]]]]].
  destruct (compute_mbb_tight _ _ Hb) as [_ [[Tx _] [Ty _]]].
  specialize (Tx p Hp). specialize (Ty p Hp).
  set (rx := bxmax (hx_mbb h) - bxmin (hx_mbb h)) in *.
  set (ry := bymax (hx_mbb h) - bymin (hx_mbb h)) in *.
  assert (Hl' : 0 < hx_l h) by (rewrite El; auto). assert (Hs' : 0 < hx_sh h) by (rewrite Es; auto).
  assert (Ha : 0 < hx_l h / 2) by (apply Qdiv_pos; lra).
  destruct Tx as [Tx1 Tx2]. destruct Ty as [Ty1 Ty2].
  split.
  - assert (U : (fst p - bxmin (hx_mbb h)) / (hx_l h / 2) <= rx / (l / 2)).
    { rewrite El in *. apply Qle_div; auto. unfold rx.
      apply Qle_trans with (fst p - bxmin (hx_mbb h)); [|lra].
      apply Qle_lteq. right. field. lra. }
    assert (C : rx / (l / 2) < 3 * inject_Z (hx_cols h - 1) + 1).
    { rewrite El in Ha. rewrite Hc. apply Qdiv_lt; auto.
      destruct (Qltb (l / 2) rx) eqn:E; qb.
      - replace (1 + Qceiling ((rx - l / 2) / ((3 # 2) * l)) - 1)%Z
          with (Qceiling ((rx - l / 2) / ((3 # 2) * l))) by lia.
        set (z := Qceiling _) in *.
        destruct (Qceiling_bounds ((rx - l / 2) / ((3 # 2) * l))) as [B1 B2]. fold z in B1, B2.
        apply Qdiv_le_mul in B2; [|lra].
        specialize (Gx z).
        assert (rx <= (3 * inject_Z z + 1) * (l / 2)) by (assert (l / 2 == l * (1#2)) by field; nra).
        apply Qle_lteq in H0. destruct H0; [auto|contradiction].
      - simpl. specialize (Gx 0%Z). change (inject_Z 0) with 0 in *.
        assert (rx <= (3 * 0 + 1) * (l / 2)) by lra.
        apply Qle_lteq in H0. destruct H0; [auto|contradiction]. }
    pose proof (hex_cell_col h p Hl' Hs' Tx1 Ty1 _ _ U C). unfold c. lia.
  - unfold c. rewrite hex_cell_row by auto. rewrite <- hex_cell_row by auto.
    set (cx := fst (hex_cell h p)).
    assert (Er : snd (hex_cell h p) = row_of h p cx) by (apply hex_cell_row; auto).
    rewrite Er. destruct (row_bounds h p Hs' Ty1 cx) as [R1 [R2 R3]].
    split; [exact R1|].
    set (t := (snd p - bymin (hx_mbb h)) / (2 * hx_sh h)) in *.
    assert (T : t <= ry / (2 * s)).
    { unfold t. rewrite Es. apply Qle_div; [lra|]. unfold ry.
      apply Qle_trans with (snd p - bymin (hx_mbb h)); [|lra].
      apply Qle_lteq. right. field. lra. }
    set (tm := ry / (2 * s)) in *.
    assert (Em : ry == tm * (2 * s)) by (unfold tm; field; lra).
    destruct (cx mod 2 =? 0)%Z.
    + specialize (R2 eq_refl). rewrite He. destruct (Qltb s ry) eqn:E; qb.
      * assert (Et : (ry - s) / (2 * s) == tm - (1#2)) by (unfold tm; field; lra).
        rewrite Et. destruct (Qceiling_bounds (tm - (1#2))) as [B1 B2].
        apply inject_Z_lt_inv. rewrite inject_Z_plus. change (inject_Z 1) with 1.
        assert (tm - (1#2) < inject_Z (Qceiling (tm - (1 # 2)))).
        { apply Qle_lteq in B2. destruct B2 as [B2|B2]; auto. exfalso.
          apply (Gy (2 * Qceiling (tm - (1#2)) + 1)%Z).
          rewrite inject_Z_plus, inject_Z_mult, <- B2, Em.
          change (inject_Z 2) with 2. change (inject_Z 1) with 1. ring. }
        lra.
      * apply inject_Z_lt_inv. change (inject_Z (1 + 0)) with 1.
        assert (~ tm == 1#2). { intro F. apply (Gy 1%Z). rewrite Em, F. change (inject_Z 1) with 1. ring. }
        assert (tm <= 1#2) by (apply Qdiv_le; lra).
        apply Qle_lteq in H1. destruct H1; [lra|contradiction].
    + specialize (R3 eq_refl). rewrite Ho. fold tm.
      destruct (Qceiling_bounds tm) as [B1 B2].
      apply inject_Z_lt_inv.
      assert (tm < inject_Z (Qceiling tm)); [|lra].
      apply Qle_lteq in B2. destruct B2 as [B2|B2]; auto. exfalso.
      apply (Gy (2 * Qceiling tm)%Z). rewrite inject_Z_mult, <- B2, Em.
      change (inject_Z 2) with 2. ring.
Qed.

(** Decoding of a cell id (lines 430-436) gives back the indices. *)
Lemma hex_center_decode : forall h cx cy, (0 <= cx < hx_cols h)%Z ->
  hex_center h (cx + cy * hx_cols h)
  = hex_ctr (hx_l h) (hx_sh h) (bxmin (hx_mbb h)) (bymin (hx_mbb h)) cx cy.
Proof.
  intros. unfold hex_center, hex_ctr.
  rewrite Z_mod_plus_full, Z.mod_small by lia. rewrite Z_div_plus_full by lia.
  rewrite Z.div_small by lia. rewrite Z.add_0_l. reflexivity.
Qed.

(** ** Distinct hexagons do not overlap *)
Definition in_hex_strict (l s : Q) (c p : pt) : Prop :=
  let dx := fst p - fst c in let dy := snd p - snd c in
  (-s < dy < s) /\
  (l / 2 * dy < s * (l - dx)) /\ (l / 2 * (-dy) < s * (l - dx)) /\
  (l / 2 * dy < s * (l + dx)) /\ (l / 2 * (-dy) < s * (l + dx)).

Lemma in_hex_strict_polygon : forall h c p, 0 < hx_l h -> 0 < hx_sh h ->
  in_hex_strict (hx_l h) (hx_sh h) c p <-> inside_ccw_polygon (hex_vertices h c) p.
Proof.
  intros h [cx cy] [x y] Hl Hs.
  unfold in_hex_strict, inside_ccw_polygon, hex_vertices, strictly_left_of_all, strictly_left_of.
  simpl. set (l := hx_l h) in *. set (s := hx_sh h) in *.
  assert (E : l / 2 == l * (1#2)) by field.
  rewrite !E.
  split.
  - intros [[A1 A2] [A3 [A4 [A5 A6]]]].
    assert (0 < l * (s - (y - cy))) by (apply Qmult_lt_0_compat; lra).
    assert (0 < l * (s + (y - cy))) by (apply Qmult_lt_0_compat; lra).
    repeat split; lra.
  - intros [A1 [A2 [A3 [A4 [A5 A6]]]]].
    assert (B2 : 0 < l * (s - (y - cy))) by lra.
    assert (B5 : 0 < l * (s + (y - cy))) by lra.
    assert (forall z, 0 < l * z -> 0 < z).
    { intros. apply Qnot_le_lt. intro. nra. }
    apply H in B2. apply H in B5. repeat split; lra.
Qed.

(** Normalised vertical position of a centre. *)
Definition vpos (cx cy : Z) : Q :=
  if (cx mod 2 =? 1)%Z then inject_Z cy + (1#2) else inject_Z cy.

Lemma hex_disjoint : forall l s x0 y0 cx cy cx' cy' p, 0 < l -> 0 < s ->
  in_hex_strict l s (hex_ctr l s x0 y0 cx cy) p ->
  in_hex l s (hex_ctr l s x0 y0 cx' cy') p -> cx = cx' /\ cy = cy'.
Proof.
  intros l s x0 y0 cx cy cx' cy' [x y] Hl Hs A B.
  set (a := l / 2). assert (Ha : 0 < a) by (apply Qdiv_pos; lra).
  assert (El : l == 2 * a) by (unfold a; field).
  set (u := (x - x0) / a). set (t := (y - y0) / (2 * s)).
  assert (Ex : x == x0 + u * a) by (unfold u; field; lra).
  assert (Ey : y == y0 + t * (2 * s)) by (unfold t; field; lra).
  assert (Cy : forall c r, snd (hex_ctr l s x0 y0 c r) == y0 + vpos c r * (2 * s)).
  { intros. unfold hex_ctr, vpos. simpl. destruct (c mod 2 =? 1)%Z; ring. }
  assert (Cx : forall c r, fst (hex_ctr l s x0 y0 c r) == x0 + inject_Z c * 3 * a).
  { intros. unfold hex_ctr, a. simpl. field. }
  assert (Pos : 0 < a * s) by (apply Qmult_lt_0_compat; auto).
  (* normalised inequalities *)
  assert (N1 : forall v, v * s < s -> v < 1).
  { intros. apply Qnot_le_lt. intro. nra. }
  assert (N2 : forall v, - s < v * s -> - (1) < v).
  { intros. apply Qnot_le_lt. intro. nra. }
  assert (N1' : forall v, v * s <= s -> v <= 1).
  { intros. apply Qnot_lt_le. intro. nra. }
  assert (N2' : forall v, - s <= v * s -> - (1) <= v).
  { intros. apply Qnot_lt_le. intro. nra. }
  assert (M1 : forall v w, v * (a * s) < w * (a * s) -> v < w).
  { intros. apply Qnot_le_lt. intro. assert (w * (a*s) <= v * (a*s)) by (apply Qmult_le_compat_r; lra). lra. }
  assert (M2 : forall v w, v * (a * s) <= w * (a * s) -> v <= w).
  { intros. apply Qnot_lt_le. intro. assert (w * (a*s) < v * (a*s)) by (apply Qmult_lt_compat_r; auto). lra. }
  unfold in_hex_strict in A. simpl fst in A at 1. 
  destruct A as [[A1 A2] [A3 [A4 [A5 A6]]]]. destruct B as [[B1 B2] [B3 [B4 [B5 B6]]]].
  cbn [fst snd] in *. fold a in A3, A4, A5, A6, B3, B4, B5, B6.
  change (snd (x, y)) with y in *. change (fst (x, y)) with x in *.
  rewrite Cy in A1, A2, A3, A4, A5, A6, B1, B2, B3, B4, B5, B6.
  rewrite Cx in A3, A4, A5, A6, B3, B4, B5, B6.
  rewrite Ey in A1, A2, A3, A4, A5, A6, B1, B2, B3, B4, B5, B6.
  rewrite Ex, El in A3, A4, A5, A6, B3, B4, B5, B6.
  set (p1 := vpos cx cy) in *. set (p2 := vpos cx' cy') in *.
  assert (a1 : - (1) < (t - p1) * 2) by (apply N2; lra).
  assert (a2 : (t - p1) * 2 < 1) by (apply N1; lra).
  assert (b1 : - (1) <= (t - p2) * 2) by (apply N2'; lra).
  assert (b2 : (t - p2) * 2 <= 1) by (apply N1'; lra).
  assert (a3 : (t - p1) * 2 < 2 - (u - inject_Z cx * 3)) by (apply M1; lra).
  assert (a4 : - (t - p1) * 2 < 2 - (u - inject_Z cx * 3)) by (apply M1; lra).
  assert (a5 : (t - p1) * 2 < 2 + (u - inject_Z cx * 3)) by (apply M1; lra).
  assert (a6 : - (t - p1) * 2 < 2 + (u - inject_Z cx * 3)) by (apply M1; lra).
  assert (b3 : (t - p2) * 2 <= 2 - (u - inject_Z cx' * 3)) by (apply M2; lra).
  assert (b4 : - (t - p2) * 2 <= 2 - (u - inject_Z cx' * 3)) by (apply M2; lra).
  assert (b5 : (t - p2) * 2 <= 2 + (u - inject_Z cx' * 3)) by (apply M2; lra).
  assert (b6 : - (t - p2) * 2 <= 2 + (u - inject_Z cx' * 3)) by (apply M2; lra).
  clear A1 A2 A3 A4 A5 A6 B1 B2 B3 B4 B5 B6 N1 N2 N1' N2' M1 M2.
  (* column difference is at most one *)
  assert (D1 : (cx < cx' + 2)%Z).
  { apply inject_Z_lt_inv. rewrite inject_Z_plus. change (inject_Z 2) with 2. lra. }
  assert (D2 : (cx' < cx + 2)%Z).
  { apply inject_Z_lt_inv. rewrite inject_Z_plus. change (inject_Z 2) with 2. lra. }
  destruct (Z.eq_dec cx cx') as [<-|Hne].
  - split; auto. unfold p1, p2, vpos in *.
    assert (cy < cy' + 1)%Z.
    { apply inject_Z_lt_inv. rewrite inject_Z_succ. destruct (cx mod 2 =? 1)%Z; lra. }
    assert (cy' < cy + 1)%Z.
    { apply inject_Z_lt_inv. rewrite inject_Z_succ. destruct (cx mod 2 =? 1)%Z; lra. }
    lia.
  - exfalso.
    assert (Par : (cx' mod 2 =? 1)%Z = negb (cx mod 2 =? 1)%Z).
    { pose proof (Z.div_mod cx 2). pose proof (Z.mod_pos_bound cx 2).
      pose proof (Z.div_mod cx' 2). pose proof (Z.mod_pos_bound cx' 2).
      destruct (Z.eqb_spec (cx mod 2) 1), (Z.eqb_spec (cx' mod 2) 1); simpl; auto; lia. }
    assert (Q1 : p1 - p2 >= (1#2) \/ p2 - p1 >= (1#2)).
    { unfold p1, p2, vpos. rewrite Par.
      destruct (cx mod 2 =? 1)%Z; simpl negb; cbv iota.
      - destruct (Z_le_gt_dec cy' cy).
        + left. assert (inject_Z cy' <= inject_Z cy) by (apply inject_Z_le; auto). lra.
        + right. assert (inject_Z cy + 1 <= inject_Z cy')
            by (rewrite <- inject_Z_succ; apply inject_Z_le; lia). lra.
      - destruct (Z_le_gt_dec cy cy').
        + right. assert (inject_Z cy <= inject_Z cy') by (apply inject_Z_le; auto). lra.
        + left. assert (inject_Z cy' + 1 <= inject_Z cy)
            by (rewrite <- inject_Z_succ; apply inject_Z_le; lia). lra. }
    assert (Q2 : cx' = (cx + 1)%Z \/ cx = (cx' + 1)%Z) by lia.
    destruct Q2 as [->| ->]; rewrite inject_Z_succ in *; destruct Q1; lra.
Qed.

Lemma hex_id_inj : forall n j i j' i', (0 <= j < n)%Z -> (0 <= j' < n)%Z ->
  (j + i * n = j' + i' * n)%Z -> j = j' /\ i = i'.
Proof. intros. assert (i = i') by nia. subst. lia. Qed.

(** ** Counting theorem *)
Lemma hex_count_main : forall pts l s h, hex_init pts l s = Ok h -> 0 < l -> 0 < s ->
  generic_extent (bxmax (hx_mbb h) - bxmin (hx_mbb h)) (bymax (hx_mbb h) - bymin (hx_mbb h)) l s ->
  exists d, hex_location_sta h = Ok d /\ dkeys d = hex_keys h /\
    Zsum (dvals d) = Z.of_nat (length pts) /\
    (forall p, In p pts -> In (hex_cell_id h p) (dkeys d) /\
       in_ccw_polygon (hex_vertices h (hex_center h (hex_cell_id h p))) p) /\
    (forall p id, In p pts -> In id (dkeys d) ->
       inside_ccw_polygon (hex_vertices h (hex_center h id)) p -> hex_cell_id h p = id) /\
    (forall id, In id (dkeys d) ->
       dget d id = Some (Z.of_nat (count (fun p => Z.eqb id (hex_cell_id h p)) pts))).
Proof.
  intros pts l s h H Hl Hs G.
  destruct (hex_init_inv _ _ _ _ H) as [Ep [El [Es [Hb _]]]].
  destruct (compute_mbb_tight _ _ Hb) as [_ [[Tx _] [Ty _]]].
  assert (K : forall p, In p pts -> In (hex_cell_id h p) (hex_keys h)).
  { intros p Hp. destruct (hex_cell_in_grid _ _ _ _ _ H Hl Hs G Hp) as [A [B C]].
    eapply hex_key_ok; eauto. }
  destruct (fold_dincr_ok pt (fun p => Ok (hex_cell_id h p)) (hex_cell_id h) pts
              (map (fun k => (k, 0%Z)) (hex_keys h))) as [d [D1 [D2 [D3 D4]]]].
  { auto. } { intros. rewrite dkeys_init. auto. }
  exists d. split. { unfold hex_location_sta. rewrite Ep. exact D1. }
  rewrite dkeys_init in D2. split; [exact D2|].
  split. { rewrite D3, dvals_init. lia. }
  assert (Cont : forall p, In p pts -> in_hex l s
     (hex_ctr l s (bxmin (hx_mbb h)) (bymin (hx_mbb h)) (fst (hex_cell h p)) (snd (hex_cell h p))) p).
  { intros p Hp. pose proof (hex_cell_contains h p) as X. rewrite El, Es in X.
    apply X; auto. apply Tx; auto. apply Ty; auto. }
  split; [|split].
  - intros p Hp. rewrite D2. split; [auto|].
    apply in_hex_polygon; [rewrite El; auto|rewrite Es; auto|].
    unfold hex_cell_id. rewrite hex_center_decode by (eapply hex_cell_in_grid; eauto).
    rewrite El, Es. apply Cont; auto.
  - intros p id Hp Hid Hin. rewrite D2 in Hid. apply in_hex_keys in Hid.
    destruct Hid as [i [j [I1 [I2 [_ ->]]]]].
    rewrite hex_center_decode in Hin by auto.
    apply in_hex_strict_polygon in Hin; [|rewrite El; auto|rewrite Es; auto].
    rewrite El, Es in Hin.
    destruct (hex_disjoint _ _ _ _ _ _ _ _ _ Hl Hs Hin (Cont p Hp)) as [-> ->]. reflexivity.
  - intros id Hid. rewrite D4, dget_init; [reflexivity|]. rewrite <- D2. auto.
Qed.

(** ** Number of cells *)
Lemma filter_length_odd : forall c, (0 <= c)%Z ->
  Z.of_nat (length (filter (fun j => (j mod 2 =? 1)%Z) (zrange c))) = (c / 2)%Z.
Proof.
  intros c Hc. rewrite <- (Z2Nat.id c) by auto. clear Hc. induction (Z.to_nat c) as [|k IH].
  - reflexivity.
  - rewrite Nat2Z.inj_succ. unfold Z.succ. rewrite zrange_succ by lia.
    rewrite filter_app, app_length, Nat2Z.inj_add, IH. simpl.
    pose proof (Z.div_mod (Z.of_nat k) 2). pose proof (Z.mod_pos_bound (Z.of_nat k) 2).
    pose proof (Z.div_mod (Z.of_nat k + 1) 2). pose proof (Z.mod_pos_bound (Z.of_nat k + 1) 2).
    destruct (Z.eqb_spec (Z.of_nat k mod 2) 1); simpl; lia.
Qed.

Lemma filter_negb_length : forall A (f : A -> bool) l,
  (length (filter f l) + length (filter (fun x => negb (f x)) l) = length l)%nat.
Proof. induction l; simpl; auto. destruct (f a); simpl; lia. Qed.

Lemma hex_row_length : forall h i,
  length (map (fun j => (j + i * hx_cols h)%Z)
      (filter (fun j => negb (negb (hx_even h =? hx_odd h)%Z
                              && (i =? hx_even h - 1)%Z && (j mod 2 =? 1)%Z))
              (zrange (hx_cols h))))
  = if negb (hx_even h =? hx_odd h)%Z && (i =? hx_even h - 1)%Z
    then length (filter (fun j => negb (j mod 2 =? 1)%Z) (zrange (hx_cols h)))
    else Z.to_nat (hx_cols h).
Proof.
  intros. rewrite map_length.
  destruct (negb (hx_even h =? hx_odd h)%Z && (i =? hx_even h - 1)%Z); simpl; [reflexivity|].
  rewrite <- zrange_length. f_equal. induction (zrange (hx_cols h)); simpl; congruence.
Qed.

Lemma hex_keys_length : forall pts l s h, hex_init pts l s = Ok h -> 0 < l -> 0 < s ->
  Z.of_nat (length (hex_keys h)) =
  (hx_even h * (hx_cols h / 2 + hx_cols h mod 2) + hx_odd h * (hx_cols h / 2))%Z.
Proof.
  intros pts l s h H Hl Hs.
  destruct (hex_rows_relation _ _ _ _ H Hs) as [R1 [R2 R3]].
  destruct (hex_init_inv _ _ _ _ H) as [_ [_ [_ [_ [Hc _]]]]].
  assert (C0 : (1 <= hx_cols h)%Z).
  { rewrite Hc. destruct (Qltb (l / 2) _) eqn:E; [|lia]. qb.
    set (rx := bxmax (hx_mbb h) - bxmin (hx_mbb h)) in *.
    assert (-1 < Qceiling ((rx - l / 2) / ((3 # 2) * l)))%Z; [|lia].
    apply inject_Z_lt_inv. change (inject_Z (-1)) with (-1).
    destruct (Qceiling_bounds ((rx - l / 2) / ((3 # 2) * l))) as [_ B].
    assert (0 <= (rx - l / 2) / ((3 # 2) * l)) by (apply Qdiv_nonneg; lra). lra. }
  clear Hc. unfold hex_keys.
  assert (F : forall A B (f : A -> list B) (g : A -> nat) l, (forall a, length (f a) = g a) ->
            length (flat_map f l) = list_sum (map g l)).
  { intros A B f g l0 Hf. induction l0; simpl; auto. rewrite app_length, Hf, IHl0. auto. }
  rewrite (F _ _ _ _ _ (hex_row_length h)). clear F.
  pose proof (filter_length_odd (hx_cols h)) as FO.
  pose proof (filter_negb_length Z (fun j => (j mod 2 =? 1)%Z) (zrange (hx_cols h))) as FN.
  rewrite zrange_length in FN. specialize (FO ltac:(lia)).
  set (ne := length (filter (fun j => negb (j mod 2 =? 1)%Z) (zrange (hx_cols h)))) in *.
  assert (Ene : (Z.of_nat ne = hx_cols h / 2 + hx_cols h mod 2)%Z).
  { pose proof (Z.div_mod (hx_cols h) 2). lia. }
  assert (CS : (hx_cols h = 2 * (hx_cols h / 2) + hx_cols h mod 2)%Z) by (apply Z.div_mod; lia).
  assert (EE : zrange (hx_even h) = zrange (hx_even h - 1) ++ [(hx_even h - 1)%Z]).
  { rewrite <- zrange_succ by lia. f_equal. lia. }
  rewrite EE. rewrite map_app, list_sum_app. cbn [map list_sum fold_right].
  assert (S : list_sum (map (fun a : Z =>
     if negb (hx_even h =? hx_odd h)%Z && (a =? hx_even h - 1)%Z then ne else Z.to_nat (hx_cols h))
     (zrange (hx_even h - 1))) = (Z.to_nat (hx_even h - 1) * Z.to_nat (hx_cols h))%nat).
  { rewrite <- (zrange_length (hx_even h - 1)).
    assert (Q : forall a, In a (zrange (hx_even h - 1)) -> a <> (hx_even h - 1)%Z).
    { intros a Ha. apply in_zrange in Ha. lia. }
    clear EE. induction (zrange (hx_even h - 1)); simpl; auto.
    rewrite IHl0 by (intros; apply Q; simpl; auto).
    destruct (Z.eqb_spec a (hx_even h - 1)). { exfalso. apply (Q a); simpl; auto. }
    rewrite andb_false_r. lia. }
  rewrite S. rewrite Z.eqb_refl, andb_true_r.
  destruct (Z.eqb_spec (hx_even h) (hx_odd h)); simpl negb; cbv iota; simpl Nat.add; nia.
Qed.

Lemma hex_num_iff : forall pts l s h, hex_init pts l s = Ok h -> 0 < l -> 0 < s ->
  (hx_num h = Z.of_nat (length (hex_keys h)) <->
   (hx_cols h mod 2 = 0)%Z \/ hx_even h = hx_odd h).
Proof.
  intros pts l s h H Hl Hs. rewrite (hex_keys_length _ _ _ _ H Hl Hs).
  destruct (hex_init_inv _ _ _ _ H) as [_ [_ [_ [_ [_ [_ [_ ->]]]]]]].
  pose proof (Z.mod_pos_bound (hx_cols h) 2 eq_refl) as M.
  assert (C : (hx_cols h mod 2 = 0 \/ hx_cols h mod 2 = 1)%Z) by lia.
  destruct C as [-> | ->]; split; intros; try nia.
Qed.
