(** Proofs about the hexagonal quadrat grid. *)
From Coq Require Import ZArith QArith Qround Qminmax Qabs List Bool Lia Lqa Setoid Morphisms.
From Verif Require Import Base BaseLemmas Quadrat_model Quadrat_spec Quadrat_proofs.
Import ListNotations.
Local Open Scope Q_scope.

(** Centre of the hexagon in column [cx] and row [cy]. *)
Definition hex_ctr (l s x0 y0 : Q) (cx cy : Z) : pt :=
  (inject_Z cx * l / 2 * 3 + x0,
   if (cx mod 2 =? 1)%Z then (inject_Z cy * 2 + 1) * s + y0
   else inject_Z cy * s * 2 + y0).

(** Linear description of a hexagon with centre [c], side [l], half height [s]. *)
Definition in_hex (l s : Q) (c p : pt) : Prop :=
  let dx := fst p - fst c in let dy := snd p - snd c in
  (-s <= dy <= s) /\
  (l / 2 * dy <= s * (l - dx)) /\ (l / 2 * (-dy) <= s * (l - dx)) /\
  (l / 2 * dy <= s * (l + dx)) /\ (l / 2 * (-dy) <= s * (l + dx)).

Lemma in_hex_polygon : forall h c p, 0 < hx_l h -> 0 < hx_sh h ->
  in_hex (hx_l h) (hx_sh h) c p <-> in_ccw_polygon (hex_vertices h c) p.
Proof.
  intros h [cx cy] [x y] Hl Hs. unfold in_hex, in_ccw_polygon, hex_vertices, left_of_all, left_of.
  simpl. set (l := hx_l h) in *. set (s := hx_sh h) in *.
  assert (E : l / 2 == l * (1#2)) by field.
  rewrite !E.
  split.
  - intros [[A1 A2] [A3 [A4 [A5 A6]]]]. repeat split; try nra.
  - intros [A1 [A2 [A3 [A4 [A5 A6]]]]].
    assert (B2 : 0 <= l * (s - (y - cy))) by lra.
    assert (B5 : 0 <= l * (s + (y - cy))) by lra.
    assert (forall z, 0 <= l * z -> 0 <= z).
    { intros. apply Qnot_lt_le. intro. nra. }
    apply H in B2. apply H in B5. repeat split; lra.
Qed.

Lemma mod2 : forall z, (z mod 2 =? 1)%Z = negb (z mod 2 =? 0)%Z.
Proof.
  intros. pose proof (Z.mod_pos_bound z 2).
  destruct (Z.eqb_spec (z mod 2) 1), (Z.eqb_spec (z mod 2) 0); simpl; auto; lia.
Qed.
Lemma mod2_succ : forall z, ((z + 1) mod 2 =? 0)%Z = negb (z mod 2 =? 0)%Z.
Proof.
  intros. pose proof (Z.div_mod z 2). pose proof (Z.mod_pos_bound z 2).
  pose proof (Z.div_mod (z+1) 2). pose proof (Z.mod_pos_bound (z+1) 2).
  destruct (Z.eqb_spec ((z+1) mod 2) 0), (Z.eqb_spec (z mod 2) 0); simpl; auto; lia.
Qed.

(** Point relative to the grid origin. *)
Section Cell.
Variables (h : hexM) (p : pt).
Let l := hx_l h.
Let s := hx_sh h.
Let x0 := bxmin (hx_mbb h).
Let y0 := bymin (hx_mbb h).
Hypothesis Hl : 0 < l.
Hypothesis Hs : 0 < s.
Hypothesis Hx : x0 <= fst p.
Hypothesis Hy : y0 <= snd p.

Let a := l / 2.
Let u := (fst p - x0) / a.
Let t := (snd p - y0) / (2 * s).
Let deg := Qfloor u.
Let ye := Qfloor (t + (1#2)).
Let yo := Qfloor t.

Lemma ha : 0 < a. Proof. unfold a. apply Qdiv_pos; lra. Qed.
Lemma hl2 : l == 2 * a. Proof. unfold a. field. Qed.
Lemma hX : fst p == x0 + u * a. Proof. unfold u. field. pose proof ha. lra. Qed.
Lemma hY : snd p == y0 + t * (2 * s). Proof. unfold t. field. lra. Qed.
Lemma hu0 : 0 <= u. Proof. apply Qdiv_nonneg. lra. apply ha. Qed.
Lemma ht0 : 0 <= t. Proof. apply Qdiv_nonneg; lra. Qed.
Lemma hye : Qtrunc ((snd p + s - y0) / (2 * s)) = ye.
Proof.
  assert (E : (snd p + s - y0) / (2 * s) == t + (1#2)) by (unfold t; field; lra).
  rewrite E. apply Qtrunc_nonneg. pose proof ht0. lra.
Qed.
Lemma hyo : Qtrunc ((snd p - y0) / (2 * s)) = yo.
Proof. apply Qtrunc_nonneg. apply ht0. Qed.

(** Row index used for column [cx]. *)
Definition row_of (cx : Z) : Z := if (cx mod 2 =? 0)%Z then ye else yo.
(** Vertical position of the centre in units of the full height. *)
Definition tc (cx : Z) : Q :=
  if (cx mod 2 =? 0)%Z then inject_Z ye else inject_Z yo + (1#2).

Lemma tc_range : forall cx, tc cx - (1#2) <= t < tc cx + (1#2).
Proof.
  intros. unfold tc. destruct (Qfloor_bounds (t + (1#2))) as [A1 A2].
  destruct (Qfloor_bounds t) as [B1 B2]. fold ye in A1, A2. fold yo in B1, B2.
  destruct (cx mod 2 =? 0)%Z; lra.
Qed.

Lemma ctr_y : forall cx, snd (hex_ctr l s x0 y0 cx (row_of cx)) == y0 + tc cx * (2 * s).
Proof.
  intros. unfold hex_ctr, row_of, tc. simpl. rewrite mod2.
  destruct (cx mod 2 =? 0)%Z; simpl; ring.
Qed.
Lemma ctr_x : forall cx cy, fst (hex_ctr l s x0 y0 cx cy) == x0 + inject_Z cx * 3 * a.
Proof. intros. unfold hex_ctr, a. simpl. field. Qed.

(** The indicator of lines 379-395, scaled by the half side. *)
Definition moves (cx : Z) : bool :=
  Qle_bool (s * (2 * a - (u - 3 * inject_Z cx) * a)) (a * Qabs ((t - tc cx) * (2 * s))).

Lemma hex_cell_eq :
  hex_cell h p =
  if negb (deg mod 3 =? 1)%Z then (((deg + 1) / 3)%Z, row_of ((deg + 1) / 3))
  else if moves (deg / 3) then ((deg / 3 + 1)%Z, row_of (deg / 3 + 1))
       else ((deg / 3)%Z, row_of (deg / 3)).
Proof.
  unfold hex_cell. fold l s x0 y0. fold a. fold u. fold deg. rewrite hye, hyo.
  fold (row_of ((deg + 1) / 3)). destruct (negb (deg mod 3 =? 1)%Z); [reflexivity|].
  set (k := (deg / 3)%Z). fold (row_of k) (row_of (k + 1)).
  set (cyq := if (k mod 2 =? 0)%Z then inject_Z (row_of k) * 2 * s + y0
              else (inject_Z (row_of k) * 2 + 1) * s + y0).
  assert (Ec : cyq == y0 + tc k * (2 * s)).
  { unfold cyq, row_of, tc. destruct (k mod 2 =? 0)%Z; ring. }
  set (cxq := inject_Z k * a * 3 + x0).
  pose proof ha. pose proof hX as EX. pose proof hY as EY. pose proof hl2 as EL.
  set (ind := if Qltb cyq (snd p) then _ else _).
  assert (EI : ind * a == s * (2 * a - (u - 3 * inject_Z k) * a) - a * Qabs ((t - tc k) * (2 * s))).
  { unfold ind. destruct (Qltb cyq (snd p)) eqn:E; qb.
    - rewrite Qabs_pos by (rewrite Ec, EY in E; lra).
      rewrite Ec, EX, EY. unfold cxq. rewrite EL. field. lra.
    - rewrite Qabs_neg by (rewrite Ec, EY in E; lra).
      rewrite Ec, EX, EY. unfold cxq. rewrite EL. field. lra. }
  replace (Qle_bool ind 0) with (moves k); [reflexivity|].
  unfold moves. apply eq_true_iff_eq. rewrite !Qleb_le.
  split; intros.
  - apply Qnot_lt_le. intro. assert (0 < ind * a) by (apply Qmult_lt_0_compat; auto). lra.
  - assert (ind * a <= 0 * a) by (apply Qmult_le_compat_r; lra). lra.
Qed.

(** In the plane, the assigned hexagon contains the point. *)
Lemma hex_cell_contains :
  in_hex l s (hex_ctr l s x0 y0 (fst (hex_cell h p)) (snd (hex_cell h p))) p.
Proof.
  pose proof ha as Ha. pose proof hl2 as EL.
  assert (G : forall cx, -2 <= u - 3 * inject_Z cx <= 2 ->
    a * Qabs ((t - tc cx) * (2 * s)) <= s * (2 * a - Qabs (u - 3 * inject_Z cx) * a) ->
    in_hex l s (hex_ctr l s x0 y0 cx (row_of cx)) p).
  { intros cx R I. unfold in_hex. rewrite ctr_y, ctr_x, hX, hY.
    pose proof (tc_range cx) as [T1 T2].
    set (v := u - 3 * inject_Z cx) in *. set (w := t - tc cx) in *.
    assert (Ew : y0 + t * (2 * s) - (y0 + tc cx * (2 * s)) == w * (2 * s)) by (unfold w; ring).
    assert (Ev : x0 + u * a - (x0 + inject_Z cx * 3 * a) == v * a) by (unfold v; ring).
    rewrite Ew, Ev. fold a. rewrite EL.
    assert (W1 : - (1#2) <= w) by (unfold w; lra). assert (W2 : w < 1#2) by (unfold w; lra).
    pose proof (Qle_Qabs (w * (2 * s))) as B1.
    pose proof (Qle_Qabs (- (w * (2 * s)))) as B2. rewrite Qabs_opp in B2.
    pose proof (Qle_Qabs v) as B3. pose proof (Qle_Qabs (- v)) as B4. rewrite Qabs_opp in B4.
    set (aw := Qabs (w * (2 * s))) in *. set (av := Qabs v) in *.
    assert (C1 : a * (w * (2*s)) <= a * aw) by (apply Qmult_le_l; auto).
    assert (C2 : a * - (w * (2*s)) <= a * aw) by (apply Qmult_le_l; auto).
    assert (D1 : s * (a * v) <= s * (a * av)) by (apply Qmult_le_l; auto; apply Qmult_le_l; auto).
    assert (D2 : s * (a * - v) <= s * (a * av)) by (apply Qmult_le_l; auto; apply Qmult_le_l; auto).
    repeat split; try lra; nra. }
  pose proof hu0 as Hu0.
  destruct (Qfloor_bounds u) as [U1 U2]. fold deg in U1, U2.
  pose proof (Z.div_mod deg 3) as DM. pose proof (Z.mod_pos_bound deg 3) as MB.
  rewrite hex_cell_eq.
  assert (M : forall z, inject_Z (3 * z) == 3 * inject_Z z).
  { intros. rewrite inject_Z_mult. reflexivity. }
  assert (Hw : forall cx, Qabs ((t - tc cx) * (2 * s)) <= s).
  { intros. pose proof (tc_range cx) as [T1 T2]. apply Qabs_Qle_condition. split; nra. }
  destruct (Z.eqb_spec (deg mod 3) 1) as [E|E]; simpl negb; cbv iota.
  - set (k := (deg / 3)%Z) in *.
    assert (ED : deg = (3 * k + 1)%Z) by lia.
    assert (V : 1 <= u - 3 * inject_Z k < 2).
    { rewrite ED in U1, U2. rewrite inject_Z_plus, M in U1, U2.
      change (inject_Z 1) with 1 in *. lra. }
    destruct (moves k) eqn:Em.
    + simpl. unfold moves in Em. qb.
      (* point is beyond the slanted edge *)
      assert (Ek1 : inject_Z (k + 1) == inject_Z k + 1) by apply inject_Z_succ.
      assert (TC : (tc k < t /\ tc (k + 1) == tc k + (1#2)) \/ (t < tc k /\ tc (k + 1) == tc k - (1#2))).
      { unfold tc. rewrite mod2_succ.
        destruct (Qfloor_bounds (t + (1#2))) as [A1 A2]. destruct (Qfloor_bounds t) as [B1 B2].
        fold ye in A1, A2. fold yo in B1, B2.
        assert (Z1 : (yo < ye + 1)%Z).
        { apply inject_Z_lt_inv. rewrite inject_Z_succ. lra. }
        assert (Z2 : (ye < yo + 2)%Z).
        { apply inject_Z_lt_inv. rewrite inject_Z_plus. change (inject_Z 2) with 2. lra. }
        assert (N : ~ t == tc k).
        { intro F. assert (Hz : Qabs ((t - tc k) * (2 * s)) == 0).
          { assert (F1 : (t - tc k) * (2 * s) == 0) by (rewrite F; ring). rewrite F1. reflexivity. }
          rewrite Hz in Em.
          assert (0 < s * (a * (2 - (u - 3 * inject_Z k))))
            by (apply Qmult_lt_0_compat; auto; apply Qmult_lt_0_compat; auto; lra). lra. }
        unfold tc in N.
        assert (K : ye = yo \/ ye = (yo + 1)%Z) by lia.
        destruct (k mod 2 =? 0)%Z; simpl negb; cbv iota.
        - destruct K as [K|K].
          + rewrite K in *. left. split; [lra|reflexivity].
          + rewrite K in *. rewrite inject_Z_succ in *. right. split; lra.
        - destruct K as [K|K].
          + rewrite K in *. right. split; lra.
          + rewrite K in *. rewrite inject_Z_succ in *. left. split; lra. }
      apply G. { rewrite Ek1. lra. }
      rewrite Ek1. rewrite (Qabs_neg (u - _)) by lra.
      pose proof (tc_range k) as [T1 T2]. pose proof (tc_range (k+1)) as [T3 T4].
      destruct TC as [[C1 C2]|[C1 C2]].
      * rewrite Qabs_pos in Em by nra.
        rewrite Qabs_neg by nra.
        rewrite C2. nra.
      * rewrite Qabs_neg in Em by nra.
        rewrite Qabs_pos by nra.
        rewrite C2. nra.
    + simpl. unfold moves in Em. qb. apply G. lra.
      rewrite (Qabs_pos (u - _)) by lra. lra.
  - simpl. set (k := ((deg + 1) / 3)%Z).
    pose proof (Z.div_mod (deg + 1) 3) as DM1. pose proof (Z.mod_pos_bound (deg + 1) 3) as MB1.
    assert (ED : deg = (3 * k - 1)%Z \/ deg = (3 * k)%Z) by (fold k in DM1; lia).
    assert (V : -1 <= u - 3 * inject_Z k < 1).
    { destruct ED as [ED|ED]; rewrite ED in U1, U2.
      - unfold Zminus in U1, U2. rewrite inject_Z_plus, M in U1, U2.
        change (inject_Z (-(1))) with (-1) in *. lra.
      - rewrite M in U1, U2. lra. }
    apply G. lra.
    assert (A : Qabs (u - 3 * inject_Z k) <= 1) by (apply Qabs_Qle_condition; lra).
    specialize (Hw k).
    set (aw := Qabs ((t - tc k) * (2 * s))) in *. set (av := Qabs (u - 3 * inject_Z k)) in *.
    assert (a * aw <= a * s) by (apply Qmult_le_l; auto).
    assert (s * (av * a) <= s * (1 * a)) by (apply Qmult_le_l; auto; apply Qmult_le_compat_r; lra).
    lra.
Qed.

(** Column range. *)
Lemma hex_cell_col : forall (umax : Q) (C : Z), u <= umax -> umax < 3 * inject_Z C + 1 ->
  (0 <= fst (hex_cell h p) <= C)%Z.
Proof.
  intros umax C H1 H2. pose proof hu0 as Hu0.
  destruct (Qfloor_bounds u) as [U1 U2]. fold deg in U1, U2.
  assert (0 <= deg)%Z by (apply Qfloor_nonneg; auto).
  assert (deg < 3 * C + 1)%Z.
  { apply inject_Z_lt_inv. rewrite inject_Z_plus, inject_Z_mult.
    change (inject_Z 3) with 3. change (inject_Z 1) with 1. lra. }
  pose proof (Z.div_mod deg 3) as DM. pose proof (Z.mod_pos_bound deg 3) as MB.
  pose proof (Z.div_mod (deg+1) 3) as DM1. pose proof (Z.mod_pos_bound (deg+1) 3) as MB1.
  rewrite hex_cell_eq.
  destruct (Z.eqb_spec (deg mod 3) 1) as [E|E]; simpl negb; cbv iota; simpl.
  - destruct (moves (deg / 3)); simpl; lia.
  - lia.
Qed.

(** Row range. *)
Lemma hex_cell_row : snd (hex_cell h p) = row_of (fst (hex_cell h p)).
Proof.
  rewrite hex_cell_eq. destruct (negb _); [reflexivity|]. destruct (moves _); reflexivity.
Qed.
Lemma row_bounds : forall cx,
  (0 <= row_of cx)%Z /\
  ((cx mod 2 =? 0)%Z = true -> inject_Z (row_of cx) <= t + (1#2)) /\
  ((cx mod 2 =? 0)%Z = false -> inject_Z (row_of cx) <= t).
Proof.
  intros. pose proof ht0. unfold row_of.
  destruct (Qfloor_bounds (t + (1#2))) as [A1 A2]. destruct (Qfloor_bounds t) as [B1 B2].
  fold ye in A1, A2. fold yo in B1, B2.
  destruct (cx mod 2 =? 0)%Z; (split; [apply Qfloor_nonneg; lra|]); split; intros; try discriminate; lra.
Qed.

(** Exactly one hexagon owns the point. *)
Lemma abs_next : forall k, Qabs (t - tc (k + 1)) == (1#2) - Qabs (t - tc k).
Proof.
  intros k.
  assert (N : (tc k <= t -> tc (k + 1) == tc k + (1#2)) /\ (t < tc k -> tc (k + 1) == tc k - (1#2))).
  { unfold tc. rewrite mod2_succ.
    destruct (Qfloor_bounds (t + (1#2))) as [A1 A2]. destruct (Qfloor_bounds t) as [B1 B2].
    fold ye in A1, A2. fold yo in B1, B2.
    assert (Z1 : (yo < ye + 1)%Z) by (apply inject_Z_lt_inv; rewrite inject_Z_succ; lra).
    assert (Z2 : (ye < yo + 2)%Z).
    { apply inject_Z_lt_inv. rewrite inject_Z_plus. change (inject_Z 2) with 2. lra. }
    assert (K : ye = yo \/ ye = (yo + 1)%Z) by lia.
    destruct (k mod 2 =? 0)%Z; simpl negb; cbv iota; destruct K as [K|K]; rewrite K in *; rewrite ?inject_Z_succ in *; split; intro; lra. }
  destruct N as [N1 N2]. pose proof (tc_range k) as [R1 R2]. destruct (Qlt_le_dec t (tc k)) as [H|H].
  - specialize (N2 H). rewrite N2. rewrite (Qabs_pos (t - (tc k - (1#2)))) by lra. rewrite (Qabs_neg (t - tc k)) by lra. ring.
  - specialize (N1 H). rewrite N1. rewrite (Qabs_neg (t - (tc k + (1#2)))) by lra. rewrite (Qabs_pos (t - tc k)) by lra. ring.
Qed.
Lemma Pas : 0 < a * s. Proof. apply Qmult_lt_0_compat; [apply ha|auto]. Qed.
Lemma scale_le : forall v w, v * (a * s) <= w * (a * s) <-> v <= w.
Proof.
  intros. pose proof Pas. split; intro.
  - apply Qnot_lt_le. intro. assert (w * (a*s) < v * (a*s)) by (apply Qmult_lt_compat_r; auto). lra.
  - apply Qmult_le_compat_r; lra.
Qed.
Lemma scale_lt : forall v w, v * (a * s) < w * (a * s) <-> v < w.
Proof.
  intros. pose proof Pas. split; intro.
  - apply Qnot_le_lt. intro. assert (w * (a*s) <= v * (a*s)) by (apply Qmult_le_compat_r; lra). lra.
  - apply Qmult_lt_compat_r; auto.
Qed.
Lemma abs_scale : forall w, Qabs (w * (2 * s)) == Qabs w * (2 * s).
Proof. intros. rewrite Qabs_Qmult, (Qabs_pos (2 * s)) by lra. reflexivity. Qed.
Lemma moves_iff : forall k, moves k = true <-> 2 - (u - 3 * inject_Z k) <= 2 * Qabs (t - tc k).
Proof.
  intros k. unfold moves. rewrite Qleb_le, abs_scale. rewrite <- (scale_le (2 - (u - 3 * inject_Z k)) (2 * Qabs (t - tc k))).
  assert (E1 : s * (2 * a - (u - 3 * inject_Z k) * a) == (2 - (u - 3 * inject_Z k)) * (a * s)) by ring.
  assert (E2 : a * (Qabs (t - tc k) * (2 * s)) == 2 * Qabs (t - tc k) * (a * s)) by ring.
  rewrite E1, E2. tauto.
Qed.
Lemma owned_iff : forall cx cy, owned_by l s (hex_ctr l s x0 y0 cx cy) p <->
  cy = row_of cx /\ 2 * Qabs (t - tc cx) < 2 - (u - 3 * inject_Z cx) /\ 2 * Qabs (t - tc cx) <= 2 + (u - 3 * inject_Z cx).
Proof.
  intros cx cy. unfold owned_by.
  set (vp := if (cx mod 2 =? 0)%Z then inject_Z cy else inject_Z cy + (1#2)).
  assert (Cy : snd (hex_ctr l s x0 y0 cx cy) == y0 + vp * (2 * s)).
  { unfold hex_ctr, vp. simpl. rewrite mod2. destruct (cx mod 2 =? 0)%Z; simpl; ring. }
  assert (R : (- (1#2) <= t - vp < 1#2) <-> cy = row_of cx).
  { unfold vp, row_of. destruct (cx mod 2 =? 0)%Z.
    - unfold ye. split; intro X.
      + symmetry. apply Qfloor_spec. lra.
      + symmetry in X. apply Qfloor_spec in X. lra.
    - unfold yo. split; intro X.
      + symmetry. apply Qfloor_spec. lra.
      + symmetry in X. apply Qfloor_spec in X. lra. }
  assert (V : cy = row_of cx -> vp == tc cx).
  { intros ->. unfold vp, tc, row_of. destruct (cx mod 2 =? 0)%Z; reflexivity. }
  rewrite Cy, ctr_x, hX, hY. fold a. 
  assert (Ew : y0 + t * (2 * s) - (y0 + vp * (2 * s)) == (t - vp) * (2 * s)) by ring.
  assert (Ev : x0 + u * a - (x0 + inject_Z cx * 3 * a) == (u - 3 * inject_Z cx) * a) by ring.
  rewrite Ew, Ev, abs_scale, hl2.
  assert (E1 : a * (Qabs (t - vp) * (2 * s)) == 2 * Qabs (t - vp) * (a * s)) by ring.
  assert (E2 : s * (2 * a - (u - 3 * inject_Z cx) * a) == (2 - (u - 3 * inject_Z cx)) * (a * s)) by ring.
  assert (E3 : s * (2 * a + (u - 3 * inject_Z cx) * a) == (2 + (u - 3 * inject_Z cx)) * (a * s)) by ring.
  assert (S : forall w, (- s <= w * (2 * s) < s) <-> (- (1#2) <= w < 1#2)).
  { intro w. split; intros [X1 X2]; split.
    - apply Qnot_lt_le. intro. nra.
    - apply Qnot_le_lt. intro. nra.
    - nra.
    - nra. }
  rewrite E1, E2, E3, scale_lt, scale_le, S, R. split.
  - intros [X1 X2]. rewrite (V X1) in X2. auto.
  - intros [X1 X2]. rewrite (V X1). auto.
Qed.
Lemma hex_cell_owner : forall cx cy, owned_by l s (hex_ctr l s x0 y0 cx cy) p <-> hex_cell h p = (cx, cy).
Proof.
  intros cx cy. rewrite owned_iff, hex_cell_eq.
  destruct (Qfloor_bounds u) as [U1 U2]. fold deg in U1, U2.
  pose proof (Z.div_mod deg 3) as DM. pose proof (Z.mod_pos_bound deg 3) as MB.
  pose proof (Z.div_mod (deg + 1) 3) as DM1. pose proof (Z.mod_pos_bound (deg + 1) 3) as MB1.
  assert (M : forall z, inject_Z (3 * z) == 3 * inject_Z z) by (intros; rewrite inject_Z_mult; reflexivity).
  assert (Hw : forall c, 0 <= Qabs (t - tc c) <= 1#2).
  { intros. pose proof (tc_range c) as [T1 T2]. split; [apply Qabs_nonneg|]. apply Qabs_Qle_condition. split; lra. }
  split.
  - intros [-> [A B]]. specialize (Hw cx).
    assert (L : (deg < 3 * cx + 2)%Z).
    { apply inject_Z_lt_inv. rewrite inject_Z_plus, M. change (inject_Z 2) with 2. lra. }
    assert (L' : (3 * cx - 3 < deg)%Z).
    { apply inject_Z_lt_inv. unfold Z.sub. rewrite inject_Z_plus, M. change (inject_Z (-(3))) with (-3). lra. }
    assert (K : deg = (3 * cx + 1)%Z \/ (deg = 3 * cx \/ deg = 3 * cx - 1)%Z \/ deg = (3 * (cx - 1) + 1)%Z) by lia.
    destruct K as [K|[K|K]].
    + assert (E : (deg mod 3 =? 1)%Z = true) by (apply Z.eqb_eq; lia). rewrite E. cbn [negb].
      assert (D : (deg / 3)%Z = cx) by lia. rewrite D.
      destruct (moves cx) eqn:Em; [|reflexivity]. apply moves_iff in Em. lra.
    + assert (E : (deg mod 3 =? 1)%Z = false) by (apply Z.eqb_neq; lia). rewrite E. cbn [negb].
      assert (D : ((deg + 1) / 3)%Z = cx) by lia. rewrite D. reflexivity.
    + assert (E : (deg mod 3 =? 1)%Z = true) by (apply Z.eqb_eq; lia). rewrite E. cbn [negb].
      assert (D : (deg / 3)%Z = (cx - 1)%Z) by lia. rewrite D.
      assert (Em : moves (cx - 1) = true).
      { apply moves_iff. pose proof (abs_next (cx - 1)) as AN. replace (cx - 1 + 1)%Z with cx in AN by lia.
        assert (EI : inject_Z cx == inject_Z (cx - 1) + 1) by (rewrite <- inject_Z_succ; replace (cx - 1 + 1)%Z with cx by lia; reflexivity).
        rewrite EI in B. lra. }
      rewrite Em. replace (cx - 1 + 1)%Z with cx by lia. reflexivity.
  - destruct (Z.eqb_spec (deg mod 3) 1) as [E|E]; cbn [negb].
    + set (k := (deg / 3)%Z) in *. assert (ED : deg = (3 * k + 1)%Z) by lia.
      rewrite ED in U1, U2. rewrite inject_Z_plus, M in U1, U2. change (inject_Z 1) with 1 in *.
      destruct (moves k) eqn:Em; intro X; injection X as <- <-; (split; [reflexivity|]).
      * apply moves_iff in Em. pose proof (abs_next k) as AN. specialize (Hw k). rewrite AN, inject_Z_succ. lra.
      * rewrite <- not_true_iff_false, moves_iff in Em. specialize (Hw k). lra.
    + set (k := ((deg + 1) / 3)%Z) in *. assert (ED : deg = (3 * k - 1)%Z \/ deg = (3 * k)%Z) by lia.
      intro X. injection X as <- <-. split; [reflexivity|]. specialize (Hw k).
      assert (V : -1 <= u - 3 * inject_Z k < 1).
      { destruct ED as [ED|ED]; rewrite ED in U1, U2.
        - unfold Zminus in U1, U2. rewrite inject_Z_plus, M in U1, U2. change (inject_Z (-(1))) with (-1) in *. lra.
        - rewrite M in U1, U2. lra. }
      lra.
Qed.

(** Limits of the indices when the point is not beyond the bounds of the data. *)
Lemma hex_cell_col_weak : forall (umax : Q) (C : Z), u <= umax -> umax <= 3 * inject_Z C + 1 ->
  (0 <= fst (hex_cell h p) <= C + 1)%Z /\
  (fst (hex_cell h p) = (C + 1)%Z -> u == 3 * inject_Z C + 1 /\ u == umax /\ t == tc C - (1#2)).
Proof.
  intros umax C H1 H2. pose proof hu0 as Hu0.
  destruct (Qfloor_bounds u) as [U1 U2]. fold deg in U1, U2.
  assert (D0 : (0 <= deg)%Z) by (apply Qfloor_nonneg; auto).
  assert (D1 : (deg <= 3 * C + 1)%Z).
  { apply inject_Z_le_inv. rewrite inject_Z_plus, inject_Z_mult. change (inject_Z 3) with 3. change (inject_Z 1) with 1. lra. }
  pose proof (Z.div_mod deg 3) as DM. pose proof (Z.mod_pos_bound deg 3) as MB.
  pose proof (Z.div_mod (deg+1) 3) as DM1. pose proof (Z.mod_pos_bound (deg+1) 3) as MB1.
  rewrite hex_cell_eq.
  destruct (Z.eqb_spec (deg mod 3) 1) as [E|E]; cbn [negb].
  - destruct (moves (deg / 3)) eqn:Em; cbn [fst]; (split; [lia|]); intro X; [|lia].
    assert (ED : deg = (3 * C + 1)%Z) by lia. rewrite ED in U1. rewrite inject_Z_plus, inject_Z_mult in U1.
    change (inject_Z 3) with 3 in U1. change (inject_Z 1) with 1 in U1.
    assert (UU : u == 3 * inject_Z C + 1) by lra. split; auto. split; [lra|].
    assert (EC : (deg / 3)%Z = C) by lia. rewrite EC in Em. apply moves_iff in Em. rewrite UU in Em.
    pose proof (tc_range C) as [T1 T2].
    destruct (Qlt_le_dec t (tc C)) as [L|L]; [rewrite Qabs_neg in Em by lra|rewrite Qabs_pos in Em by lra]; lra.
  - cbn [fst]. split; [lia|]. intro X. lia.
Qed.
Lemma row_of_bounds : forall cx,
  (0 <= row_of cx)%Z /\
  ((cx mod 2 =? 0)%Z = true -> inject_Z (row_of cx) <= t + (1#2) < inject_Z (row_of cx) + 1) /\
  ((cx mod 2 =? 0)%Z = false -> inject_Z (row_of cx) <= t < inject_Z (row_of cx) + 1).
Proof.
  intros. pose proof ht0. unfold row_of.
  destruct (Qfloor_bounds (t + (1#2))) as [A1 A2]. destruct (Qfloor_bounds t) as [B1 B2].
  fold ye in A1, A2. fold yo in B1, B2.
  destruct (cx mod 2 =? 0)%Z; (split; [apply Qfloor_nonneg; lra|]); split; intros; try discriminate; lra.
Qed.
End Cell.
