(** Theorems about the minimum bounding circle: C21, C22, C86. *)
From Coq Require Import Reals List Bool Arith Lra Lia.
From Verif Require Import Base CenterR_model CenterR_spec Circle_geom Circle_spec Circle_model Circle_proofs.
Import ListNotations.
Local Open Scope R_scope.

(** C21. [_angle] is the angle. *)
Theorem C21_angle : forall p q r, p <> q -> r <> q ->
  IsAngle (angle p q r) p q r /\ forall a, IsAngle a p q r -> a = angle p q r.
Proof.
  intros p q r P R. split; [apply is_angle; auto|]. intros a A. apply is_angle_unique; auto.
Qed.
Print Assumptions C21_angle.

(** C21. The circle of a triple passes through the three points when the angle
    is at least 1e-5 away from 0 and pi. *)
Theorem C21_circumscribed : forall p q r a, p <> q -> r <> q -> IsAngle a p q r ->
  / 100000 <= a <= PI - / 100000 ->
  exists rho x y, circle p q r = (rho, x, y) /\ 0 < rho /\
    rdist p (x, y) = rho /\ rdist q (x, y) = rho /\ rdist r (x, y) = rho.
Proof.
  intros p q r a P R A W. rewrite (is_angle_unique p q r a) in W by auto.
  assert (T : turn p q r <> 0) by (apply angle_turn; auto; lra).
  rewrite circle_regular by auto. do 3 eexists. split; [reflexivity|].
  pose proof (R2_pos p q r T) as R0.
  split; [apply sqrt_lt_R0; exact R0|]. change (fst (cc p q r), snd (cc p q r)) with (cc p q r).
  repeat split; apply rdist_R2; try lra; [apply cc_p|apply cc_q|apply cc_r]; exact T.
Qed.
Print Assumptions C21_circumscribed.

(** C21. Nearly flat triples: the segment p r is a diameter and q is inside. *)
Theorem C21_flat : forall p q r a, p <> q -> r <> q -> IsAngle a p q r -> PI - / 100000 < a ->
  exists rho x y, circle p q r = (rho, x, y) /\ rho = rdist p r / 2 /\
    rdist p (x, y) = rho /\ rdist r (x, y) = rho /\ rdist q (x, y) <= rho.
Proof.
  intros p q r a P R A W. rewrite (is_angle_unique p q r a) in W by auto.
  rewrite circle_flat by auto. do 3 eexists. split; [reflexivity|]. split; [reflexivity|].
  assert (H : rdist p r / 2 = sqrt (sq p r / 4)).
  { rewrite rdist_sq, sqrt_div_alt by lra. replace 4 with (2 * 2) by ring. rewrite sqrt_square by lra. reflexivity. }
  assert (D : dot p q r <= 0).
  { destruct (Rle_dec 0 (dot p q r)) as [L|L]; [|lra]. exfalso. apply (angle_right p q r P R) in L.
    pose proof PI2_1. lra. }
  rewrite H, !rdist_sq. repeat split.
  - f_equal. unfold sq. cbn [fst snd]. field.
  - f_equal. unfold sq. cbn [fst snd]. field.
  - apply sqrt_le_1_alt.
    assert (E : sq q ((fst p + fst r) / 2, (snd p + snd r) / 2) = sq p r / 4 + dot p q r) by (unfold sq, dot; cbn [fst snd]; field).
    lra.
Qed.
Print Assumptions C21_flat.

(** C21. Nearly folded triples: the segment p q is a diameter; r is inside only
    if the angle at r is not acute. *)
Theorem C21_folded : forall p q r a, p <> q -> r <> q -> IsAngle a p q r -> a < / 100000 ->
  exists rho x y, circle p q r = (rho, x, y) /\ rho = rdist p q / 2 /\
    rdist p (x, y) = rho /\ rdist q (x, y) = rho /\ (rdist r (x, y) <= rho <-> dot p r q <= 0).
Proof.
  intros p q r a P R A W. rewrite (is_angle_unique p q r a) in W by auto.
  rewrite circle_sharp by auto. do 3 eexists. split; [reflexivity|]. split; [reflexivity|].
  assert (H : rdist p q / 2 = sqrt (sq p q / 4)).
  { rewrite rdist_sq, sqrt_div_alt by lra. replace 4 with (2 * 2) by ring. rewrite sqrt_square by lra. reflexivity. }
  rewrite H, !rdist_sq.
  assert (E : sq r ((fst p + fst q) / 2, (snd p + snd q) / 2) = sq p q / 4 + dot p r q) by (unfold sq, dot; cbn [fst snd]; field).
  split; [|split; [|split]].
  - f_equal. unfold sq. cbn [fst snd]. field.
  - f_equal. unfold sq. cbn [fst snd]. field.
  - intro X. apply sqrt_le_0 in X; [lra|apply sq_nonneg|pose proof (sq_nonneg p q); lra].
  - intro X. apply sqrt_le_1_alt. lra.
Qed.
Print Assumptions C21_folded.

Example C21_case : circle (3, 4) (0, 0) (6, 0) = (25 / 8, 3, 7 / 8).
Proof.
  assert (T : 0 < turn (6, 0) (0, 0) (3, 4)) by (unfold turn; cbn [fst snd]; lra).
  rewrite circle_regular.
  - assert (E : R2 (3, 4) (0, 0) (6, 0) = (25 / 8) ^ 2) by (unfold R2, sq, turn; cbn [fst snd]; field).
    rewrite E, sqrt_pow2 by lra. unfold cc, ccx, ccy, turn. cbn [fst snd]. f_equal; [f_equal|]; field.
  - rewrite turn_rev. lra.
  - rewrite <- angle_sym. apply wide_angle; auto. unfold cot, dot, turn. cbn [fst snd]. lra.
Qed.
(** A folded triple whose circle does not contain the third point. *)
Example C21_folded_case : exists rho x y, circle (1, 0) (0, 0) (10, 0) = (rho, x, y) /\ rho < rdist (10, 0) (x, y).
Proof.
  assert (N1 : (1, 0) <> (0, 0) :> rpt) by (intro E; inversion E; lra).
  assert (N2 : (10, 0) <> (0, 0) :> rpt) by (intro E; inversion E; lra).
  assert (A : IsAngle 0 (1, 0) (0, 0) (10, 0)).
  { split; [pose proof PI_RGT_0; lra|]. rewrite cos_0. unfold dot, rdist. cbn [fst snd].
    replace ((1 - 0) ^ 2 + (0 - 0) ^ 2) with (1 ^ 2) by ring. replace ((10 - 0) ^ 2 + (0 - 0) ^ 2) with (10 ^ 2) by ring.
    rewrite !sqrt_pow2 by lra. ring. }
  destruct (C21_folded (1, 0) (0, 0) (10, 0) 0 N1 N2 A ltac:(lra)) as (rho & x & y & E & _ & _ & _ & I).
  exists rho, x, y. split; auto. apply Rnot_le_lt. intro X. apply I in X. unfold dot in X. cbn [fst snd] in X. lra.
Qed.

(** C22. The loop ends. [rest] are the points left, [gone] the removed ones. *)
Definition skyum_loop (numba : bool) := if numba then skyum_numba else skyum_lists.
Theorem C22_terminates : forall numba l, NoDup l -> (2 <= length l)%nat ->
  exists rho x y rest gone p q r i,
    skyum_loop numba (length l) l [] = Some (Ok (rho, x, y, rest, gone, (p, q, r))) /\
    circle p q r = (rho, x, y) /\
    Subseq rest l /\ (2 <= length rest)%nat /\ (length gone + length rest = length l)%nat /\
    (length gone <= length l - 2)%nat /\ (forall s, In s l <-> In s gone \/ In s rest) /\
    (i < length rest)%nat /\ q = at_ rest i /\ r = at_ rest (if (S i =? length rest)%nat then 0 else S i) /\
    p = at_ rest (if (i =? 0)%nat then length rest - 1 else i - 1) /\
    (forall a, IsAngle a p q r -> a <= PI / 2).
Proof.
  intros numba l N L.
  assert (G : exists em ta pick, GoodLoop ta pick /\ skyum_loop numba = skyum em ta pick).
  { destruct numba; do 3 eexists; (split; [|reflexivity]); auto using good_numba, good_lists. }
  destruct G as (em & ta & pick & G & ->).
  destruct (skyum_terminates em ta pick G (length l) l [] N L ltac:(lia)) as (rest & gone & i & E & SB & N' & L' & C & P & I & A).
  destruct (circle3 (ring_triple rest i)) as [[rho x] y] eqn:EC.
  exists rho, x, y, rest, gone, (cyc rest (i + length rest - 1)), (cyc rest i), (cyc rest (i + 1)), i.
  split; [exact E|]. split; [exact EC|]. split; [exact SB|]. split; [exact L'|]. split; [exact C|]. split; [lia|].
  split; [exact P|]. split; [exact I|]. unfold at_, cyc. change (0, 0) with o. split; [|split; [|split]].
  - rewrite Nat.mod_small by auto. reflexivity.
  - f_equal. destruct (Nat.eqb_spec (S i) (length rest)) as [H|H].
    + replace (i + 1)%nat with (length rest) by lia. apply Nat.mod_same. lia.
    + rewrite Nat.mod_small; lia.
  - f_equal. destruct (Nat.eqb_spec i 0) as [->|H].
    + rewrite Nat.mod_small; lia.
    + replace (i + length rest - 1)%nat with ((i - 1) + 1 * length rest)%nat by lia. rewrite Nat.mod_add by lia.
      apply Nat.mod_small. lia.
  - intros a IA. destruct (cyc_neighbours_distinct rest i N' L' I) as [D1 D2].
    unfold cyc in D1, D2. apply is_angle_unique in IA; auto. subst a. exact A.
Qed.
Print Assumptions C22_terminates.

(** C22. Fewer than two points: an exception. *)
Theorem C22_too_few : forall p fuel, skyum_lists (S fuel) [] [] = Some (Raise IndexError) /\
  skyum_numba (S fuel) [] [] = Some (Raise ValueError) /\ skyum_lists (S fuel) [p] [] = Some (Raise ZeroDivisionError).
Proof. intros p fuel; repeat split; reflexivity. Qed.
Print Assumptions C22_too_few.

(** C86. For a strictly convex hull without nearly flat or nearly zero angles,
    the result is the smallest disc that contains the points. *)
Theorem C86_minimum : forall numba hull pts,
  NoDup (hull pts) -> (2 <= length (hull pts))%nat -> ConvexCw (hull pts) \/ ConvexCw (rev (hull pts)) ->
  WideAngles (hull pts) ->
  (forall p, In p pts -> InHull (hull pts) p) -> (forall p, In p (hull pts) -> In p pts) ->
  exists c rho, minimum_bounding_circle numba hull pts = Some (Ok (c, rho)) /\ MinimumCircle c rho pts.
Proof. exact mbc_minimum. Qed.
Print Assumptions C86_minimum.

(** C86. Hence the result depends neither on the loop used nor on the order of
    the points and of the hull ring. *)
Theorem C86_unique : forall numba numba' hull hull' pts pts',
  (forall h p, (h = hull /\ p = pts) \/ (h = hull' /\ p = pts') ->
     NoDup (h p) /\ (2 <= length (h p))%nat /\ (ConvexCw (h p) \/ ConvexCw (rev (h p))) /\ WideAngles (h p) /\
     (forall q, In q p -> InHull (h p) q) /\ (forall q, In q (h p) -> In q p)) ->
  (forall p, In p pts <-> In p pts') ->
  minimum_bounding_circle numba hull pts = minimum_bounding_circle numba' hull' pts'.
Proof.
  intros numba numba' hull hull' pts pts' H S.
  destruct (H hull pts) as (A1 & A2 & A3 & A4 & A5 & A6); [left; auto|].
  destruct (H hull' pts') as (B1 & B2 & B3 & B4 & B5 & B6); [right; auto|].
  destruct (C86_minimum numba hull pts) as (c & r & E & M1 & M2); auto.
  destruct (C86_minimum numba' hull' pts') as (c' & r' & E' & M1' & M2'); auto.
  rewrite E, E'.
  assert (X : Encloses c r pts') by (intros p P; apply M1; apply S; auto).
  assert (Y : Encloses c' r' pts) by (intros p P; apply M1'; apply S; auto).
  destruct (M2 c' r' Y) as [L1 L2]. destruct (M2' c r X) as [L3 L4].
  assert (r' = r) by lra. rewrite (L2 H0). congruence.
Qed.
Print Assumptions C86_unique.

(** C86. A nearly flat hull vertex breaks it: the returned circle leaves out a
    point by more than three units. *)
Theorem C86_flat_vertex_refuted : exists pts, NoDup pts /\ length pts = 4%nat /\ ConvexCw pts /\
  forall numba, exists c rho p, minimum_bounding_circle numba (fun l => l) pts = Some (Ok (c, rho)) /\
    In p pts /\ rho + 3 < rdist p c.
Proof.
  exists nf. split; [exact nf_nodup|]. split; [reflexivity|]. split; [exact nf_convex|].
  intro numba. destruct (nf_result numba) as (c & r & E & I & D). exists c, r, nfB. auto.
Qed.
Print Assumptions C86_flat_vertex_refuted.

(** A square with a point in the middle. *)
Definition c86_hull (pts : list rpt) : list rpt := [(0, 0); (0, 2); (2, 2); (2, 0)].
Example C86_case : forall numba,
  minimum_bounding_circle numba c86_hull [(0, 0); (2, 2); (1, 1); (0, 2); (2, 0)] = Some (Ok ((1, 1), sqrt 2)).
Proof.
  intro numba. set (pts := [(0, 0); (2, 2); (1, 1); (0, 2); (2, 0)] : list rpt).
  destruct (C86_minimum numba c86_hull pts) as (c & r & E & M1 & M2).
  - repeat constructor; cbn; intro H; repeat (destruct H as [H|H]; [inversion H; lra|]); auto.
  - cbn. lia.
  - left. intros i j k I J K. cbn [c86_hull length] in K.
    destruct i as [|[|i]]; destruct j as [|[|[|j]]]; destruct k as [|[|[|[|k]]]]; try lia;
      unfold at_, c86_hull, turn; cbn [nth fst snd]; lra.
  - apply wide_check. intros p q s P Q S PQ QS PS. unfold c86_hull in P, Q, S. cbn [In] in P, Q, S.
    assert (K : forall t d : R, t = 4 \/ t = -4 -> -5 < d < 5 -> t <> 0 /\ -90000 * Rabs t < d < 90000 * Rabs t).
    { intros t d [-> | ->] D; split; try lra; unfold Rabs; destruct Rcase_abs; lra. }
    repeat (destruct P as [P|P]; [subst p|]); try contradiction;
    repeat (destruct Q as [Q|Q]; [subst q|]); try contradiction;
    repeat (destruct S as [S|S]; [subst s|]); try contradiction; try congruence;
    apply K; unfold turn, dot; cbn [fst snd]; lra.
  - intros p P. unfold pts in P. cbn [In] in P. unfold c86_hull.
    repeat (destruct P as [P|P]; [subst p; try (apply hull_vertex; cbn; tauto)|]); try contradiction.
    replace (1, 1) with ((1 - 1 / 2) * fst (0, 0) + 1 / 2 * fst (2, 2), (1 - 1 / 2) * snd (0, 0) + 1 / 2 * snd (2, 2))
      by (cbn [fst snd]; f_equal; field).
    apply hull_segment; [apply hull_vertex; cbn; tauto|apply hull_vertex; cbn; tauto|lra].
  - intros p P. cbn in P. unfold pts. cbn. tauto.
  - rewrite E. assert (EN : Encloses (1, 1) (sqrt 2) pts).
    { intros p P. unfold rdist. apply sqrt_le_1_alt. unfold pts in P. cbn [In] in P.
      repeat (destruct P as [P|P]; [subst p; cbn [fst snd]; lra|]). contradiction. }
    destruct (M2 _ _ EN) as [L1 L2].
    assert (D : sqrt 8 <= 2 * r).
    { pose proof (M1 (0, 0) ltac:(cbn; tauto)) as D1. pose proof (M1 (2, 2) ltac:(cbn; tauto)) as D2.
      assert (R0 : 0 <= r) by (assert (0 <= rdist (0, 0) c) by apply sqrt_pos; lra).
      rewrite rdist_le in D1, D2 by auto. pose proof (two_points_minimal (0, 0) (2, 2) c (r ^ 2) D1 D2) as T.
      pose proof (sq_nonneg ((fst (0, 0) + fst (2, 2)) / 2, (snd (0, 0) + snd (2, 2)) / 2) c) as Z.
      assert (S : sq (0, 0) (2, 2) = 8) by (unfold sq; cbn [fst snd]; ring). rewrite S in T.
      rewrite <- (sqrt_pow2 (2 * r)) by lra. apply sqrt_le_1_alt. lra. }
    assert (S8 : sqrt 8 = 2 * sqrt 2).
    { replace 8 with (2 * 2 * 2) by ring. rewrite sqrt_mult by lra. rewrite sqrt_square by lra. reflexivity. }
    assert (r = sqrt 2) by lra. rewrite L2 by lra. congruence.
Qed.
