(** Property C90: the polygon that ellipse returns for GeoPandas input. *)
From Coq Require Import Reals Ratan List Bool Ascii String Arith Lra Lia Psatz.
From Verif Require Import Base CenterR_model CenterR_spec CenterR_proofs CenterR_props GeoEllipse_model.
Import ListNotations.
Local Open Scope R_scope.

(** What is assumed of [Point(c).buffer(1)]: its boundary has vertices, all at
    distance one from [c], and is symmetric about [c]. *)
Definition unit_disc (disc : rpt -> list rpt) : Prop :=
  forall c, disc c <> [] /\
    forall p, In p (disc c) -> rdist p c = 1 /\ In (2 * fst c - fst p, 2 * snd c - snd p) (disc c).

Definition wcentre (wpts : list (R * rpt)) : rpt := (wmean fst wpts, wmean snd wpts).
(** Weighted variances and covariance of the coordinates. *)
Definition wvar (f g : rpt -> R) (wpts : list (R * rpt)) : R :=
  wmean (fun p => (f p - wmean f wpts) * (g p - wmean g wpts)) wpts.

Lemma rmin_list_spec : forall l x, (forall y, In y (x :: l) -> rmin_list x l <= y) /\ In (rmin_list x l) (x :: l).
Proof.
  induction l as [|a l IH]; intro x; cbn [rmin_list fold_right].
  - split; [intros y [->|[]]; lra | left; reflexivity].
  - destruct (IH x) as [L I]. fold (rmin_list x l). split.
    + intros y [E|[E|H]].
      * eapply Rle_trans; [apply Rmin_r|]. apply L. left; exact E.
      * subst y. apply Rmin_l.
      * eapply Rle_trans; [apply Rmin_r|]. apply L. right; exact H.
    + unfold Rmin. destruct (Rle_dec a (rmin_list x l)); [right; left; reflexivity|].
      destruct I as [I|I]; [left; exact I | right; right; exact I].
Qed.
Lemma rmax_list_spec : forall l x, (forall y, In y (x :: l) -> y <= rmax_list x l) /\ In (rmax_list x l) (x :: l).
Proof.
  induction l as [|a l IH]; intro x; cbn [rmax_list fold_right].
  - split; [intros y [->|[]]; lra | left; reflexivity].
  - destruct (IH x) as [L I]. fold (rmax_list x l). split.
    + intros y [E|[E|H]].
      * eapply Rle_trans; [|apply Rmax_r]. apply L. left; exact E.
      * subst y. apply Rmax_l.
      * eapply Rle_trans; [|apply Rmax_r]. apply L. right; exact H.
    + unfold Rmax. destruct (Rle_dec a (rmax_list x l)); [|right; left; reflexivity].
      destruct I as [I|I]; [left; exact I | right; right; exact I].
Qed.

Lemma midrange : forall c l x, (forall y, In y (x :: l) -> In (2 * c - y) (x :: l)) ->
  (rmin_list x l + rmax_list x l) / 2 = c.
Proof.
  intros c l x S. destruct (rmin_list_spec l x) as [L1 I1]. destruct (rmax_list_spec l x) as [L2 I2].
  pose proof (L2 _ (S _ I1)). pose proof (L1 _ (S _ I2)). lra.
Qed.

Lemma bb_center_sym : forall c l, l <> [] ->
  (forall p, In p l -> In (2 * fst c - fst p, 2 * snd c - snd p) l) -> bb_center l = c.
Proof.
  intros [cx cy] [|p t] N S; [congruence|]. cbn [fst snd] in S. unfold bb_center.
  change (fst p :: map fst t) with (map fst (p :: t)) in *.
  rewrite (midrange cx), (midrange cy); auto.
  - intros y H. change (snd p :: map snd t) with (map snd (p :: t)) in *. apply in_map_iff in H. destruct H as (q & <- & H).
    apply in_map_iff. exists (2 * cx - fst q, 2 * cy - snd q). auto.
  - intros y H. change (fst p :: map fst t) with (map fst (p :: t)) in *. apply in_map_iff in H. destruct H as (q & <- & H).
    apply in_map_iff. exists (2 * cx - fst q, 2 * cy - snd q). auto.
Qed.

(** The vertices of the scaled and rotated disc. *)
Lemma vertices : forall disc c a b th, unit_disc disc ->
  List.length (rotate_poly th (scale_poly a b (disc c))) = List.length (disc c) /\
  forall v, In v (rotate_poly th (scale_poly a b (disc c))) <->
    exists p, In p (disc c) /\
      v = (fst c + (a * (fst p - fst c) * cos th - b * (snd p - snd c) * sin th),
           snd c + (a * (fst p - fst c) * sin th + b * (snd p - snd c) * cos th)).
Proof.
  intros disc c a b th U. destruct (U c) as [N S].
  assert (B1 : bb_center (disc c) = c) by (apply bb_center_sym; auto; intros p H; apply (S p H)).
  assert (B2 : bb_center (scale_poly a b (disc c)) = c).
  { unfold scale_poly. rewrite B1. apply bb_center_sym.
    - destruct (disc c); [congruence|]. discriminate.
    - intros p H. apply in_map_iff in H. destruct H as (q & <- & H). cbn [fst snd]. apply in_map_iff.
      exists (2 * fst c - fst q, 2 * snd c - snd q). split; [cbn [fst snd]; f_equal; ring | apply (S q H)]. }
  unfold rotate_poly. rewrite B2. unfold scale_poly. rewrite B1. rewrite !map_length. split; [reflexivity|].
  intro v. rewrite map_map, in_map_iff. cbn [fst snd]. split.
  - intros (p & <- & H). exists p. split; auto. f_equal; ring.
  - intros (p & H & ->). exists p. split; auto. f_equal; ring.
Qed.

Lemma variance_cov : forall phi w pts, List.length w = List.length pts -> Rsum w <> 0 ->
  variance_along phi (combine w pts) =
  form (wvar fst fst (combine w pts)) (wvar fst snd (combine w pts)) (wvar snd snd (combine w pts)) (cos phi) (sin phi).
Proof.
  intros phi w pts L Z. rewrite variance_form by auto. unfold wvar. rewrite !(wmean_wsum _ w pts) by auto.
  rewrite !wsum_map. cbn [fst snd].
  rewrite (wsum_ext (fun p => (fst p - wsum fst w pts / Rsum w) * (fst p - wsum fst w pts / Rsum w)) (fun p => (fst p - wsum fst w pts / Rsum w) ^ 2)) by (intros; ring).
  rewrite (wsum_ext (fun p => (snd p - wsum snd w pts / Rsum w) * (snd p - wsum snd w pts / Rsum w)) (fun p => (snd p - wsum snd w pts / Rsum w) ^ 2)) by (intros; ring).
  unfold form. field. auto.
Qed.

(** A direction in which a quadratic form is largest is a principal direction:
    the mixed term vanishes. *)
Lemma mixed_zero : forall x2 xy y2 th,
  (forall phi, form x2 xy y2 (cos phi) (sin phi) <= form x2 xy y2 (cos th) (sin th)) ->
  (y2 - x2) * (cos th * sin th) + xy * (cos th ^ 2 - sin th ^ 2) = 0.
Proof.
  intros x2 xy y2 th H.
  set (B := (y2 - x2) * (cos th * sin th) + xy * (cos th ^ 2 - sin th ^ 2)).
  set (V := form x2 xy y2 (cos th) (sin th)) in *. set (W := form x2 xy y2 (- sin th) (cos th)).
  assert (E : forall c s, form x2 xy y2 (c * cos th - s * sin th) (c * sin th + s * cos th) = V * c ^ 2 + 2 * B * c * s + W * s ^ 2).
  { intros c s. unfold V, W, B, form. ring. }
  assert (P : forall u, V + 2 * B * u + W * u ^ 2 <= V * (1 + u ^ 2)).
  { intro u. specialize (H (atan u + th)). rewrite cos_plus, sin_plus in H.
    replace (sin (atan u) * cos th + cos (atan u) * sin th) with (cos (atan u) * sin th + sin (atan u) * cos th) in H by ring.
    rewrite E in H.
    set (c := cos (atan u)) in *.
    assert (C : 0 < c) by (pose proof (atan_bound u); apply cos_gt_0; lra).
    assert (S : sin (atan u) = u * c).
    { pose proof (tan_atan u) as T. unfold tan in T. fold c in T.
      transitivity (sin (atan u) / c * c); [field; lra | rewrite T; reflexivity]. }
    rewrite S in H. pose proof (cs1 (atan u)) as CS. fold c in CS. rewrite S in CS.
    assert (C2 : 0 < c ^ 2) by nra.
    apply (Rmult_le_reg_l (c ^ 2)); auto.
    replace (c ^ 2 * (V * (1 + u ^ 2))) with (V * (c ^ 2 + (u * c) ^ 2)) by ring. rewrite CS.
    replace (c ^ 2 * (V + 2 * B * u + W * u ^ 2)) with (V * c ^ 2 + 2 * B * c * (u * c) + W * (u * c) ^ 2) by ring. lra. }
  assert (D : 0 <= V - W).
  { specialize (H (th + PI / 2)). rewrite cos_plus, sin_plus, cos_PI2, sin_PI2 in H.
    replace (cos th * 0 - sin th * 1) with (- sin th) in H by ring.
    replace (sin th * 0 + cos th * 1) with (cos th) in H by ring. fold W in H. lra. }
  destruct (Req_dec B 0) as [Z|Z]; auto. exfalso.
  specialize (P (B / (V - W + 1))).
  assert (Q : 0 < 2 * B * (B / (V - W + 1)) - (V - W) * (B / (V - W + 1)) ^ 2).
  { replace (2 * B * (B / (V - W + 1)) - (V - W) * (B / (V - W + 1)) ^ 2)
      with ((B / (V - W + 1)) ^ 2 * (V - W + 2)) by (field; lra).
    apply Rmult_lt_0_compat; [|lra].
    assert (B / (V - W + 1) <> 0).
    { unfold Rdiv. apply Rmult_integral_contrapositive. split; auto. apply Rinv_neq_0_compat. lra. }
    replace ((B / (V - W + 1)) ^ 2) with (Rsqr (B / (V - W + 1))) by (unfold Rsqr; ring). apply Rlt_0_sqr; auto. }
  lra.
Qed.

(** The core: on the boundary, for an ellipse with semi-axes [a], [b] along
    principal directions. *)
Lemma on_ellipse : forall x2 xy y2 th k ux uy,
  let V := form x2 xy y2 (cos th) (sin th) in let W := form x2 xy y2 (- sin th) (cos th) in
  0 <= V -> 0 <= W -> ux ^ 2 + uy ^ 2 = 1 ->
  (y2 - x2) * (cos th * sin th) + xy * (cos th ^ 2 - sin th ^ 2) = 0 ->
  let a := k * sqrt V in let b := k * sqrt W in
  let dx := a * ux * cos th - b * uy * sin th in let dy := a * ux * sin th + b * uy * cos th in
  y2 * dx ^ 2 - 2 * xy * dx * dy + x2 * dy ^ 2 = k ^ 2 * (x2 * y2 - xy ^ 2) /\
  forall phi, (dx * cos phi + dy * sin phi) ^ 2 <= k ^ 2 * form x2 xy y2 (cos phi) (sin phi).
Proof.
  intros x2 xy y2 th k ux uy V W V0 W0 U M a b dx dy.
  set (c := cos th) in *. set (s := sin th) in *. pose proof (cs1 th) as CS. fold c s in CS.
  assert (A2 : a ^ 2 = k ^ 2 * V) by (unfold a; rewrite Rpow_mult_distr; f_equal; simpl; rewrite Rmult_1_r; apply sqrt_sqrt; auto).
  assert (B2 : b ^ 2 = k ^ 2 * W) by (unfold b; rewrite Rpow_mult_distr; f_equal; simpl; rewrite Rmult_1_r; apply sqrt_sqrt; auto).
  (* the matrix in terms of its eigenvalues *)
  assert (T : V + W = x2 + y2).
  { transitivity ((x2 + y2) * (c ^ 2 + s ^ 2)); [unfold V, W, form; ring | rewrite CS; ring]. }
  assert (X2 : x2 = V * c ^ 2 + W * s ^ 2).
  { transitivity (x2 * (c ^ 2 + s ^ 2) ^ 2); [rewrite CS; ring|].
    transitivity (x2 * (c ^ 2 + s ^ 2) ^ 2 + 2 * c * s * ((y2 - x2) * (c * s) + xy * (c ^ 2 - s ^ 2))); [rewrite M; ring|]. unfold V, W, form. ring. }
  assert (Y2 : y2 = V * s ^ 2 + W * c ^ 2).
  { assert (E : y2 = V + W - x2) by lra. rewrite E. rewrite X2. transitivity ((V + W) * (c ^ 2 + s ^ 2) - (V * c ^ 2 + W * s ^ 2)); [rewrite CS; ring | ring]. }
  assert (XY : xy = (V - W) * (c * s)).
  { transitivity (xy * (c ^ 2 + s ^ 2) ^ 2); [rewrite CS; ring|].
    transitivity (xy * (c ^ 2 + s ^ 2) ^ 2 - (c ^ 2 - s ^ 2) * ((y2 - x2) * (c * s) + xy * (c ^ 2 - s ^ 2))); [rewrite M; ring|].
    unfold V, W, form. ring. }
  assert (DET : x2 * y2 - xy ^ 2 = V * W).
  { rewrite X2, Y2, XY. transitivity (V * W * (c ^ 2 + s ^ 2) ^ 2); [ring | rewrite CS; ring]. }
  split.
  - rewrite DET. transitivity ((c ^ 2 + s ^ 2) ^ 2 * (W * (a ^ 2 * ux ^ 2) + V * (b ^ 2 * uy ^ 2))).
    + rewrite X2, Y2, XY. clearbody V W. unfold dx, dy. ring.
    + rewrite CS, A2, B2. transitivity (k ^ 2 * (V * W) * (ux ^ 2 + uy ^ 2)); [ring | rewrite U; ring].
  - intro phi. set (e := c * cos phi + s * sin phi). set (f := c * sin phi - s * cos phi).
    replace (form x2 xy y2 (cos phi) (sin phi)) with (V * e ^ 2 + W * f ^ 2).
    2:{ rewrite X2, Y2, XY. unfold form, e, f. clearbody V W. ring. }
    replace (dx * cos phi + dy * sin phi) with (ux * (a * e) + uy * (b * f)) by (unfold dx, dy, e, f; ring).
    replace (k ^ 2 * (V * e ^ 2 + W * f ^ 2)) with ((ux ^ 2 + uy ^ 2) * ((a * e) ^ 2 + (b * f) ^ 2)).
    2:{ rewrite U, !Rpow_mult_distr, A2, B2. ring. }
    set (P := a * e). set (Q := b * f). pose proof (pow2_ge_0 (ux * Q - uy * P)). 
    replace ((ux ^ 2 + uy ^ 2) * (P ^ 2 + Q ^ 2)) with ((ux * P + uy * Q) ^ 2 + (ux * Q - uy * P) ^ 2) by ring. lra.
Qed.

(** The weights used: unit weights if none are given. *)
Definition used_weights (pts : list rpt) (weights : option (list R)) : list R :=
  match weights with Some w => w | None => map (fun _ => 1) pts end.

Lemma centre_value : forall pts weights,
  let w := used_weights pts weights in
  List.length w = List.length pts -> 0 < Rsum w ->
  (match weights with None => mean_center_r pts | Some w => weighted_mean_center_r pts w end) = wcentre (combine w pts).
Proof.
  intros pts weights w L S. unfold wcentre. rewrite !wmean_wsum by auto.
  destruct weights as [v|]; cbn [used_weights] in w; subst w.
  - unfold weighted_mean_center_r, wsum, zip. f_equal.
    + unfold Rdiv at 2. rewrite Rmult_comm, <- Rsum_scale. apply Rsum_ext. intros. field. lra.
    + unfold Rdiv at 2. rewrite Rmult_comm, <- Rsum_scale. apply Rsum_ext. intros. field. lra.
  - assert (E : forall f : rpt -> R, wsum f (map (fun _ => 1) pts) pts = Rsum (map f pts)).
    { intro f. unfold wsum, zip. clear. induction pts as [|p t IH]; cbn [map combine Rsum fold_right]; auto.
      unfold Rsum in *. rewrite <- IH. cbn [fst snd]. ring. }
    unfold mean_center_r. rewrite !E, Rsum_const, Rmult_1_l. reflexivity.
Qed.

(** Every vertex [v] lies on the ellipse of [k] standard deviations: writing [d]
    for its offset from the weighted mean centre and S for the weighted covariance
    matrix, d' S^-1 d = k^2 (stated without division, with the adjugate of S); and
    in no direction it is further from the centre than [k] standard deviations of
    the pattern in that direction. *)
Theorem C90_ellipse_polygon : forall disc pts weights method cc dc,
  let w := used_weights pts weights in
  let wpts := combine w pts in
  unit_disc disc ->
  lower method = "crimestat"%string \/ lower method = "yuill"%string ->
  List.length w = List.length pts -> (forall v, In v w -> 0 <= v) -> 0 < Rsum w ->
  enough (lower method) dc (List.length pts) ->
  exists poly,
    ellipse_polygon disc pts weights method cc dc = Ok (Some poly)  /\
    List.length poly = List.length (disc (wcentre wpts)) /\
    forall v, In v poly ->
      let k2 := squared_factor (lower method) cc dc (List.length pts) in
      let dx := fst v - fst (wcentre wpts) in
      let dy := snd v - snd (wcentre wpts) in
      let sxx := wvar fst fst wpts in let sxy := wvar fst snd wpts in let syy := wvar snd snd wpts in
      syy * dx ^ 2 - 2 * sxy * dx * dy + sxx * dy ^ 2 = k2 * (sxx * syy - sxy ^ 2) /\
      forall phi, (dx * cos phi + dy * sin phi) ^ 2 <= k2 * variance_along phi wpts.
Proof.
  intros disc pts weights method cc dc w wpts U M L W S E.
  destruct (C18_principal_axes pts w method cc dc M L W S E) as (a & b & th & k & EL & K0 & K2 & EA & EB & _ & _ & EX).
  assert (EL2 : ellipse pts weights method cc dc = Ok (RFin a, RFin b, th)).
  { rewrite <- EL. unfold w. destruct weights as [v|]; cbn [used_weights]; auto.
    apply (C19_equivalences pts None method method cc dc). }
  unfold ellipse_polygon. rewrite EL2. cbn [bind].
  assert (EC : (match weights with None => disc (mean_center_r pts) | Some w => disc (weighted_mean_center_r pts w) end) = disc (wcentre wpts)).
  { unfold wpts, w. rewrite <- (centre_value pts weights) by auto. destruct weights; reflexivity. }
  rewrite EC. eexists. split; [reflexivity|].
  destruct (vertices disc (wcentre wpts) a b th U) as [V1 V2]. split; [exact V1|].
  intros v Hv. set (k2 := squared_factor (lower method) cc dc (List.length pts)).
  set (sxx := wvar fst fst wpts). set (sxy := wvar fst snd wpts). set (syy := wvar snd snd wpts).
  set (dx := fst v - fst (wcentre wpts)). set (dy := snd v - snd (wcentre wpts)). apply V2 in Hv. destruct Hv as (p & Hp & Ev).
  assert (Z : Rsum w <> 0) by lra.
  fold wpts in EA, EB, EX.
  assert (VC : forall phi, variance_along phi wpts = form sxx sxy syy (cos phi) (sin phi)) by (intro; apply variance_cov; auto).
  assert (VP : variance_along (th + PI / 2) wpts = form sxx sxy syy (- sin th) (cos th)).
  { rewrite VC, cos_plus, sin_plus, cos_PI2, sin_PI2. f_equal; ring. }
  assert (MZ : (syy - sxx) * (cos th * sin th) + sxy * (cos th ^ 2 - sin th ^ 2) = 0).
  { apply mixed_zero. intro phi. rewrite <- !VC. apply EX. }
  assert (VN : forall phi, 0 <= variance_along phi wpts).
  { intro phi. unfold variance_along, wpts. rewrite wmean_wsum by auto. apply Rmult_le_pos.
    - apply wsum_nonneg; auto. intro. apply pow2_ge_0.
    - apply Rlt_le, Rinv_0_lt_compat; auto. }
  destruct (U (wcentre wpts)) as [_ UD]. destruct (UD p Hp) as [UD1 _].
  set (ux := fst p - fst (wcentre wpts)) in *. set (uy := snd p - snd (wcentre wpts)) in *.
  assert (U1 : ux ^ 2 + uy ^ 2 = 1).
  { unfold rdist in UD1. fold ux uy in UD1.
    rewrite <- (sqrt_sqrt (ux ^ 2 + uy ^ 2)) by apply sum2_sq_nonneg. rewrite UD1. ring. }
  pose proof (VN th) as VN1. pose proof (VN (th + PI / 2)) as VN2. rewrite VC in VN1. rewrite VP in VN2.
  pose proof (on_ellipse sxx sxy syy th k ux uy VN1 VN2 U1 MZ) as H. cbv zeta in H.
  rewrite <- VP, <- VC in H. rewrite <- EA, <- EB in H. rewrite K2 in H. fold k2 in H.
  replace dx with (a * ux * cos th - b * uy * sin th) by (unfold dx; rewrite Ev; unfold ux, uy; cbn [fst snd]; ring).
  replace dy with (a * ux * sin th + b * uy * cos th) by (unfold dy; rewrite Ev; unfold ux, uy; cbn [fst snd]; ring).
  destruct H as [H1 H2]. split; [exact H1|]. intro phi. rewrite VC. apply H2.
Qed.
Print Assumptions C90_ellipse_polygon.

(** When an axis is not finite there is no polygon with finite coordinates. *)
Theorem C90_two_points : forall disc pts weights method cc dc r,
  (List.length pts <= 2)%nat -> ~ (lower method = "yuill"%string /\ dc = false) ->
  ellipse_polygon disc pts weights method cc dc = Ok r -> r = None.
Proof.
  intros disc pts weights method cc dc r N M H. unfold ellipse_polygon in H.
  destruct (ellipse pts weights method cc dc) as [[[a b] th]|e] eqn:E; [|discriminate]. cbn [bind] in H.
  destruct (C19_two_points pts weights method cc dc a b th N M E) as [A _].
  destruct a as [x| |]; [exfalso; apply (A x); reflexivity| |]; inversion H; reflexivity.
Qed.
Print Assumptions C90_two_points.

(** The square as the coarsest buffer ([quad_segs = 1]) and a cross of four points:
    the vertices are three, and one, times sqrt(1/2) away along the axes. *)
Definition square_disc (c : rpt) : list rpt :=
  [(fst c + 1, snd c); (fst c, snd c - 1); (fst c - 1, snd c); (fst c, snd c + 1)].
Example square_unit : unit_disc square_disc.
Proof.
  intro c. split; [discriminate|]. intros p H. unfold square_disc in H. simpl in H.
  assert (Q : forall a b, a ^ 2 + b ^ 2 = 1 -> forall q : rpt, fst q - fst c = a -> snd q - snd c = b -> rdist q c = 1).
  { intros a b H1 q H2 H3. unfold rdist. rewrite H2, H3, H1. apply sqrt_1. }
  destruct H as [<-|[<-|[<-|[<-|[]]]]]; cbn [fst snd]; split;
    try (first [solve [apply (Q 1 0); cbn [fst snd]; ring] | solve [apply (Q 0 (-1)); cbn [fst snd]; ring] |
      solve [apply (Q (-1) 0); cbn [fst snd]; ring] | solve [apply (Q 0 1); cbn [fst snd]; ring]]); unfold square_disc; simpl.
  - right; right; left. f_equal; ring.
  - right; right; right; left. f_equal; ring.
  - left. f_equal; ring.
  - right; left. f_equal; ring.
Qed.
Example C90_case : exists poly a b,
  ellipse_polygon square_disc [(1, 0); (-1, 0); (0, 3); (0, -3)] None "Yuill" false false = Ok (Some poly) /\
  a ^ 2 = 9 / 2 /\ b ^ 2 = 1 / 2 /\ In (0, a) poly /\ In (- b, 0) poly.
Proof.
  pose proof (C18_case) as (a & b & E & A & B). unfold ellipse_polygon. rewrite E. cbn [bind].
  eexists. exists a, b. split; [reflexivity|]. split; [exact A|]. split; [exact B|].
  assert (C : mean_center_r [(1, 0); (-1, 0); (0, 3); (0, -3)] = (0, 0)).
  { unfold mean_center_r, Rsum. cbn [map fold_right fst snd List.length]. f_equal; simpl INR; field. }
  rewrite C. destruct (vertices square_disc (0, 0) a b (PI / 2) square_unit) as [_ V].
  rewrite !V, cos_PI2, sin_PI2. cbn [fst snd]. split.
  - exists (1, 0). split; [left; cbn [fst snd]; f_equal; ring | cbn [fst snd]; f_equal; ring].
  - exists (0, 1). split; [right; right; right; left; cbn [fst snd]; f_equal; ring | cbn [fst snd]; f_equal; ring].
Qed.
