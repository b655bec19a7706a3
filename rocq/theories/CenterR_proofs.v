(** Proofs about the spread measures. *)
From Coq Require Import Reals Ratan Rgeom List Bool Arith Permutation Lra Lia Psatz.
From Verif Require Import Base CenterR_model CenterR_spec.
Import ListNotations.
Local Open Scope R_scope.

(** ** Sums *)
Lemma Rsum_plus : forall A (f g : A -> R) l,
  Rsum (map (fun x => f x + g x) l) = Rsum (map f l) + Rsum (map g l).
Proof. intros A f g. unfold Rsum. induction l as [|a l IH]; simpl; [lra|]. rewrite IH. ring. Qed.
Lemma Rsum_scale : forall A (f : A -> R) c l, Rsum (map (fun x => c * f x) l) = c * Rsum (map f l).
Proof. intros A f c. unfold Rsum. induction l as [|a l IH]; simpl; [ring|]. rewrite IH. ring. Qed.
Lemma Rsum_const : forall A c (l : list A), Rsum (map (fun _ => c) l) = c * INR (length l).
Proof.
  intros A c l. unfold Rsum. induction l as [|a l IH]; simpl map; simpl fold_right; simpl List.length; [simpl; ring|].
  rewrite IH, S_INR. ring.
Qed.
Lemma Rsum_ext : forall A (f g : A -> R) l, (forall x, In x l -> f x = g x) -> Rsum (map f l) = Rsum (map g l).
Proof.
  intros A f g. unfold Rsum. induction l as [|a l IH]; simpl; intro H; auto.
  rewrite H by auto. rewrite IH; auto.
Qed.
Lemma Rsum_le : forall A (f g : A -> R) l, (forall x, In x l -> f x <= g x) -> Rsum (map f l) <= Rsum (map g l).
Proof.
  intros A f g. unfold Rsum. induction l as [|a l IH]; simpl; intro H; [lra|].
  specialize (IH ltac:(intros; apply H; auto)). specialize (H a (or_introl eq_refl)). lra.
Qed.
Lemma Rsum_nonneg : forall A (f : A -> R) l, (forall x, In x l -> 0 <= f x) -> 0 <= Rsum (map f l).
Proof.
  intros A f l H. unfold Rsum. induction l as [|a l IH]; simpl; [lra|].
  specialize (IH ltac:(intros; apply H; simpl; auto)). specialize (H a (or_introl eq_refl)). lra.
Qed.
Lemma Rsum_zero : forall A (f : A -> R) l, (forall x, In x l -> 0 <= f x) -> Rsum (map f l) = 0 ->
  forall x, In x l -> f x = 0.
Proof.
  intros A f l. induction l as [|a l IH]; intros H E x Hx; [contradiction|].
  assert (0 <= f a) by (apply H; simpl; auto).
  assert (0 <= Rsum (map f l)) by (apply Rsum_nonneg; intros; apply H; simpl; auto).
  unfold Rsum in E. simpl in E. fold (Rsum (map f l)) in E.
  destruct Hx as [<- | Hx]; [lra|]. apply IH; auto. intros; apply H; simpl; auto. lra.
Qed.
Lemma Rsum_perm : forall l l', Permutation l l' -> Rsum l = Rsum l'.
Proof. intros l l' H. unfold Rsum. induction H; simpl; lra. Qed.

Lemma INR_len_pos : forall A (l : list A), l <> [] -> 0 < INR (length l).
Proof. intros A [|a l] H; [congruence|]. apply lt_0_INR. simpl. lia. Qed.

(** ** Standard distance *)
Lemma var_identity : forall A (f : A -> R) l, l <> [] ->
  mean_of (fun x => (f x - mean_of f l) ^ 2) l =
  Rsum (map (fun x => f x * f x) l) / INR (length l) - mean_of f l * mean_of f l.
Proof.
  intros A f l N. pose proof (INR_len_pos A l N) as P.
  assert (E : forall m, Rsum (map (fun x => (f x - m) ^ 2) l) =
    Rsum (map (fun x => f x * f x) l) - 2 * m * Rsum (map f l) + m * m * INR (length l)).
  { intro m. clear. unfold Rsum. induction l as [|a l IH]; [simpl; ring|].
    cbn [map fold_right List.length]. rewrite IH, S_INR. ring. }
  unfold mean_of at 1. rewrite E. unfold mean_of. field. lra.
Qed.

Lemma mean_of_plus : forall A (f g : A -> R) l, mean_of (fun x => f x + g x) l = mean_of f l + mean_of g l.
Proof. intros. unfold mean_of. rewrite Rsum_plus. unfold Rdiv. ring. Qed.

Lemma std_distance_value : forall pts, pts <> [] ->
  std_distance pts = Some (sqrt (mean_of (fun p => (fst p - mean_of fst pts) ^ 2 + (snd p - mean_of snd pts) ^ 2) pts)).
Proof.
  intros pts N. unfold std_distance. destruct pts as [|p0 l]; [congruence|].
  set (pts := p0 :: l) in *. f_equal. f_equal.
  rewrite (mean_of_plus rpt (fun p => (fst p - mean_of fst pts) ^ 2)).
  rewrite (var_identity rpt fst pts N), (var_identity rpt snd pts N). reflexivity.
Qed.

Lemma mean_of_nonneg : forall A (f : A -> R) l, l <> [] -> (forall x, In x l -> 0 <= f x) -> 0 <= mean_of f l.
Proof.
  intros A f l N H. unfold mean_of. apply Rmult_le_pos; [apply Rsum_nonneg; auto|].
  apply Rlt_le, Rinv_0_lt_compat, INR_len_pos; auto.
Qed.
Lemma mean_of_map : forall A B (f : B -> R) (g : A -> B) l, mean_of f (map g l) = mean_of (fun x => f (g x)) l.
Proof. intros. unfold mean_of. rewrite map_map, map_length. reflexivity. Qed.
Lemma mean_of_ext : forall A (f g : A -> R) l, (forall x, In x l -> f x = g x) -> mean_of f l = mean_of g l.
Proof. intros. unfold mean_of. rewrite (Rsum_ext A f g l); auto. Qed.
Lemma mean_of_shift : forall A (f : A -> R) c l, l <> [] -> mean_of (fun x => f x + c) l = mean_of f l + c.
Proof.
  intros A f c l N. pose proof (INR_len_pos A l N). unfold mean_of.
  rewrite (Rsum_plus A f (fun _ => c)), Rsum_const. field. lra.
Qed.
Lemma mean_of_scale : forall A (f : A -> R) c l, mean_of (fun x => c * f x) l = c * mean_of f l.
Proof. intros. unfold mean_of. rewrite Rsum_scale. unfold Rdiv. ring. Qed.

(** ** Distances *)
Lemma rdist_dtot : forall (p c : rpt), sqrt ((fst p - fst c) * (fst p - fst c) + (snd p - snd c) * (snd p - snd c)) = rdist p c.
Proof. intros. unfold rdist. f_equal. ring. Qed.
Lemma rdist_nonneg : forall p q, 0 <= rdist p q.
Proof. intros. apply sqrt_pos. Qed.
Lemma rdist_euc : forall p q, rdist p q = dist_euc (fst p) (snd p) (fst q) (snd q).
Proof. intros. unfold rdist, dist_euc, Rsqr. f_equal. ring. Qed.
Lemma rdist_sym : forall p q, rdist p q = rdist q p.
Proof. intros. unfold rdist. f_equal. ring. Qed.
Lemma rdist_triangle : forall p q r, rdist p r <= rdist p q + rdist q r.
Proof. intros. rewrite !rdist_euc. apply triangle. Qed.
Lemma sum2_sq_nonneg : forall a b, 0 <= a ^ 2 + b ^ 2.
Proof. intros. nra. Qed.
Lemma sum2_sq_zero : forall a b, a ^ 2 + b ^ 2 = 0 -> a = 0 /\ b = 0.
Proof. intros a b H. apply Rplus_sqr_eq_0. unfold Rsqr. lra. Qed.
Lemma rdist_scale : forall k p q, rdist (rscale k p) (rscale k q) = Rabs k * rdist p q.
Proof.
  intros. unfold rdist, rscale; cbn [fst snd]. rewrite <- (sqrt_Rsqr_abs k).
  rewrite <- sqrt_mult; [f_equal; unfold Rsqr; ring | apply Rle_0_sqr | apply sum2_sq_nonneg].
Qed.
Lemma rdist_shift : forall d p q, rdist (rshift d p) (rshift d q) = rdist p q.
Proof. intros. unfold rdist, rshift; cbn [fst snd]. f_equal. ring. Qed.

Lemma dtot_value : forall c pts, dtot c pts = Rsum (map (fun p => rdist p c) pts).
Proof. intros. unfold dtot. apply Rsum_ext. intros. cbv zeta. apply rdist_dtot. Qed.

Lemma rdist_convex : forall p a b t, 0 <= t <= 1 ->
  rdist p (t * fst a + (1 - t) * fst b, t * snd a + (1 - t) * snd b) <= t * rdist p a + (1 - t) * rdist p b.
Proof.
  intros p a b t [T0 T1].
  set (c := (t * fst a + (1 - t) * fst b, t * snd a + (1 - t) * snd b)).
  (* p - c = t (p - a) + (1 - t) (p - b) *)
  set (u := (t * (fst p - fst a), t * (snd p - snd a)) : rpt).
  set (z := (0, 0) : rpt).
  assert (E1 : rdist u z = t * rdist p a).
  { replace (t * rdist p a) with (Rabs t * rdist p a) by (rewrite (Rabs_pos_eq t T0); ring). rewrite <- rdist_scale. unfold rdist, rscale, u, z; cbn [fst snd].
    f_equal. ring. }
  assert (E2 : rdist (p) (rshift u c) = (1 - t) * rdist p b).
  { replace ((1 - t) * rdist p b) with (Rabs (1 - t) * rdist p b) by (rewrite Rabs_pos_eq by lra; ring). rewrite <- rdist_scale. unfold rdist, rscale, rshift, u, c; cbn [fst snd].
    f_equal. ring. }
  assert (E3 : rdist (rshift u c) c = rdist u z).
  { unfold rdist, rshift, z; cbn [fst snd]. f_equal. ring. }
  pose proof (rdist_triangle p (rshift u c) c). lra.
Qed.

(** ** The ellipse *)
Lemma wsum_map : forall f g w pts, wsum f w (map g pts) = wsum (fun p => f (g p)) w pts.
Proof.
  intros f g w. unfold wsum, zip. induction w as [|a w IH]; intros [|p pts]; simpl; auto.
  unfold Rsum in *; simpl. rewrite IH. reflexivity.
Qed.
Lemma wsum_plus : forall f g w pts, wsum (fun p => f p + g p) w pts = wsum f w pts + wsum g w pts.
Proof.
  intros. unfold wsum. rewrite <- Rsum_plus. apply Rsum_ext. intros. ring.
Qed.
Lemma wsum_scale : forall f c w pts, wsum (fun p => c * f p) w pts = c * wsum f w pts.
Proof. intros. unfold wsum. rewrite <- Rsum_scale. apply Rsum_ext. intros. ring. Qed.
Lemma wsum_ext : forall f g w pts, (forall p, f p = g p) -> wsum f w pts = wsum g w pts.
Proof. intros. unfold wsum. apply Rsum_ext. intros. rewrite H. reflexivity. Qed.
Lemma wsum_nonneg : forall f w pts, (forall v, In v w -> 0 <= v) -> (forall p, 0 <= f p) -> 0 <= wsum f w pts.
Proof.
  intros f w pts W F. unfold wsum. apply Rsum_nonneg. intros [v p] H. apply in_combine_l in H.
  apply Rmult_le_pos; auto.
Qed.
Lemma map_fst_combine : forall (w : list R) (pts : list rpt), length w = length pts -> map fst (combine w pts) = w.
Proof.
  induction w as [|a w IH]; intros [|p pts] H; simpl in *; try discriminate; auto. rewrite IH by lia. reflexivity.
Qed.
Lemma wmean_wsum : forall f w pts, length w = length pts -> wmean f (combine w pts) = wsum f w pts / Rsum w.
Proof.
  intros f w pts L. unfold wmean, wsum, zip. rewrite map_fst_combine by auto. f_equal.
  apply Rsum_ext. intros. ring.
Qed.

(** The quadratic form of the second moments. *)
Definition form (x2 xy y2 c s : R) : R := x2 * c ^ 2 + 2 * xy * c * s + y2 * s ^ 2.

Lemma variance_form : forall w pts phi, length w = length pts -> Rsum w <> 0 ->
  let mx := wsum fst w pts / Rsum w in
  let my := wsum snd w pts / Rsum w in
  let m := map (fun p => (fst p - mx, snd p - my)) pts in
  variance_along phi (combine w pts) =
  form (wsum (fun p => fst p ^ 2) w m) (wsum (fun p => fst p * snd p) w m) (wsum (fun p => snd p ^ 2) w m)
       (cos phi) (sin phi) / Rsum w.
Proof.
  intros w pts phi L Z mx my m. unfold variance_along.
  assert (E : wmean (along phi) (combine w pts) = mx * cos phi + my * sin phi).
  { rewrite wmean_wsum by auto. unfold along.
    rewrite (wsum_ext _ (fun p => cos phi * fst p + sin phi * snd p)) by (intros; ring).
    rewrite (wsum_plus (fun p => cos phi * fst p) (fun p => sin phi * snd p)), !wsum_scale.
    unfold mx, my. field. auto. }
  rewrite E, wmean_wsum by auto. unfold m, form. rewrite !wsum_map. cbn [fst snd]. f_equal.
  rewrite (wsum_ext _ (fun p => (cos phi ^ 2 * ((fst p - mx) ^ 2) + (2 * cos phi * sin phi) * ((fst p - mx) * (snd p - my))) +
                                 sin phi ^ 2 * ((snd p - my) ^ 2))) by (intros; unfold along; ring).
  rewrite (wsum_plus (fun p => cos phi ^ 2 * ((fst p - mx) ^ 2) + (2 * cos phi * sin phi) * ((fst p - mx) * (snd p - my)))).
  rewrite (wsum_plus (fun p => cos phi ^ 2 * ((fst p - mx) ^ 2))), !wsum_scale. ring.
Qed.

Lemma term_form : forall w m th,
  wsum (fun p => (snd p * cos th - fst p * sin th) ^ 2) w m =
  form (wsum (fun p => fst p ^ 2) w m) (wsum (fun p => fst p * snd p) w m) (wsum (fun p => snd p ^ 2) w m)
       (- sin th) (cos th).
Proof.
  intros. unfold form.
  rewrite (wsum_ext _ (fun p => (sin th ^ 2 * (fst p ^ 2) + (- 2 * cos th * sin th) * (fst p * snd p)) +
                                 cos th ^ 2 * (snd p ^ 2))) by (intros; ring).
  rewrite (wsum_plus (fun p => sin th ^ 2 * (fst p ^ 2) + (- 2 * cos th * sin th) * (fst p * snd p))).
  rewrite (wsum_plus (fun p => sin th ^ 2 * (fst p ^ 2))), !wsum_scale. ring.
Qed.

Lemma form_trace : forall x2 xy y2 c s, c ^ 2 + s ^ 2 = 1 -> form x2 xy y2 (- s) c = x2 + y2 - form x2 xy y2 c s.
Proof.
  intros. unfold form. replace (x2 + y2) with ((x2 + y2) * (c ^ 2 + s ^ 2)) by (rewrite H; ring). ring.
Qed.

Lemma cs1 : forall t, cos t ^ 2 + sin t ^ 2 = 1.
Proof. intro t. pose proof (sin2_cos2 t) as H. unfold Rsqr in H. lra. Qed.

(** An eigenvector with tangent [t]. *)
Lemma form_eigen : forall x2 xy y2 t l, x2 + xy * t = l -> xy + y2 * t = l * t ->
  form x2 xy y2 (cos (atan t)) (sin (atan t)) = l.
Proof.
  intros x2 xy y2 t l H1 H2. set (c := cos (atan t)). 
  assert (C : 0 < c) by (pose proof (atan_bound t); apply cos_gt_0; lra).
  assert (E : sin (atan t) = t * c).
  { pose proof (tan_atan t) as T. unfold tan in T. fold c in T.
    transitivity (sin (atan t) / c * c); [field; lra | rewrite T; reflexivity]. }
  rewrite E. pose proof (cs1 (atan t)) as S. rewrite E in S. fold c in S.
  unfold form. replace (x2 * c ^ 2 + 2 * xy * c * (t * c) + y2 * (t * c) ^ 2) with
    (c ^ 2 * ((x2 + xy * t) + t * (xy + y2 * t))) by ring.
  rewrite H1, H2. replace (c ^ 2 * (l + t * (l * t))) with (l * (c ^ 2 + (t * c) ^ 2)) by ring. rewrite S. ring.
Qed.

(** The two angles: their directions are principal axes. *)
Lemma ellipse_angles_spec : forall x2 y2 xy th1 th2, ellipse_angles x2 y2 xy = (th1, th2) ->
  - (PI / 2) < th1 <= PI / 2 /\ - (PI / 2) < th2 <= PI / 2 /\
  exists l1 l2,
    form x2 xy y2 (- sin th1) (cos th1) = l1 /\ form x2 xy y2 (- sin th2) (cos th2) = l2 /\
    form x2 xy y2 (cos th1) (sin th1) = l2 /\ form x2 xy y2 (cos th2) (sin th2) = l1 /\
    (forall c s, c ^ 2 + s ^ 2 = 1 -> Rmin l1 l2 <= form x2 xy y2 c s <= Rmax l1 l2).
Proof.
  intros x2 y2 xy th1 th2 H. unfold ellipse_angles in H.
  pose proof PI_RGT_0 as PI0.
  destruct (Req_EM_T (2 * xy) 0) as [E|E].
  - assert (xy = 0) by lra. subst xy. inversion H; subst.
    split; [lra|]. split; [lra|]. exists y2, x2.
    rewrite cos_0, sin_0, cos_PI2, sin_PI2. unfold form.
    split; [ring|]. split; [ring|]. split; [ring|]. split; [ring|].
    intros c s N. replace (x2 * c ^ 2 + 2 * 0 * c * s + y2 * s ^ 2) with (x2 * c ^ 2 + y2 * (1 - c ^ 2)) by (rewrite <- N; ring).
    assert (0 <= c ^ 2) by nra. assert (0 <= s ^ 2) by nra. assert (c ^ 2 <= 1) by lra.
    unfold Rmin, Rmax. destruct (Rle_dec y2 x2); split; nra.
  - assert (XY : xy <> 0) by lra.
    set (left := x2 - y2) in *. set (right := sqrt (left ^ 2 + 4 * xy ^ 2)) in *.
    assert (RR : right * right = left ^ 2 + 4 * xy ^ 2) by (apply sqrt_sqrt; nra).
    assert (RP : 0 <= right) by apply sqrt_pos.
    assert (X2 : 0 < xy ^ 2) by (assert (xy ^ 2 <> 0) by (apply pow_nonzero; auto); nra).
    assert (RL : Rabs left < right).
    { unfold Rabs. destruct (Rcase_abs left); nra. }
    apply Rabs_def2 in RL. destruct RL as [RL1 RL2].
    set (t1 := - (left + right) / (2 * xy)) in *. set (t2 := - (left - right) / (2 * xy)) in *.
    inversion H; subst th1 th2. clear H.
    pose proof (atan_bound t1). pose proof (atan_bound t2).
    split; [lra|]. split; [lra|].
    set (l1 := (x2 + y2 + right) / 2). set (l2 := (x2 + y2 - right) / 2).
    assert (F1 : form x2 xy y2 (cos (atan t1)) (sin (atan t1)) = l2).
    { apply form_eigen.
      - unfold t1, l2, left. field. auto.
      - assert (K : (l2 - y2) * t1 = xy); [|lra].
        assert (K2 : xy * ((l2 - y2) * t1) = xy * xy).
        { unfold t1, l2. replace (x2 + y2 - right) with (left - right + 2 * y2) by (unfold left; ring).
          replace (xy * (((left - right + 2 * y2) / 2 - y2) * (- (left + right) / (2 * xy)))) with
            ((right * right - left ^ 2) / 4) by (field; auto). rewrite RR. field. }
        apply (Rmult_eq_reg_l xy); auto. }
    assert (F2 : form x2 xy y2 (cos (atan t2)) (sin (atan t2)) = l1).
    { apply form_eigen.
      - unfold t2, l1, left. field. auto.
      - assert (K : (l1 - y2) * t2 = xy); [|lra].
        assert (K2 : xy * ((l1 - y2) * t2) = xy * xy).
        { unfold t2, l1. replace (x2 + y2 + right) with (left + right + 2 * y2) by (unfold left; ring).
          replace (xy * (((left + right + 2 * y2) / 2 - y2) * (- (left - right) / (2 * xy)))) with
            ((right * right - left ^ 2) / 4) by (field; auto). rewrite RR. field. }
        apply (Rmult_eq_reg_l xy); auto. }
    exists l1, l2.
    split; [rewrite form_trace by apply cs1; rewrite F1; unfold l1, l2; field|].
    split; [rewrite form_trace by apply cs1; rewrite F2; unfold l1, l2; field|].
    split; [exact F1|]. split; [exact F2|].
    intros c s N.
    assert (M1 : Rmin l1 l2 = l2) by (apply Rmin_right; unfold l1, l2; lra).
    assert (M2 : Rmax l1 l2 = l1) by (apply Rmax_left; unfold l1, l2; lra).
    rewrite M1, M2. unfold form.
    (* a = (right - left) / 2, b = (right + left) / 2, a b = xy^2 *)
    set (a := (right - left) / 2). set (b := (right + left) / 2).
    assert (A : 0 < a) by (unfold a; lra). assert (B : 0 < b) by (unfold b; lra).
    assert (AB : a * b = xy * xy) by (unfold a, b; nra).
    assert (U : l1 - (x2 * c ^ 2 + 2 * xy * c * s + y2 * s ^ 2) = a * c ^ 2 - 2 * xy * c * s + b * s ^ 2).
    { replace l1 with (l1 * (c ^ 2 + s ^ 2)) by (rewrite N; ring). unfold l1, a, b, left. field. }
    assert (V : (x2 * c ^ 2 + 2 * xy * c * s + y2 * s ^ 2) - l2 = b * c ^ 2 + 2 * xy * c * s + a * s ^ 2).
    { replace l2 with (l2 * (c ^ 2 + s ^ 2)) by (rewrite N; ring). unfold l2, a, b, left. field. }
    assert (U2 : a * (a * c ^ 2 - 2 * xy * c * s + b * s ^ 2) = (a * c - xy * s) ^ 2).
    { replace (a * (a * c ^ 2 - 2 * xy * c * s + b * s ^ 2)) with (a * a * c ^ 2 - 2 * a * xy * c * s + (a * b) * s ^ 2) by ring.
      rewrite AB. ring. }
    assert (V2 : a * (b * c ^ 2 + 2 * xy * c * s + a * s ^ 2) = (xy * c + a * s) ^ 2).
    { replace (a * (b * c ^ 2 + 2 * xy * c * s + a * s ^ 2)) with ((a * b) * c ^ 2 + 2 * a * xy * c * s + a * a * s ^ 2) by ring.
      rewrite AB. ring. }
    assert (NN : forall q r, a * q = r ^ 2 -> 0 <= q).
    { intros q r Hq. destruct (Rle_or_lt 0 q) as [|Hn]; auto. pose proof (pow2_ge_0 r). nra. }
    pose proof (NN _ _ U2). pose proof (NN _ _ V2). lra.
Qed.
