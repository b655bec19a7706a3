(** Property C91: the Euclidean median. *)
From Coq Require Import Reals List Bool Arith Lra Lia Psatz.
From Verif Require Import Base CenterR_model CenterR_spec CenterR_proofs CenterR_props GeoEllipse_model Median_model.
Import ListNotations.
Local Open Scope R_scope.

(** A point with the smallest total distance to the points. *)
Definition minimises (pts : list rpt) (c : rpt) : Prop := forall c', dtot c pts <= dtot c' pts.

(** ** Vectors in the plane *)
Definition rsub (p q : rpt) : rpt := (fst p - fst q, snd p - snd q).
Definition radd (p q : rpt) : rpt := (fst p + fst q, snd p + snd q).
Definition rdot (u v : rpt) : R := fst u * fst v + snd u * snd v.
Definition rnorm (u : rpt) : R := sqrt (fst u ^ 2 + snd u ^ 2).

Lemma rnorm_nonneg : forall u, 0 <= rnorm u.
Proof. intro. apply sqrt_pos. Qed.
Lemma rnorm_sq : forall u, rnorm u * rnorm u = fst u ^ 2 + snd u ^ 2.
Proof. intro. apply sqrt_sqrt, sum2_sq_nonneg. Qed.
Lemma rdist_norm : forall p q, rdist p q = rnorm (rsub p q).
Proof. reflexivity. Qed.
Lemma rnorm_zero : forall u, rnorm u = 0 -> u = (0, 0).
Proof.
  intros [a b] H. pose proof (rnorm_sq (a, b)) as S. rewrite H in S. cbn [fst snd] in S.
  destruct (sum2_sq_zero a b); [lra|]. subst. reflexivity.
Qed.
Lemma rdist_zero : forall p q, rdist p q = 0 -> p = q.
Proof.
  intros p q H. rewrite rdist_norm in H. apply rnorm_zero in H. unfold rsub in H. inversion H. destruct p, q; cbn [fst snd] in *. f_equal; lra.
Qed.
(** Cauchy-Schwarz. *)
Lemma rdot_le : forall u v, rdot u v <= rnorm u * rnorm v.
Proof.
  intros u v. destruct (Rle_or_lt (rdot u v) 0) as [H|H].
  - pose proof (rnorm_nonneg u). pose proof (rnorm_nonneg v). nra.
  - apply Rsqr_incr_0_var; [|apply Rmult_le_pos; apply rnorm_nonneg]. unfold Rsqr.
    replace (rnorm u * rnorm v * (rnorm u * rnorm v)) with ((rnorm u * rnorm u) * (rnorm v * rnorm v)) by ring.
    rewrite !rnorm_sq. unfold rdot. pose proof (pow2_ge_0 (fst u * snd v - snd u * fst v)). nra.
Qed.

(** ** The optimality criterion *)
Definition at_dec : forall p c : rpt, {p = c} + {p <> c}.
Proof.
  intros [a b] [x y]. destruct (Req_EM_T a x); [|right; congruence]. destruct (Req_EM_T b y); [left|right]; congruence.
Defined.
(** How many of the points coincide with [c], and the sum of the unit vectors that
    point from the others to [c]. *)
Definition multiplicity (pts : list rpt) (c : rpt) : R := Rsum (map (fun p => if at_dec p c then 1 else 0) pts).
Definition pull (pts : list rpt) (c : rpt) : rpt :=
  (Rsum (map (fun p => if at_dec p c then 0 else (fst c - fst p) / rdist p c) pts),
   Rsum (map (fun p => if at_dec p c then 0 else (snd c - snd p) / rdist p c) pts)).

Lemma rdist_pos : forall p c, p <> c -> 0 < rdist p c.
Proof.
  intros p c N. destruct (rdist_nonneg p c) as [|E]; auto. exfalso. apply N, rdist_zero. auto.
Qed.

(** One point: a lower and an upper bound for the distance after a move by [h]. *)
Definition gain (c h p : rpt) : R := if at_dec p c then rnorm h else rdot (rsub c p) h / rdist p c.
Lemma rdist_lower : forall c h p, rdist p c + gain c h p <= rdist p (radd c h).
Proof.
  intros c h p. unfold gain. destruct (at_dec p c) as [->|N].
  - rewrite (rdist_norm c c). unfold rsub. replace (fst c - fst c) with 0 by ring. replace (snd c - snd c) with 0 by ring.
    unfold rnorm at 1. cbn [fst snd]. replace (0 ^ 2 + 0 ^ 2) with 0 by ring. rewrite sqrt_0, Rplus_0_l.
    rewrite rdist_sym, rdist_norm. unfold rsub, radd. cbn [fst snd]. right. unfold rnorm. f_equal. cbn [fst snd]. ring.
  - pose proof (rdist_pos p c N) as D.
    apply (Rmult_le_reg_l (rdist p c)); auto.
    replace (rdist p c * (rdist p c + rdot (rsub c p) h / rdist p c)) with (rdist p c * rdist p c + rdot (rsub c p) h) by (field; lra).
    rewrite (rdist_sym p c), (rdist_sym p (radd c h)), !rdist_norm, rnorm_sq.
    eapply Rle_trans; [|apply rdot_le]. right. unfold rdot, rsub, radd. cbn [fst snd]. ring.
Qed.
Lemma rdist_upper : forall c h p,
  rdist p (radd c h) <= rdist p c + gain c h p + (if at_dec p c then 0 else rnorm h ^ 2 / (2 * rdist p c)).
Proof.
  intros c h p. unfold gain. destruct (at_dec p c) as [->|N].
  - rewrite Rplus_0_r. rewrite (rdist_norm c c). unfold rsub. replace (fst c - fst c) with 0 by ring. replace (snd c - snd c) with 0 by ring.
    unfold rnorm at 1. cbn [fst snd]. replace (0 ^ 2 + 0 ^ 2) with 0 by ring. rewrite sqrt_0, Rplus_0_l.
    rewrite rdist_sym, rdist_norm. unfold rsub, radd. cbn [fst snd]. right. unfold rnorm. f_equal. cbn [fst snd]. ring.
  - pose proof (rdist_pos p c N) as D. pose proof (rdist_nonneg p (radd c h)) as E.
    set (d := rdist p c) in *. set (e := rdist p (radd c h)) in *.
    assert (E2 : e * e = d * d + 2 * rdot (rsub c p) h + rnorm h ^ 2).
    { unfold d, e. rewrite (rdist_sym p c), (rdist_sym p (radd c h)), !rdist_norm. replace (rnorm h ^ 2) with (rnorm h * rnorm h) by ring. rewrite !rnorm_sq.
      unfold rdot, rsub, radd. cbn [fst snd]. ring. }
    apply (Rmult_le_reg_l (2 * d)); [lra|].
    replace (2 * d * (d + rdot (rsub c p) h / d + rnorm h ^ 2 / (2 * d))) with (d * d + (d * d + 2 * rdot (rsub c p) h + rnorm h ^ 2)) by (field; lra).
    rewrite <- E2. pose proof (pow2_ge_0 (d - e)). nra.
Qed.

Lemma gain_sum : forall pts c h,
  Rsum (map (gain c h) pts) = multiplicity pts c * rnorm h + rdot (pull pts c) h.
Proof.
  intros pts c h. unfold multiplicity, pull, rdot. cbn [fst snd].
  rewrite (Rmult_comm _ (rnorm h)), (Rmult_comm _ (fst h)), (Rmult_comm _ (snd h)), <- !Rsum_scale, <- !Rsum_plus.
  apply Rsum_ext. intros p _. unfold gain. destruct (at_dec p c) as [|N]; [ring|].
  unfold rdot, rsub. cbn [fst snd]. pose proof (rdist_pos p c N). field. lra.
Qed.

(** [c] is a Euclidean median exactly when the pull of the other points does not
    exceed the number of points at [c] (Weiszfeld, Kuhn). *)
Theorem C91_criterion : forall pts c, minimises pts c <-> rnorm (pull pts c) <= multiplicity pts c.
Proof.
  intros pts c. split; intro H.
  - destruct (Rle_or_lt (rnorm (pull pts c)) (multiplicity pts c)) as [|G]; auto. exfalso.
    set (U := pull pts c) in *. set (m := multiplicity pts c) in *.
    set (K := Rsum (map (fun p => if at_dec p c then 0 else / (2 * rdist p c)) pts)).
    assert (K0 : 0 <= K).
    { apply Rsum_nonneg. intros p _. destruct (at_dec p c) as [|N]; [lra|]. pose proof (rdist_pos p c N).
      apply Rlt_le, Rinv_0_lt_compat. lra. }
    assert (M0 : 0 <= m). { apply Rsum_nonneg. intros p _. destruct (at_dec p c); lra. }
    assert (B : forall h, dtot (radd c h) pts <= dtot c pts + (m * rnorm h + rdot U h) + rnorm h ^ 2 * K).
    { intro h. rewrite !dtot_value. unfold m, U. rewrite <- gain_sum. unfold K. rewrite <- !Rsum_scale, <- !Rsum_plus.
      apply Rsum_le. intros p _. pose proof (rdist_upper c h p) as X. destruct (at_dec p c); [lra|].
      unfold Rdiv in X. lra. }
    set (r := rnorm U) in *. assert (R0 : 0 < r) by lra.
    set (t := (r - m) / (r * (2 * K + 1))).
    assert (T0 : 0 < t). { apply Rdiv_lt_0_compat; [lra|]. apply Rmult_lt_0_compat; lra. }
    set (h := (- t * fst U, - t * snd U)).
    assert (NH : rnorm h = t * r).
    { unfold rnorm, h. cbn [fst snd]. replace ((- t * fst U) ^ 2 + (- t * snd U) ^ 2) with (t * t * (fst U ^ 2 + snd U ^ 2)) by ring.
      rewrite sqrt_mult by (try apply sum2_sq_nonneg; nra). rewrite sqrt_square by lra. reflexivity. }
    assert (DH : rdot U h = - t * (r * r)). { unfold r. rewrite rnorm_sq. unfold rdot, h. cbn [fst snd]. ring. }
    specialize (B h). specialize (H (radd c h)). rewrite NH, DH in B.
    assert (Q : m * (t * r) + - t * (r * r) + (t * r) ^ 2 * K < 0).
    { replace (m * (t * r) + - t * (r * r) + (t * r) ^ 2 * K) with (t * r * (t * r * K - (r - m))) by ring.
      assert (0 < t * r) by (apply Rmult_lt_0_compat; auto).
      assert (t * r * K < r - m).
      { unfold t. replace ((r - m) / (r * (2 * K + 1)) * r * K) with ((r - m) * (K / (2 * K + 1))) by (field; lra).
        assert (K / (2 * K + 1) < 1). { apply (Rmult_lt_reg_r (2 * K + 1)); [lra|]. unfold Rdiv. rewrite Rmult_assoc, Rinv_l by lra. lra. }
        nra. }
      nra. }
    lra.
  - intro c'. set (h := rsub c' c). replace c' with (radd c h) by (unfold h, radd, rsub; destruct c, c'; cbn [fst snd]; f_equal; ring).
    rewrite !dtot_value. 
    apply Rle_trans with (Rsum (map (fun p => rdist p c) pts) + Rsum (map (gain c h) pts)).
    + rewrite gain_sum. pose proof (rdot_le (-1 * fst (pull pts c), -1 * snd (pull pts c)) h) as D.
      assert (E : rnorm (-1 * fst (pull pts c), -1 * snd (pull pts c)) = rnorm (pull pts c)) by (unfold rnorm; cbn [fst snd]; f_equal; ring).
      rewrite E in D. assert (F : rdot (-1 * fst (pull pts c), -1 * snd (pull pts c)) h = - rdot (pull pts c) h) by (unfold rdot; cbn [fst snd]; ring).
      rewrite F in D. pose proof (rnorm_nonneg h). nra.
    + rewrite <- Rsum_plus. apply Rsum_le. intros p _. apply rdist_lower.
Qed.
Print Assumptions C91_criterion.

(** A minimiser lies in every half-plane that contains all the points, hence in
    their convex hull. *)
Theorem C91_in_hull : forall pts c u b, pts <> [] -> minimises pts c ->
  (forall p, In p pts -> rdot u p <= b) -> rdot u c <= b.
Proof.
  intros pts c u b N M H. destruct (Rle_or_lt (rdot u c) b) as [|G]; auto. exfalso.
  assert (U0 : u <> (0, 0)).
  { intros ->. destruct pts as [|p t]; [congruence|]. specialize (H p (or_introl eq_refl)). unfold rdot in *. cbn [fst snd] in *. lra. }
  set (n2 := fst u ^ 2 + snd u ^ 2).
  assert (N2 : 0 < n2).
  { destruct (sum2_sq_nonneg (fst u) (snd u)) as [|E]; auto. exfalso. symmetry in E. apply sum2_sq_zero in E. apply U0. destruct u; cbn [fst snd] in *. destruct E; subst; reflexivity. }
  set (t := (rdot u c - b) / n2). assert (T0 : 0 < t) by (apply Rdiv_lt_0_compat; lra).
  set (c' := (fst c - t * fst u, snd c - t * snd u)).
  assert (L : forall p, In p pts -> rdist p c' < rdist p c).
  { intros p Hp. specialize (H p Hp). apply sqrt_lt_1; try apply sum2_sq_nonneg.
    unfold c'. cbn [fst snd].
    replace ((fst p - (fst c - t * fst u)) ^ 2 + (snd p - (snd c - t * snd u)) ^ 2) with
      ((fst p - fst c) ^ 2 + (snd p - snd c) ^ 2 + t * (2 * (rdot u p - rdot u c) + t * n2)) by (unfold rdot, n2; ring).
    assert (t * n2 = rdot u c - b) by (unfold t; field; lra).
    nra. }
  specialize (M c'). rewrite !dtot_value in M.
  assert (S : Rsum (map (fun p => rdist p c') pts) < Rsum (map (fun p => rdist p c) pts)).
  { clear - N L. clearbody c'. revert N L. induction pts as [|p l IH]; intros N L; [congruence|]. cbn [map Rsum fold_right]. fold (Rsum (map (fun p => rdist p c') l)). fold (Rsum (map (fun p => rdist p c) l)).
    pose proof (L p (or_introl eq_refl)). destruct l as [|q l]; [cbn; lra|].
    assert (H0 : q :: l <> []) by discriminate. specialize (IH H0 (fun p Hp => L p (or_intror Hp))). lra. }
  lra.
Qed.
Print Assumptions C91_in_hull.

(** The minimiser is unique unless the points lie on a line. *)
Theorem C91_unique : forall pts c c', minimises pts c -> minimises pts c' -> c <> c' ->
  forall p, In p pts -> (fst p - fst c) * (snd c' - snd c) = (snd p - snd c) * (fst c' - fst c).
Proof.
  intros pts c c' M M' N p Hp.
  set (m := (/ 2 * fst c + (1 - / 2) * fst c', / 2 * snd c + (1 - / 2) * snd c')).
  assert (T : 0 <= / 2 <= 1) by lra.
  pose proof (M c') as E1. pose proof (M' c) as E2. pose proof (M m) as E3. rewrite !dtot_value in E1, E2, E3.
  set (f := fun q => / 2 * rdist q c + (1 - / 2) * rdist q c' - rdist q m).
  assert (F0 : forall q, In q pts -> 0 <= f q).
  { intros q _. unfold f, m. pose proof (rdist_convex q c c' (/ 2) T). lra. }
  assert (FS : Rsum (map f pts) = 0).
  { apply Rle_antisym; [|apply Rsum_nonneg; auto].
    assert (FE : Rsum (map f pts) + Rsum (map (fun q => rdist q m) pts) =
            / 2 * Rsum (map (fun q => rdist q c) pts) + (1 - / 2) * Rsum (map (fun q => rdist q c') pts)).
    { rewrite <- !Rsum_scale, <- !Rsum_plus. apply Rsum_ext. intros. unfold f. ring. }
    lra. }
  pose proof (Rsum_zero _ f pts F0 FS p Hp) as Z. unfold f in Z.
  set (a := rsub p c). set (b := rsub p c').
  assert (EM : rdist p m = / 2 * rnorm (radd a b)).
  { unfold rdist, rnorm, radd, a, b, rsub, m. cbn [fst snd].
    replace ((fst p - (/ 2 * fst c + (1 - / 2) * fst c')) ^ 2 + (snd p - (/ 2 * snd c + (1 - / 2) * snd c')) ^ 2) with
      ((/ 2) * (/ 2) * ((fst p - fst c + (fst p - fst c')) ^ 2 + (snd p - snd c + (snd p - snd c')) ^ 2)) by field.
    rewrite sqrt_mult by (try apply sum2_sq_nonneg; lra). rewrite sqrt_square by lra. reflexivity. }
  rewrite EM, !rdist_norm in Z. fold a b in Z.
  assert (S : rnorm (radd a b) = rnorm a + rnorm b) by lra.
  assert (D : rdot a b = rnorm a * rnorm b).
  { pose proof (rnorm_sq (radd a b)) as Q. rewrite S in Q. pose proof (rnorm_sq a). pose proof (rnorm_sq b).
    unfold radd, rdot in *. cbn [fst snd] in *. nra. }
  assert (X : (fst a * snd b - snd a * fst b) ^ 2 = 0).
  { transitivity ((fst a ^ 2 + snd a ^ 2) * (fst b ^ 2 + snd b ^ 2) - rdot a b * rdot a b); [unfold rdot; ring|].
    rewrite D, <- !rnorm_sq. ring. }
  assert (Y : fst a * snd b - snd a * fst b = 0).
  { destruct (Req_dec (fst a * snd b - snd a * fst b) 0) as [|K]; auto. exfalso. apply (pow_nonzero _ 2) in K. lra. }
  unfold a, b, rsub in Y. cbn [fst snd] in Y. lra.
Qed.
Print Assumptions C91_unique.

(** ** Existence *)
Lemma lipschitz_continuity : forall (g : R -> R) L, 0 <= L -> (forall x y, Rabs (g x - g y) <= L * Rabs (x - y)) -> continuity g.
Proof.
  intros g L L0 H x eps E. exists (eps / (L + 1)). split; [apply Rdiv_lt_0_compat; lra|].
  intros y [_ D]. unfold dist in *. simpl in *. unfold R_dist in *. eapply Rle_lt_trans; [apply H|].
  assert (L * Rabs (y - x) <= L * (eps / (L + 1))) by (apply Rmult_le_compat_l; lra).
  assert (L * (eps / (L + 1)) < eps).
  { replace (L * (eps / (L + 1))) with (eps * (L / (L + 1))) by (field; lra).
    assert (L / (L + 1) < 1). { apply (Rmult_lt_reg_r (L + 1)); [lra|]. unfold Rdiv. rewrite Rmult_assoc, Rinv_l by lra. lra. }
    nra. }
  lra.
Qed.

Lemma dtot_lip : forall pts c c', dtot c pts <= dtot c' pts + INR (List.length pts) * rdist c c'.
Proof.
  intros pts c c'. destruct (C20_dtot c pts) as (_ & _ & _ & _ & _ & L & _). specialize (L c').
  pose proof (Rle_abs (dtot c pts - dtot c' pts)). lra.
Qed.
Lemma rdist_x : forall x x' y, rdist (x, y) (x', y) = Rabs (x - x').
Proof.
  intros. unfold rdist. cbn [fst snd]. replace ((x - x') ^ 2 + (y - y) ^ 2) with (Rsqr (x - x')) by (unfold Rsqr; ring). apply sqrt_Rsqr_abs.
Qed.
Lemma rdist_y : forall x y y', rdist (x, y) (x, y') = Rabs (y - y').
Proof.
  intros. unfold rdist. cbn [fst snd]. replace ((x - x) ^ 2 + (y - y') ^ 2) with (Rsqr (y - y')) by (unfold Rsqr; ring). apply sqrt_Rsqr_abs.
Qed.
Lemma rdist_ge_x : forall p q, Rabs (fst p - fst q) <= rdist p q.
Proof.
  intros. rewrite <- sqrt_Rsqr_abs. apply sqrt_le_1; [apply Rle_0_sqr | apply sum2_sq_nonneg |]. unfold Rsqr. pose proof (pow2_ge_0 (snd p - snd q)). lra.
Qed.
Lemma rdist_ge_y : forall p q, Rabs (snd p - snd q) <= rdist p q.
Proof.
  intros. rewrite <- sqrt_Rsqr_abs. apply sqrt_le_1; [apply Rle_0_sqr | apply sum2_sq_nonneg |]. unfold Rsqr. pose proof (pow2_ge_0 (fst p - fst q)). lra.
Qed.

(** The smallest value on a rectangle is attained. *)
Lemma min_on_rect : forall pts x0 x1 y0 y1, x0 <= x1 -> y0 <= y1 ->
  exists c, x0 <= fst c <= x1 /\ y0 <= snd c <= y1 /\
    forall c', x0 <= fst c' <= x1 -> y0 <= snd c' <= y1 -> dtot c pts <= dtot c' pts.
Proof.
  intros pts x0 x1 y0 y1 HX HY. set (n := INR (List.length pts)). assert (N0 : 0 <= n) by apply pos_INR.
  set (F := fun x y => dtot (x, y) pts).
  assert (CY : forall x, exists y, y0 <= y <= y1 /\ forall y', y0 <= y' <= y1 -> F x y <= F x y').
  { intro x. destruct (continuity_ab_min (F x) y0 y1 HY) as (y & M & I).
    - intros y _. revert y. change (continuity (F x)). apply (lipschitz_continuity _ n); auto. intros y y'. unfold F.
      destruct (C20_dtot (x, y) pts) as (_ & _ & _ & _ & _ & L & _). specialize (L (x, y')). rewrite rdist_y in L. exact L.
    - exists y. auto. }
  set (E := fun x v => exists y, y0 <= y <= y1 /\ v = - F x y).
  assert (SB : forall x, {m : R | is_lub (E x) m}).
  { intro x. apply completeness.
    - exists 0. intros v (y & _ & ->). unfold F. destruct (C20_dtot (x, y) pts) as (_ & P & _). lra.
    - exists (- F x y0). exists y0. split; auto. lra. }
  set (g := fun x => - proj1_sig (SB x)).
  assert (GS : forall x, exists y, y0 <= y <= y1 /\ g x = F x y /\ forall y', y0 <= y' <= y1 -> g x <= F x y').
  { intro x. destruct (CY x) as (y & I & M). exists y. split; auto.
    unfold g. destruct (SB x) as [m [U L]]. cbn [proj1_sig].
    assert (m = - F x y).
    { apply Rle_antisym.
      - apply L. intros v (y' & I' & ->). specialize (M y' I'). lra.
      - apply U. exists y. auto. }
    subst m. split; [ring|]. intros y' I'. specialize (M y' I'). lra. }
  assert (GL : forall x x', g x <= g x' + n * Rabs (x - x')).
  { intros x x'. destruct (GS x') as (y & I & -> & _). destruct (GS x) as (_ & _ & _ & M). specialize (M y I).
    pose proof (dtot_lip pts (x, y) (x', y)) as L. rewrite rdist_x in L. unfold F in *. unfold n. lra. }
  destruct (continuity_ab_min g x0 x1 HX) as (x & M & I).
  { intros x _. revert x. change (continuity g). apply (lipschitz_continuity _ n); auto. intros x x'.
    pose proof (GL x x'). pose proof (GL x' x) as G2. rewrite (Rabs_minus_sym x' x) in G2. unfold Rabs at 1. destruct (Rcase_abs _); lra. }
  destruct (GS x) as (y & Iy & Ey & _). exists (x, y). cbn [fst snd]. split; auto. split; auto.
  intros [x' y'] Ix' Iy'. cbn [fst snd] in *. destruct (GS x') as (_ & _ & _ & M'). specialize (M' y' Iy'). specialize (M x' Ix'). unfold F in *. lra.
Qed.

Theorem C91_exists : forall pts, exists c, minimises pts c.
Proof.
  intros [|p0 t].
  - exists (0, 0). intro c'. unfold dtot, Rsum. cbn [map fold_right]. lra.
  - set (pts := p0 :: t). set (D := dtot p0 pts). assert (D0 : 0 <= D) by (destruct (C20_dtot p0 pts) as (_ & P & _); exact P).
    destruct (min_on_rect pts (fst p0 - D) (fst p0 + D) (snd p0 - D) (snd p0 + D)) as (c & I1 & I2 & M); [lra|lra|].
    exists c. intro c'.
    assert (Q : rdist p0 c' <= dtot c' pts).
    { rewrite dtot_value. unfold pts. cbn [map Rsum fold_right]. 
      pose proof (Rsum_nonneg _ (fun p => rdist p c') t (fun x _ => rdist_nonneg x c')). unfold Rsum in H. lra. }
    assert (P0 : dtot c pts <= D) by (apply M; lra).
    destruct (Rle_or_lt (rdist p0 c') D) as [L|L]; [|lra].
    apply M.
    + pose proof (rdist_ge_x p0 c') as X. assert (A : Rabs (fst p0 - fst c') <= D) by lra. unfold Rabs in A; destruct (Rcase_abs _) in A; lra.
    + pose proof (rdist_ge_y p0 c') as X. assert (A : Rabs (snd p0 - snd c') <= D) by lra. unfold Rabs in A; destruct (Rcase_abs _) in A; lra.
Qed.
Print Assumptions C91_exists.

(** ** euclidean_median *)
(** With an optimiser that never returns a worse point than the starting point,
    the result is not worse than the mean centre and is not far from it; with one
    that returns a minimiser, it is a Euclidean median. *)
Theorem C91_euclidean_median : forall minimize pts,
  let c := euclidean_median minimize pts in
  let m := mean_center_r pts in
  ((forall f x, f (minimize f x) <= f x) ->
     dtot c pts <= dtot m pts /\ INR (List.length pts) * rdist c m <= 2 * dtot m pts) /\
  ((forall f x, (exists y, forall z, f y <= f z) -> forall z, f (minimize f x) <= f z) -> minimises pts c).
Proof.
  intros minimize pts c m. split.
  - intro H. assert (L : dtot c pts <= dtot m pts) by (apply (H (fun c => dtot c pts))). split; auto.
    assert (T : INR (List.length pts) * rdist c m <= dtot c pts + dtot m pts).
    { rewrite !dtot_value, <- Rsum_plus. replace (INR (List.length pts) * rdist c m) with (Rsum (map (fun _ : rpt => rdist c m) pts)) by (rewrite Rsum_const; ring).
      apply Rsum_le. intros p _. pose proof (rdist_triangle c p m). rewrite (rdist_sym c p) in H0. lra. }
    lra.
  - intros H c'. apply (H (fun c => dtot c pts)). destruct (C91_exists pts) as [y Y]. exists y. exact Y.
Qed.
Print Assumptions C91_euclidean_median.

(** Four points whose Euclidean median is one of them, and not the mean centre. *)
Example C91_case : let pts := [(0, 0); (3, 4); (-3, -4); (1, 0)] in
  minimises pts (0, 0) /\ mean_center_r pts = (1 / 4, 0) /\ dtot (0, 0) pts = 11.
Proof.
  intro pts. 
  assert (D : forall a b r, 0 <= r -> a ^ 2 + b ^ 2 = r ^ 2 -> rdist (a, b) (0, 0) = r).
  { intros a b r R0 H. unfold rdist. cbn [fst snd]. replace ((a - 0) ^ 2 + (b - 0) ^ 2) with (r * r) by lra. apply sqrt_square; auto. }
  assert (D1 : rdist (3, 4) (0, 0) = 5) by (apply D; lra).
  assert (D2 : rdist (-3, -4) (0, 0) = 5) by (apply D; lra).
  assert (D3 : rdist (1, 0) (0, 0) = 1) by (apply D; lra).
  assert (D4 : rdist (0, 0) (0, 0) = 0) by (apply D; lra).
  split; [|split].
  - apply C91_criterion. unfold pull, multiplicity, pts, Rsum. cbn [map fold_right].
    destruct (at_dec (0, 0) (0, 0)) as [_|X]; [|congruence].
    destruct (at_dec (3, 4) (0, 0)) as [X|_]; [exfalso; inversion X; lra|].
    destruct (at_dec (-3, -4) (0, 0)) as [X|_]; [exfalso; inversion X; lra|].
    destruct (at_dec (1, 0) (0, 0)) as [X|_]; [exfalso; inversion X; lra|].
    rewrite D1, D2, D3. cbn [fst snd]. unfold rnorm. cbn [fst snd].
    match goal with |- sqrt ?e <= _ => replace e with 1 by field end. rewrite sqrt_1. lra.
  - unfold mean_center_r, pts, Rsum. cbn [map fold_right fst snd List.length]. f_equal; simpl INR; field.
  - rewrite dtot_value. unfold pts, Rsum. cbn [map fold_right]. rewrite D1, D2, D3, D4. ring.
Qed.

(** Two points: every point between them is a minimiser. *)
Example C91_two_points : minimises [(0, 0); (2, 0)] (0, 0) /\ minimises [(0, 0); (2, 0)] (1, 0).
Proof.
  assert (H : forall x, 0 <= x <= 2 -> minimises [(0, 0); (2, 0)] (x, 0)).
  { intros x X c'. rewrite !dtot_value. unfold Rsum. cbn [map fold_right]. rewrite !rdist_x.
    pose proof (rdist_ge_x (0, 0) c') as A. pose proof (rdist_ge_x (2, 0) c') as B. cbn [fst snd] in A, B.
    assert (Rabs (0 - x) = x) by (rewrite Rabs_left1; lra). assert (Rabs (2 - x) = 2 - x) by (apply Rabs_right; lra).
    pose proof (Rle_abs (2 - fst c')). pose proof (Rle_abs (- (0 - fst c'))). rewrite Rabs_Ropp in H2. lra. }
  split; apply H; lra.
Qed.
