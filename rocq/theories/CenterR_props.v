(** Properties C17, C18, C19 and C20: spread measures of a point pattern. *)
From Coq Require Import Reals Ratan List Bool Ascii String Arith Permutation Lra Lia Psatz.
From Verif Require Import Base CenterR_model CenterR_spec CenterR_proofs.
Import ListNotations.
Local Open Scope R_scope.

(** ** C17 *)
Theorem C17_std_distance : forall pts, pts <> [] ->
  exists v, std_distance pts = Some v /\ 0 <= v /\
    (** the mean squared distance to the mean centre *)
    v ^ 2 = mean_of (fun p => rdist p (mean_of fst pts, mean_of snd pts) ^ 2) pts /\
    (v = 0 <-> forall p q, In p pts -> In q pts -> p = q) /\
    (forall d, std_distance (map (rshift d) pts) = Some v) /\
    (forall k, std_distance (map (rscale k) pts) = Some (Rabs k * v)).
Proof.
  intros pts N. set (mx := mean_of fst pts). set (my := mean_of snd pts).
  set (V := fun p : rpt => (fst p - mx) ^ 2 + (snd p - my) ^ 2).
  assert (V0 : forall p, 0 <= V p) by (intro; apply sum2_sq_nonneg).
  assert (M0 : 0 <= mean_of V pts) by (apply mean_of_nonneg; auto).
  assert (N2 : forall f : rpt -> rpt, map f pts <> []) by (intros; destruct pts; simpl; congruence).
  exists (sqrt (mean_of V pts)). split; [apply std_distance_value; auto|]. split; [apply sqrt_pos|].
  split; [|split; [|split]].
  - simpl pow. rewrite Rmult_1_r, sqrt_sqrt by auto. apply mean_of_ext. intros p _. unfold rdist. cbn [fst snd].
    fold (V p). simpl pow. rewrite Rmult_1_r, sqrt_sqrt by auto. reflexivity.
  - split.
    + intro Z. apply sqrt_eq_0 in Z; auto.
      assert (S : Rsum (map V pts) = 0).
      { unfold mean_of in Z. pose proof (INR_len_pos _ pts N). apply (Rmult_eq_reg_r (/ INR (List.length pts))).
        - unfold Rdiv in Z. lra. - apply Rinv_neq_0_compat. lra. }
      assert (E : forall p, In p pts -> p = (mx, my)).
      { intros p Hp. pose proof (Rsum_zero _ V pts (fun x _ => V0 x) S p Hp) as Vp. unfold V in Vp.
        destruct p as [a b]. cbn [fst snd] in Vp. apply sum2_sq_zero in Vp. f_equal; lra. }
      intros p q Hp Hq. rewrite (E p Hp), (E q Hq). reflexivity.
    + intro H. destruct pts as [|p0 l]; [congruence|]. 
      assert (E : forall p, In p (p0 :: l) -> p = p0) by (intros; apply H; simpl; auto).
      assert (Em : forall f : rpt -> R, mean_of f (p0 :: l) = f p0).
      { intro f. rewrite (mean_of_ext _ f (fun _ => f p0)) by (intros x Hx; rewrite (E x Hx); auto).
        unfold mean_of. rewrite Rsum_const. pose proof (INR_len_pos _ _ N). field. lra. }
      rewrite Em. unfold V, mx, my. rewrite !Em. replace ((fst p0 - fst p0) ^ 2 + (snd p0 - snd p0) ^ 2) with 0 by ring.
      apply sqrt_0.
  - intro d. rewrite std_distance_value by auto. do 2 f_equal. rewrite !mean_of_map. apply mean_of_ext.
    intros p _. unfold rshift, V, mx, my. cbn [fst snd]. rewrite (mean_of_shift _ fst), (mean_of_shift _ snd) by auto. ring.
  - intro k. rewrite std_distance_value by auto. f_equal. rewrite !mean_of_map. 
    rewrite <- (sqrt_Rsqr_abs k), <- sqrt_mult by (auto; apply Rle_0_sqr). f_equal.
    rewrite <- mean_of_scale. apply mean_of_ext.
    intros p _. unfold rscale, V, mx, my, Rsqr. cbn [fst snd]. rewrite !(mean_of_scale _ _ k). ring.
Qed.
Print Assumptions C17_std_distance.

Theorem C17_empty : forall pts, std_distance pts = None <-> pts = [].
Proof. intros [|p l]; simpl; split; congruence. Qed.
Print Assumptions C17_empty.

Example C17_case : std_distance [(0, 0); (6, 0); (0, 8); (6, 8)] = Some 5.
Proof.
  unfold std_distance, Rsum. cbn [map fold_right fst snd List.length]. f_equal.
  replace (INR 4) with 4 by (simpl; ring).
  match goal with |- sqrt ?e = _ => replace e with (Rsqr 5) by (unfold Rsqr; field) end. apply sqrt_Rsqr. lra.
Qed.

(** ** C20 *)
Theorem C20_dtot : forall c pts,
  dtot c pts = Rsum (map (fun p => rdist p c) pts) /\
  0 <= dtot c pts /\
  (dtot c pts = 0 <-> forall p, In p pts -> p = c) /\
  (forall pts', Permutation pts pts' -> dtot c pts' = dtot c pts) /\
  (forall d, dtot (rshift d c) (map (rshift d) pts) = dtot c pts) /\
  (forall c', Rabs (dtot c pts - dtot c' pts) <= INR (List.length pts) * rdist c c') /\
  (forall c' t, 0 <= t <= 1 ->
     dtot (t * fst c + (1 - t) * fst c', t * snd c + (1 - t) * snd c') pts <= t * dtot c pts + (1 - t) * dtot c' pts).
Proof.
  intros c pts. split; [apply dtot_value|].
  split; [rewrite dtot_value; apply Rsum_nonneg; intros; apply rdist_nonneg|].
  split; [|split; [|split; [|split]]].
  - rewrite dtot_value. split.
    + intros Z p Hp. pose proof (Rsum_zero _ (fun p => rdist p c) pts (fun x _ => rdist_nonneg x c) Z p Hp) as E.
      unfold rdist in E. apply sqrt_eq_0 in E; [|apply sum2_sq_nonneg]. destruct p, c; cbn [fst snd] in E. apply sum2_sq_zero in E. f_equal; lra.
    + intro H. rewrite (Rsum_ext _ _ (fun _ => 0)); [rewrite Rsum_const; ring|].
      intros p Hp. rewrite (H p Hp). unfold rdist. replace ((fst c - fst c) ^ 2 + (snd c - snd c) ^ 2) with 0 by ring. apply sqrt_0.
  - intros pts' P. rewrite !dtot_value. symmetry. apply Rsum_perm, Permutation_map. exact P.
  - intro d. rewrite !dtot_value, map_map. apply Rsum_ext. intros. apply rdist_shift.
  - intro c'. rewrite !dtot_value.
    assert (L : forall a b, Rsum (map (fun p => rdist p a) pts) <= Rsum (map (fun p => rdist p b) pts) + INR (List.length pts) * rdist a b).
    { intros a b. replace (INR (List.length pts) * rdist a b) with (Rsum (map (fun _ : rpt => rdist a b) pts)) by (rewrite Rsum_const; ring).
      rewrite <- (Rsum_plus _ (fun p => rdist p b) (fun _ => rdist a b)). apply Rsum_le. intros p _.
      pose proof (rdist_triangle p b a). rewrite (rdist_sym b a) in H. lra. }
    pose proof (L c c'). pose proof (L c' c) as L2. rewrite (rdist_sym c' c) in L2.
    unfold Rabs. destruct (Rcase_abs _); lra.
  - intros c' t T. rewrite !dtot_value, <- !Rsum_scale, <- Rsum_plus. apply Rsum_le. intros. apply rdist_convex. exact T.
Qed.
Print Assumptions C20_dtot.

Example C20_case : dtot (0, 0) [(3, 4); (0, -2); (0, 0)] = 7.
Proof.
  rewrite dtot_value. unfold Rsum, rdist. cbn [map fold_right fst snd].
  replace ((3 - 0) ^ 2 + (4 - 0) ^ 2) with (Rsqr 5) by (unfold Rsqr; ring).
  replace ((0 - 0) ^ 2 + (-2 - 0) ^ 2) with (Rsqr 2) by (unfold Rsqr; ring).
  replace ((0 - 0) ^ 2 + (0 - 0) ^ 2) with (Rsqr 0) by (unfold Rsqr; ring).
  rewrite !sqrt_Rsqr by lra. ring.
Qed.

(** ** C18 *)
(** The documented correction: CrimeStat's factor 2 and the degrees of freedom
    n / (n - 2), both for 'crimestat', each if asked for with 'yuill'. *)
Definition squared_factor (method : string) (crimestatCorr degfreedCorr : bool) (n : nat) : R :=
  (if (String.eqb method "crimestat" || crimestatCorr)%bool then 2 else 1) *
  (if (String.eqb method "crimestat" || degfreedCorr)%bool then INR n / (INR n - 2) else 1).
(** Enough points for the correction. *)
Definition enough (method : string) (degfreedCorr : bool) (n : nat) : Prop :=
  (method = "yuill"%string /\ degfreedCorr = false) \/ (3 <= n)%nat.

Lemma dof_value : forall c n, (3 <= n)%nat -> 0 <= c ->
  exists k, dof_correction c n = RFin k /\ 0 < INR n - 2 /\ 0 <= k /\ k ^ 2 = c ^ 2 * (INR n / (INR n - 2)).
Proof.
  intros c n H C. destruct n as [|[|[|n]]]; try lia.
  assert (P : 0 < INR (S (S (S n))) - 2) by (rewrite !S_INR; pose proof (pos_INR n); lra).
  exists (c * sqrt (INR (S (S (S n)))) / sqrt (INR (S (S (S n))) - 2)).
  split; [reflexivity|]. split; [exact P|].
  set (N := INR (S (S (S n)))) in *.
  assert (S1 : 0 < sqrt (N - 2)) by (apply sqrt_lt_R0; auto). split.
  - apply Rmult_le_pos; [apply Rmult_le_pos; auto; apply sqrt_pos|]. apply Rlt_le, Rinv_0_lt_compat; auto.
  - replace ((c * sqrt N / sqrt (N - 2)) ^ 2) with (c ^ 2 * (sqrt N * sqrt N) / (sqrt (N - 2) * sqrt (N - 2))) by (field; lra).
    rewrite !sqrt_sqrt by lra. field. lra.
Qed.

Lemma corrected_value : forall method cc dc n, method = "crimestat"%string \/ method = "yuill"%string ->
  enough method dc n ->
  exists k, 0 < k /\ k ^ 2 = squared_factor method cc dc n /\
    forall s, corrected method cc dc n (RFin s) = RFin (k * s).
Proof.
  intros method cc dc n M E.
  assert (S2 : 0 <= sqrt 2) by apply sqrt_pos.
  assert (Q2 : sqrt 2 ^ 2 = 2) by (simpl; rewrite Rmult_1_r; apply sqrt_sqrt; lra).
  assert (D : forall c, (3 <= n)%nat -> 0 < c -> exists k, dof_correction c n = RFin k /\ 0 < k /\ k ^ 2 = c ^ 2 * (INR n / (INR n - 2))).
  { intros c H C. destruct (dof_value c n H (Rlt_le _ _ C)) as (k & K1 & K2 & K3 & K4). exists k. split; auto. split; auto.
    assert (0 < INR n) by (apply lt_0_INR; lia).
    assert (0 < c ^ 2 * (INR n / (INR n - 2))). { apply Rmult_lt_0_compat; [nra|]. apply Rdiv_lt_0_compat; auto. }
    destruct K3 as [|Z]; auto. subst k. nra. }
  assert (P2 : 0 < sqrt 2) by (apply sqrt_lt_R0; lra).
  unfold corrected, squared_factor.
  destruct M as [-> | ->]; cbn [String.eqb Ascii.eqb Bool.eqb orb].
  - destruct E as [[E _]|E]; [discriminate|]. destruct (D (sqrt 2) E P2) as (k & K1 & K2 & K3).
    exists k. split; auto. split; [simpl String.eqb; cbn [orb]; rewrite K3, Q2; reflexivity|]. intro s. simpl String.eqb. cbv iota. rewrite K1. simpl. f_equal. ring.
  - change (String.eqb "yuill" "crimestat") with false. cbn [orb]. cbv iota.
    destruct dc.
    + destruct E as [[_ E]|E]; [discriminate|]. destruct (D 1 E Rlt_0_1) as (k & K1 & K2 & K3). rewrite K1.
      destruct cc.
      * exists (k * sqrt 2). split; [apply Rmult_lt_0_compat; auto|]. split; [rewrite Rpow_mult_distr, K3, Q2; ring|].
        intro s. simpl. f_equal. ring.
      * exists k. split; auto. split; [rewrite K3; ring|]. intro s. simpl. f_equal. ring.
    + destruct cc.
      * exists (sqrt 2). split; auto. split; [rewrite Q2; ring|]. intro s. simpl. f_equal. ring.
      * exists 1. split; [lra|]. split; [ring|]. intro s. f_equal. ring.
Qed.

Theorem C18_principal_axes : forall pts w method cc dc,
  lower method = "crimestat"%string \/ lower method = "yuill"%string ->
  List.length w = List.length pts -> (forall v, In v w -> 0 <= v) -> 0 < Rsum w ->
  enough (lower method) dc (List.length pts) ->
  exists a b theta k,
    ellipse pts (Some w) method cc dc = Ok (RFin a, RFin b, theta) /\
    0 < k /\ k ^ 2 = squared_factor (lower method) cc dc (List.length pts) /\
    a = k * sqrt (variance_along theta (combine w pts)) /\
    b = k * sqrt (variance_along (theta + PI / 2) (combine w pts)) /\
    - (PI / 2) < theta <= PI / 2 /\
    0 <= b <= a /\
    forall phi, variance_along (theta + PI / 2) (combine w pts) <= variance_along phi (combine w pts)
                <= variance_along theta (combine w pts).
Proof.
  intros pts w method cc dc M L W S E.
  destruct (corrected_value (lower method) cc dc (List.length pts) M E) as (k & K0 & K2 & KC).
  unfold ellipse. 
  assert (MB : negb (String.eqb (lower method) "crimestat" || String.eqb (lower method) "yuill")%bool = false).
  { destruct M as [-> | ->]; reflexivity. }
  rewrite MB. clear MB. rewrite L, Nat.eqb_refl. cbn [bind].
  destruct (Req_EM_T (Rsum w) 0) as [Z|Z]; [lra|].
  set (mx := wsum fst w pts / Rsum w). set (my := wsum snd w pts / Rsum w).
  set (m := map (fun p => (fst p - mx, snd p - my)) pts).
  assert (VF : forall phi, variance_along phi (combine w pts) =
    form (wsum (fun p => fst p ^ 2) w m) (wsum (fun p => fst p * snd p) w m) (wsum (fun p => snd p ^ 2) w m) (cos phi) (sin phi) / Rsum w)
    by (intro phi; apply variance_form; auto).
  assert (TF : forall th, wsum (fun p => (snd p * cos th - fst p * sin th) ^ 2) w m / Rsum w = variance_along (th + PI / 2) (combine w pts)).
  { intro th. rewrite VF, term_form, cos_plus, sin_plus, cos_PI2, sin_PI2. f_equal. f_equal; ring. }
  assert (VN : forall phi, 0 <= variance_along phi (combine w pts)).
  { intro phi. replace phi with ((phi - PI / 2) + PI / 2) by ring. rewrite <- TF.
    apply Rmult_le_pos; [apply wsum_nonneg; auto; intro; apply pow2_ge_0 | apply Rlt_le, Rinv_0_lt_compat; auto]. }
  destruct (ellipse_angles _ _ _) as [th1 th2] eqn:EA.
  apply ellipse_angles_spec in EA. destruct EA as (R1 & R2 & l1 & l2 & F1 & F2 & F3 & F4 & BB).
  assert (XS : forall th, xsqrt (wsum (fun p => (snd p * cos th - fst p * sin th) ^ 2) w m / Rsum w) =
                          RFin (sqrt (variance_along (th + PI / 2) (combine w pts)))).
  { intro th. rewrite TF. unfold xsqrt. pose proof (VN (th + PI / 2)). destruct (Rlt_dec _ 0); [lra|reflexivity]. }
  rewrite !XS, !KC.
  set (V := fun phi => variance_along phi (combine w pts)) in *.
  assert (V1 : V (th1 + PI / 2) = l1 / Rsum w).
  { unfold V. rewrite <- TF, term_form, F1. reflexivity. }
  assert (V2 : V (th2 + PI / 2) = l2 / Rsum w).
  { unfold V. rewrite <- TF, term_form, F2. reflexivity. }
  assert (V3 : V th1 = l2 / Rsum w) by (unfold V; rewrite VF, F3; reflexivity).
  assert (V4 : V th2 = l1 / Rsum w) by (unfold V; rewrite VF, F4; reflexivity).
  assert (VB : forall phi, Rmin l1 l2 / Rsum w <= V phi <= Rmax l1 l2 / Rsum w).
  { intro phi. unfold V. rewrite VF. specialize (BB (cos phi) (sin phi) (cs1 phi)).
    assert (0 < / Rsum w) by (apply Rinv_0_lt_compat; auto). unfold Rdiv. split; apply Rmult_le_compat_r; lra. }
  change (variance_along (th1 + PI / 2) (combine w pts)) with (V (th1 + PI / 2)) in *.
  change (variance_along (th2 + PI / 2) (combine w pts)) with (V (th2 + PI / 2)) in *.
  assert (IW : 0 < / Rsum w) by (apply Rinv_0_lt_compat; auto).
  assert (VN1 : 0 <= V th1) by apply VN. assert (VN2 : 0 <= V th2) by apply VN.
  assert (VE1 : V (th1 + PI / 2) = V th2) by lra. assert (VE2 : V (th2 + PI / 2) = V th1) by lra.
  rewrite VE1, VE2. unfold xgt.
  destruct (Rgt_dec (k * sqrt (V th1)) (k * sqrt (V th2))) as [G|G].
  - exists (k * sqrt (V th1)), (k * sqrt (V th2)), th1, k.
    split; [reflexivity|]. split; [exact K0|]. split; [exact K2|].
    split; [reflexivity|]. split; [fold (V (th1 + PI / 2)); rewrite VE1; reflexivity|]. split; [exact R1|].
    assert (LT : V th2 <= V th1).
    { destruct (Rle_or_lt (V th2) (V th1)) as [|X]; auto. exfalso.
      assert (sqrt (V th1) <= sqrt (V th2)) by (apply sqrt_le_1; lra). nra. }
    split; [split; [apply Rmult_le_pos; [lra|apply sqrt_pos]|lra]|].
    intro phi. fold (V phi). fold (V (th1 + PI / 2)). rewrite VE1. specialize (VB phi).
    fold (V th1). rewrite V3, V4 in *.
    assert (l1 <= l2) by (apply (Rmult_le_reg_r (/ Rsum w)); auto).
    rewrite Rmin_left, Rmax_right in VB by auto. exact VB.
  - exists (k * sqrt (V th2)), (k * sqrt (V th1)), th2, k.
    split; [reflexivity|]. split; [exact K0|]. split; [exact K2|].
    split; [reflexivity|]. split; [fold (V (th2 + PI / 2)); rewrite VE2; reflexivity|]. split; [exact R2|].
    assert (LT : V th1 <= V th2).
    { destruct (Rle_or_lt (V th1) (V th2)) as [|X]; auto. exfalso.
      assert (sqrt (V th2) < sqrt (V th1)) by (apply sqrt_lt_1; lra). nra. }
    split; [split; [apply Rmult_le_pos; [lra|apply sqrt_pos]|lra]|].
    intro phi. fold (V phi). fold (V (th2 + PI / 2)). rewrite VE2. specialize (VB phi).
    fold (V th2). rewrite V3, V4 in *.
    assert (l2 <= l1) by (apply (Rmult_le_reg_r (/ Rsum w)); auto).
    rewrite Rmin_right, Rmax_left in VB by auto. exact VB.
Qed.
Print Assumptions C18_principal_axes.

(** ** C19 *)
Definition known (method : string) : Prop := lower method = "crimestat"%string \/ lower method = "yuill"%string.

Lemma known_b : forall method,
  negb (String.eqb (lower method) "crimestat" || String.eqb (lower method) "yuill")%bool = true <-> ~ known method.
Proof.
  intro. unfold known. rewrite negb_true_iff, orb_false_iff, !String.eqb_neq. tauto.
Qed.

(** Equal up to the case of ASCII letters. *)
Definition same_letter (a b : ascii) : Prop :=
  a = b \/ (exists k, (65 <= k <= 90)%nat /\
    ((nat_of_ascii a = k /\ nat_of_ascii b = (k + 32)%nat) \/ (nat_of_ascii b = k /\ nat_of_ascii a = (k + 32)%nat))).
Fixpoint same_word (s t : string) : Prop :=
  match s, t with
  | EmptyString, EmptyString => True
  | String a s, String b t => same_letter a b /\ same_word s t
  | _, _ => False
  end.

Definition same_letterb (a b : ascii) : bool :=
  Ascii.eqb a b ||
  (let x := nat_of_ascii a in let y := nat_of_ascii b in
   ((65 <=? x) && (x <=? 90) && (y =? x + 32)) || ((65 <=? y) && (y <=? 90) && (x =? y + 32)))%nat.
Lemma same_letterb_spec : forall a b, same_letterb a b = true <-> same_letter a b.
Proof.
  intros a b. unfold same_letterb, same_letter. rewrite orb_true_iff, Ascii.eqb_eq.
  rewrite orb_true_iff, !andb_true_iff, !Nat.leb_le, !Nat.eqb_eq. split.
  - intros [H|[[[H1 H2] H3]|[[H1 H2] H3]]]; [left; exact H| |]; right.
    + exists (nat_of_ascii a). lia. + exists (nat_of_ascii b). lia.
  - intros [H|(k & K & H)]; [left; exact H|]. right. lia.
Qed.
Lemma lower_char_b : forall a b, Ascii.eqb (lower_char a) (lower_char b) = same_letterb a b.
Proof.
  intros a b.
  assert (A : forallb (fun i => forallb (fun j => Bool.eqb (Ascii.eqb (lower_char (ascii_of_nat i)) (lower_char (ascii_of_nat j)))
    (same_letterb (ascii_of_nat i) (ascii_of_nat j))) (seq 0 256)) (seq 0 256) = true) by (vm_compute; reflexivity).
  rewrite forallb_forall in A. pose proof (nat_ascii_bounded a). pose proof (nat_ascii_bounded b).
  assert (Ia : In (nat_of_ascii a) (seq 0 256)) by (apply in_seq; lia). assert (Ib : In (nat_of_ascii b) (seq 0 256)) by (apply in_seq; lia).
  specialize (A _ Ia). cbv beta in A. rewrite forallb_forall in A. specialize (A _ Ib). cbv beta in A. rewrite !ascii_nat_embedding in A.
  apply eqb_prop. exact A.
Qed.
Lemma lower_same : forall s t, lower s = lower t <-> same_word s t.
Proof.
  induction s as [|a s IH]; intros [|b t]; simpl; try (split; [discriminate|tauto]); try tauto.
  rewrite <- IH, <- same_letterb_spec, <- lower_char_b, Ascii.eqb_eq. split; [intro H; inversion H; auto | intros [-> ->]; reflexivity].
Qed.

(** The accepted methods: the two words in any capitalisation. *)
Theorem C19_any_case : forall method,
  known method <-> same_word method "crimestat" \/ same_word method "yuill".
Proof.
  intro method. unfold known. rewrite <- !lower_same. reflexivity.
Qed.
Print Assumptions C19_any_case.

Theorem C19_errors : forall pts weights method cc dc,
  let badlen := exists w, weights = Some w /\ List.length w <> List.length pts in
  let total := match weights with None => INR (List.length pts) | Some w => Rsum w end in
  (ellipse pts weights method cc dc = Raise ValueError <-> ~ known method \/ badlen) /\
  (ellipse pts weights method cc dc = Raise ZeroDivisionError <-> known method /\ ~ badlen /\ total = 0) /\
  ((exists r, ellipse pts weights method cc dc = Ok r) <-> known method /\ ~ badlen /\ total <> 0).
Proof.
  intros pts weights method cc dc badlen total.
  assert (T : match weights with None => Rsum (map (fun _ => 1) pts) | Some w => Rsum w end = total).
  { unfold total. destruct weights; auto. rewrite Rsum_const. ring. }
  unfold ellipse.
  destruct (negb (String.eqb (lower method) "crimestat" || String.eqb (lower method) "yuill")%bool) eqn:K.
  { apply known_b in K. split; [tauto|]. split; split.
    - discriminate. - tauto. - intros [r X]; discriminate. - tauto. }
  assert (KN : known method).
  { unfold known. apply negb_false_iff, orb_true_iff in K. rewrite !String.eqb_eq in K. exact K. }
  destruct (match weights with None => Ok (map (fun _ => 1) pts)
    | Some w => if Nat.eqb (List.length w) (List.length pts) then Ok w else Raise ValueError end) as [w|e] eqn:EW.
  - assert (NB : ~ badlen).
    { intros (w' & -> & L). apply Nat.eqb_neq in L. rewrite L in EW. discriminate. }
    assert (TW : Rsum w = total).
    { rewrite <- T. destruct weights as [w'|]; [|inversion EW; reflexivity].
      destruct (Nat.eqb _ _); inversion EW; reflexivity. }
    cbn [bind]. destruct (Req_EM_T (Rsum w) 0) as [Z|Z].
    + split; [split; [discriminate|tauto]|]. split; [split; auto; intros _; split; auto; split; auto; lra|].
      split; [intros [r X]; discriminate|]. intros (_ & _ & X). lra.
    + destruct (ellipse_angles _ _ _) as [t1 t2]. destruct (xgt _ _).
      * split; [split; [discriminate|tauto]|]. split; [split; [discriminate|intros (_ & _ & X); lra]|].
        split; [intros _; split; auto; split; auto; lra | intros _; eexists; reflexivity].
      * split; [split; [discriminate|tauto]|]. split; [split; [discriminate|intros (_ & _ & X); lra]|].
        split; [intros _; split; auto; split; auto; lra | intros _; eexists; reflexivity].
  - destruct weights as [w|]; [|discriminate]. destruct (Nat.eqb (List.length w) (List.length pts)) eqn:EL; [discriminate|].
    inversion EW; subst e. apply Nat.eqb_neq in EL. assert (B : badlen) by (exists w; auto).
    cbn [bind]. split; [tauto|]. split; split; try discriminate; try tauto. intros [r X]; discriminate.
Qed.
Print Assumptions C19_errors.

(** Omitted weights are unit weights, the method is compared case-insensitively,
    and 'yuill' with both corrections is 'crimestat'. *)
Theorem C19_equivalences : forall pts weights method method' cc dc,
  ellipse pts None method cc dc = ellipse pts (Some (map (fun _ => 1) pts)) method cc dc /\
  (lower method = lower method' -> ellipse pts weights method cc dc = ellipse pts weights method' cc dc) /\
  ellipse pts weights "yuill" true true = ellipse pts weights "crimestat" cc dc.
Proof.
  intros. split; [|split].
  - unfold ellipse. rewrite map_length, Nat.eqb_refl. reflexivity.
  - intro H. unfold ellipse. rewrite H. reflexivity.
  - unfold ellipse. change (lower "yuill") with "yuill"%string. change (lower "crimestat") with "crimestat"%string.
    change (String.eqb "yuill" "crimestat") with false. change (String.eqb "yuill" "yuill") with true.
    change (String.eqb "crimestat" "crimestat") with true. cbn [orb negb]. cbv iota.
    assert (X : forall s, corrected "yuill" true true (List.length pts) s = corrected "crimestat" cc dc (List.length pts) s).
    { intro s. assert (P2 : 0 < sqrt 2) by (apply sqrt_lt_R0; lra).
      unfold corrected. change (String.eqb "yuill" "crimestat") with false.
      change (String.eqb "crimestat" "crimestat") with true. cbv iota zeta.
      unfold dof_correction. destruct (List.length pts) as [|[|[|n]]].
      - destruct s; simpl; auto. destruct (Req_EM_T (sqrt 2) 0); reflexivity.
      - destruct s; simpl; auto. destruct (Req_EM_T (sqrt 2) 0); reflexivity.
      - destruct s as [r| |]; simpl; auto.
        + destruct (Req_EM_T (r * sqrt 2) 0) as [A|A]; destruct (Req_EM_T r 0) as [B|B]; auto; exfalso.
          * destruct (Rmult_integral _ _ A); lra.
          * subst. lra.
        + destruct (Req_EM_T (sqrt 2) 0); [lra|reflexivity].
      - destruct s as [r| |]; auto.
        + cbn [xmul]. f_equal. unfold Rdiv. ring.
        + cbn [xmul]. destruct (Req_EM_T (sqrt 2) 0); [lra|]. cbn [xmul]. unfold Rdiv.
          repeat match goal with |- context [Req_EM_T ?a ?b] => destruct (Req_EM_T a b) end; auto; exfalso.
          * apply n1. replace (sqrt 2 * sqrt (INR (S (S (S n)))) * / sqrt (INR (S (S (S n))) - 2)) with
              (sqrt 2 * (1 * sqrt (INR (S (S (S n)))) * / sqrt (INR (S (S (S n))) - 2))) by ring. rewrite e. ring.
          * apply n1. apply (Rmult_eq_reg_l (sqrt 2)); [|lra]. rewrite Rmult_0_r. rewrite <- e. ring. }
    destruct (match weights with None => _ | Some w => _ end) as [w|e]; cbn [bind]; auto.
    destruct (Req_EM_T (Rsum w) 0); auto. destruct (ellipse_angles _ _ _) as [t1 t2]. rewrite !X. reflexivity.
Qed.
Print Assumptions C19_equivalences.

(** With at most two points and the degrees-of-freedom correction no axis is
    finite, and the major axis may be NaN: the ellipse of two points on a
    horizontal line has major axis NaN, minor axis infinity and a vertical
    direction. *)
Theorem C19_two_points : forall pts weights method cc dc a b theta,
  (List.length pts <= 2)%nat -> ~ (lower method = "yuill"%string /\ dc = false) ->
  ellipse pts weights method cc dc = Ok (a, b, theta) ->
  (forall r, a <> RFin r) /\ (forall r, b <> RFin r).
Proof.
  intros pts weights method cc dc a b theta N M H. unfold ellipse in H.
  destruct (negb (String.eqb (lower method) "crimestat" || String.eqb (lower method) "yuill")%bool) eqn:K; [discriminate|].
  destruct (match weights with None => _ | Some w => _ end) as [w|e]; [|discriminate]. cbn [bind] in H.
  destruct (Req_EM_T (Rsum w) 0); [discriminate|]. destruct (ellipse_angles _ _ _) as [t1 t2].
  assert (X : forall c s r, xmul s (dof_correction c (List.length pts)) <> RFin r).
  { intros c s r. destruct (List.length pts) as [|[|[|n']]]; try lia; destruct s; simpl; try discriminate;
      destruct (Req_EM_T _ _); discriminate. }
  assert (Y : forall s r, corrected (lower method) cc dc (List.length pts) s <> RFin r).
  { intros s r. unfold corrected. apply negb_false_iff, orb_true_iff in K. rewrite !String.eqb_eq in K.
    destruct K as [K|K]; rewrite K in *; [apply X|]. change (String.eqb "yuill" "crimestat") with false. cbv iota zeta.
    destruct dc; [apply X | exfalso; apply M; auto]. }
  destruct (xgt _ _) in H; inversion H; subst; split; intro r; apply Y.
Qed.
Print Assumptions C19_two_points.

Theorem C19_two_points_refuted :
  ellipse [(0, 0); (2, 0)] None "crimestat" true true = Ok (RNan, RInf, PI / 2).
Proof.
  unfold ellipse. change (lower "crimestat") with "crimestat"%string.
  change (String.eqb "crimestat" "crimestat") with true. cbn [orb negb bind List.length map].
  unfold wsum, zip. cbn [combine map fst snd Rsum fold_right List.length]. unfold Rsum. cbn [fold_right map combine fst snd].
  destruct (Req_EM_T (1 + (1 + 0)) 0) as [Z|Z]; [lra|].
  replace ((0 * 1 + (2 * 1 + 0)) / (1 + (1 + 0))) with 1 by field.
  replace ((0 * 1 + (0 * 1 + 0)) / (1 + (1 + 0))) with 0 by field.
  unfold ellipse_angles. destruct (Req_EM_T _ 0) as [E|E]; [|exfalso; apply E; ring].
  rewrite cos_0, sin_0, cos_PI2, sin_PI2.
  match goal with |- context [xsqrt ?e] => replace e with 0 by field end.
  match goal with |- context [xsqrt ((((0 - 0) * 0 - (0 - 1) * 1) ^ 2 * 1 + ?e) / ?f)] =>
    replace ((((0 - 0) * 0 - (0 - 1) * 1) ^ 2 * 1 + e) / f) with 1 by field end.
  unfold xsqrt. destruct (Rlt_dec 0 0); [lra|]. destruct (Rlt_dec 1 0); [lra|]. rewrite sqrt_0, sqrt_1.
  unfold corrected. change (String.eqb "crimestat" "crimestat") with true. cbv iota.
  cbn [dof_correction xmul]. destruct (Req_EM_T 0 0); [|lra]. destruct (Req_EM_T 1 0); [lra|]. reflexivity.
Qed.
Print Assumptions C19_two_points_refuted.

(** A cross of four points: the axes are along the coordinate axes. *)
Example C18_case : exists a b,
  ellipse [(1, 0); (-1, 0); (0, 3); (0, -3)] None "Yuill" false false = Ok (RFin a, RFin b, PI / 2) /\
  a ^ 2 = 9 / 2 /\ b ^ 2 = 1 / 2.
Proof.
  exists (sqrt (9 / 2)), (sqrt (1 / 2)).
  split; [|split; simpl; rewrite Rmult_1_r; apply sqrt_sqrt; lra].
  unfold ellipse. change (lower "Yuill") with "yuill"%string.
  change (String.eqb "yuill" "crimestat") with false. change (String.eqb "yuill" "yuill") with true.
  cbn [orb negb bind List.length map].
  unfold wsum, zip, Rsum. cbn [combine map fst snd fold_right].
  destruct (Req_EM_T _ 0) as [Z|Z]; [lra|].
  match goal with |- context [1 - ?e] => replace e with 0 by field end.
  match goal with |- context [3 - ?e] => replace e with 0 by field end.
  unfold ellipse_angles. destruct (Req_EM_T _ 0) as [E|E]; [|exfalso; apply E; ring].
  rewrite cos_0, sin_0, cos_PI2, sin_PI2.
  unfold corrected. change (String.eqb "yuill" "crimestat") with false. cbv iota zeta.
  match goal with |- context [xgt (xsqrt ?e) (xsqrt ?f)] => replace e with (1 / 2) by field; replace f with (9 / 2) by field end.
  unfold xsqrt. destruct (Rlt_dec (1 / 2) 0); [lra|]. destruct (Rlt_dec (9 / 2) 0); [lra|].
  unfold xgt. destruct (Rgt_dec _ _) as [G|G]; [|reflexivity].
  exfalso. assert (sqrt (1 / 2) <= sqrt (9 / 2)) by (apply sqrt_le_1; lra). lra.
Qed.
