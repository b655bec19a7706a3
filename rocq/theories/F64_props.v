(** Properties C101 and C102: means and standard distances on binary64. *)
From Coq Require Import Reals ZArith List Bool Lia Lra Psatz.
From Flocq Require Import Core BinarySingleNaN.
From Verif Require Import Float_model Float_proofs F64_model F64_proofs.
Import ListNotations.
Local Open Scope R_scope.

(** ** C101 *)
(** A computed mean differs from the mean by at most n 2^-52 times the mean absolute
    value (and half the smallest float). *)
Theorem C101_error : forall l, l <> [] -> Forall fin l -> (Z.of_nat (List.length l) <= 2 ^ 52)%Z -> Vabs l <= bpow radix2 1022 ->
  fin (fmean l) /\ Rabs (V (fmean l) - Vsum l / size l) <= size l * bpow radix2 (-52) * (Vabs l / size l) + bpow radix2 (-1075).
Proof.
  intros l NE F N O. destruct (fmean_error_g l NE F N O) as [A B]. split; [exact A|]. eapply Rle_trans; [exact B|].
  apply Rplus_le_compat_r. apply Rmult_le_compat_r.
  - pose proof (size_pos l NE). pose proof (Vabs_pos l). apply Rmult_le_pos; [lra|]. apply Rlt_le, Rinv_0_lt_compat. lra.
  - eapply Rle_trans; [apply g_bound, len_u; exact N|]. unfold size, u. change (bpow radix2 (-52)) with (bpow radix2 (1 + -53)). rewrite bpow_plus. change (bpow radix2 1) with 2. lra.
Qed.
Print Assumptions C101_error.
(** The mean centre: each coordinate is within the bound of the mean of its own column. *)
Theorem C101_center : forall pts col, pts <> [] -> col = (@fst f64 f64) \/ col = (@snd f64 f64) ->
  Forall fin (map col pts) -> (Z.of_nat (List.length pts) <= 2 ^ 52)%Z -> Vabs (map col pts) <= bpow radix2 1022 ->
  fin (col (mean_center64 pts)) /\
  Rabs (V (col (mean_center64 pts)) - Vsum (map col pts) / INR (List.length pts)) <=
    bpow radix2 (-52) * Vabs (map col pts) + bpow radix2 (-1075).
Proof.
  intros pts col NE C F N O.
  assert (M : col (mean_center64 pts) = fmean (map col pts)) by (destruct C as [->| ->]; reflexivity).
  assert (NE' : map col pts <> []) by (intro X; apply NE; destruct pts; [reflexivity|discriminate]).
  assert (SZ : size (map col pts) = INR (List.length pts)) by (unfold size; rewrite map_length; reflexivity).
  destruct (C101_error (map col pts) NE' F) as [A B]; [rewrite map_length; exact N|exact O|].
  rewrite M, <- SZ. split; [exact A|]. eapply Rle_trans; [exact B|]. apply Rplus_le_compat_r. apply Req_le.
  pose proof (size_pos _ NE'). field. lra.
Qed.
Print Assumptions C101_center.

(** Coordinates on a common dyadic grid (for example integers) whose absolute sum
    fits into 53 bits of it. *)
Definition on_grid (e : Z) (x : f64) : Prop := exists k, V x = IZR k * bpow radix2 e.

Lemma grid_float : forall k e, (-1074 <= e)%Z -> Rabs (IZR k * bpow radix2 e) <= bpow radix2 (e + 53) -> isfloat (IZR k * bpow radix2 e).
Proof.
  intros k e E H. rewrite Rabs_mult, (Rabs_pos_eq (bpow _ _)), bpow_plus, Rmult_comm in H by apply bpow_ge_0.
  apply Rmult_le_reg_l in H; [|apply bpow_gt_0]. rewrite <- abs_IZR, <- IZR_pow2 in H by lia. apply le_IZR in H.
  destruct (Z_lt_le_dec (Z.abs k) (2 ^ 53)) as [L|L]; [apply float_dyadic; assumption|].
  assert (P : isfloat (bpow radix2 (53 + e))) by (apply generic_format_bpow; unfold fexp64, FLT_exp; lia).
  assert (C : k = (2 ^ 53)%Z \/ k = (- 2 ^ 53)%Z) by lia. destruct C as [->| ->].
  - rewrite IZR_pow2, <- bpow_plus by lia. exact P.
  - rewrite opp_IZR, IZR_pow2, Ropp_mult_distr_l_reverse, <- bpow_plus by lia. apply generic_format_opp. exact P.
Qed.
Lemma fold_exact : forall l e s k, (-1074 <= e <= 970)%Z -> fin s -> V s = IZR k * bpow radix2 e -> Forall fin l -> Forall (on_grid e) l ->
  Rabs (V s) + Vabs l <= bpow radix2 (e + 53) -> fin (fold_left fadd l s) /\ V (fold_left fadd l s) = V s + Vsum l.
Proof.
  induction l as [|x l IH]; intros e s k E Fs Vs Fl Gl B.
  - cbn. split; [exact Fs|]. unfold Vsum. cbn. ring.
  - inversion Fl as [|? ? Fx Fl']; inversion Gl as [|? ? [m Gx] Gl']; subst. cbn [fold_left]. unfold Vabs, Vsum in *. cbn [map fold_right] in *.
    fold (Vabs l) in *. fold (Vsum l) in *. pose proof (Vabs_pos l) as P. pose proof (Rabs_triang (V s) (V x)) as T.
    assert (S : V s + V x = IZR (k + m) * bpow radix2 e) by (rewrite Vs, Gx, plus_IZR; ring).
    assert (Q : Rabs (V s + V x) <= bpow radix2 (e + 53)) by lra.
    destruct (fadd_ok s x Fs Fx) as [A1 A2]; [eapply Rle_trans; [exact Q|apply bpow_le; lia]|].
    assert (A3 : V (fadd s x) = V s + V x).
    { rewrite A2. apply rnd_id. rewrite S in Q |- *. apply grid_float; [lia|exact Q]. }
    destruct (IH e (fadd s x) (k + m)%Z E A1) as [I1 I2]; auto.
    + rewrite A3. exact S.
    + rewrite A3. lra.
    + split; [exact I1|]. rewrite I2, A3. ring.
Qed.
Lemma fsum_exact : forall l e, (-1074 <= e <= 970)%Z -> Forall fin l -> Forall (on_grid e) l -> Vabs l <= bpow radix2 (e + 53) ->
  fin (fsum l) /\ V (fsum l) = Vsum l.
Proof.
  intros [|x l] e E F G B.
  - destruct (fint_ok 0) as [A1 A2]; [lia|]. split; [exact A1|]. cbn [fsum]. rewrite A2. reflexivity.
  - inversion F as [|? ? Fx Fl]; inversion G as [|? ? [m Gx] Gl]; subst. cbn [fsum].
    destruct (fold_exact l e x m E Fx Gx Fl Gl B) as [A1 A2]. split; [exact A1|]. rewrite A2. reflexivity.
Qed.

Lemma mean_between : forall l lo hi, l <> [] -> Forall (fun x => lo <= V x <= hi) l -> lo <= Vsum l / size l <= hi.
Proof.
  intros l lo hi NE F. pose proof (size_pos l NE) as P.
  assert (S : size l * lo <= Vsum l <= size l * hi).
  { clear NE P. induction F as [|x l Fx F IH]; unfold size, Vsum in *; cbn [List.length map fold_right]; [cbn; lra|]. rewrite S_INR. fold (Vsum l) in *. lra. }
  split.
  - apply Rmult_le_reg_l with (size l); [lra|]. replace (size l * (Vsum l / size l)) with (Vsum l) by (field; lra). lra.
  - apply Rmult_le_reg_l with (size l); [lra|]. replace (size l * (Vsum l / size l)) with (Vsum l) by (field; lra). lra.
Qed.
Lemma rnd_between : forall x lo hi, isfloat lo -> isfloat hi -> lo <= x <= hi -> lo <= rnd x <= hi.
Proof. intros x lo hi L H B. rewrite <- (rnd_id lo), <- (rnd_id hi) by assumption. split; apply rnd_le; lra. Qed.

(** Then the computed mean is the float nearest to the mean, and it lies between the
    smallest and the largest coordinate. *)
Theorem C101_grid : forall l e, l <> [] -> Forall fin l -> (Z.of_nat (List.length l) <= 2 ^ 52)%Z -> (-1074 <= e <= 969)%Z ->
  Forall (on_grid e) l -> Vabs l <= bpow radix2 (e + 53) ->
  fin (fmean l) /\ V (fmean l) = rnd (Vsum l / size l) /\
  (forall a b, In a l -> In b l -> (forall x, In x l -> V a <= V x <= V b) -> V a <= V (fmean l) <= V b).
Proof.
  intros l e NE F N E G B. destruct (fsum_exact l e ltac:(lia) F G B) as [S1 S2]. destruct (size_float l N) as [_ VN].
  pose proof (size_pos l NE) as P. pose proof (Vsum_abs l) as SA. pose proof (Vabs_pos l) as A0.
  destruct (fdiv_ok (fsum l) (fint (Z.of_nat (List.length l))) S1) as [R1 R2].
  - rewrite VN. lra.
  - rewrite VN, S2. assert (IP : 0 < / size l <= 1). { split; [apply Rinv_0_lt_compat; lra|]. rewrite <- Rinv_1. apply Rinv_le_contravar; lra. }
    unfold Rdiv. rewrite Rabs_mult, (Rabs_pos_eq (/ size l)) by lra. apply Rle_trans with (Vabs l); [nra|].
    eapply Rle_trans; [exact B|]. apply bpow_le. lia.
  - rewrite VN, S2 in R2. split; [exact R1|]. split; [exact R2|]. intros a b _ _ H. unfold fmean. rewrite R2.
    apply rnd_between; [apply V_float|apply V_float|]. apply mean_between; [exact NE|]. apply Forall_forall. exact H.
Qed.
Print Assumptions C101_grid.

(** The mean of two floats is always between them. *)
Theorem C101_two : forall x y, fin x -> fin y -> Rabs (V x + V y) <= bpow radix2 1023 -> V x <= V y ->
  V x <= V (fmean [x; y]) <= V y /\ V x <= V (fmean [y; x]) <= V y.
Proof.
  assert (K : forall x y lo hi, fin x -> fin y -> Rabs (V x + V y) <= bpow radix2 1023 -> isfloat lo -> isfloat hi ->
     2 * lo <= V x + V y <= 2 * hi -> lo <= V (fmean [x; y]) <= hi).
  { intros x y lo hi Fx Fy O Fl Fh B. destruct (fadd_ok x y Fx Fy O) as [A1 A2].
    destruct (fint_ok 2) as [_ V2]; [lia|]. unfold fmean. cbn [fsum fold_left List.length]. change (Z.of_nat 2) with 2%Z.
    assert (S : 2 * lo <= V (fadd x y) <= 2 * hi) by (rewrite A2; apply rnd_between; [apply float_double; exact Fl|apply float_double; exact Fh|exact B]).
    destruct (fdiv_ok (fadd x y) (fint 2) A1) as [R1 R2].
    - rewrite V2. lra.
    - rewrite V2. unfold Rdiv. rewrite Rabs_mult, (Rabs_pos_eq (/ 2)) by lra.
      assert (Rabs (V (fadd x y)) <= bpow radix2 1023) by (rewrite A2; apply rnd_abs_le; [exact pow1023_float|exact O]). pose proof (Rabs_pos (V (fadd x y))). lra.
    - rewrite R2, V2. apply rnd_between; [exact Fl|exact Fh|]. lra. }
  intros x y Fx Fy O L. split; apply K; auto using V_float; try lra. rewrite Rplus_comm. exact O.
Qed.
Print Assumptions C101_two.

(** In general it is not: the mean centre of three coincident points lies outside
    their bounding box. *)
Definition tenth : f64 := fdyadic 3602879701896397 (-55).
Theorem C101_outside_refuted : exists x, fin x /\ 0 < V x < 1 /\
  V x < V (fst (mean_center64 [(x, x); (x, x); (x, x)])).
Proof.
  exists tenth. assert (H : fin tenth /\ flt (fint 0) tenth = true /\ flt tenth (fint 1) = true /\
    flt tenth (fst (mean_center64 [(tenth, tenth); (tenth, tenth); (tenth, tenth)])) = true /\
    is_finite (fst (mean_center64 [(tenth, tenth); (tenth, tenth); (tenth, tenth)])) = true) by (unfold fin; vm_compute; repeat split).
  destruct H as (F & A & B & C & D). split; [exact F|].
  destruct (fint_ok 0) as [F0 V0]; [lia|]. destruct (fint_ok 1) as [F1 V1]; [lia|].
  assert (L : forall a b, fin a -> fin b -> flt a b = true -> V a < V b).
  { intros a b Fa Fb H. unfold flt in H. rewrite (Bltb_correct 53 1024 a b Fa Fb) in H. unfold V. destruct (Rlt_bool_spec (B2R a) (B2R b)); [assumption|discriminate]. }
  split; [|apply L; assumption]. split.
  - rewrite <- V0. apply L; assumption.
  - rewrite <- V1. apply L; assumption.
Qed.
Print Assumptions C101_outside_refuted.

Example C101_case : V (fmean [fint 1; fint 2; fint 6]) = 3 /\ on_grid 0 (fint 6).
Proof.
  assert (G : forall z, (Z.abs z <= 2 ^ 53)%Z -> V (fint z) = IZR z) by (intros z H; apply fint_ok; exact H).
  split.
  - replace (fmean [fint 1; fint 2; fint 6]) with (fint 3) by (apply B2SF_inj; vm_compute; reflexivity). apply G. lia.
  - exists 6%Z. rewrite G by lia. change (bpow radix2 0) with 1. ring.
Qed.

(** ** C102 *)
(** Mean squared distance of the points to their centre, and to the origin. *)
Definition total (f : fpt -> R) (pts : list fpt) : R := fold_right Rplus 0 (map f pts).
Definition centre_x (pts : list fpt) : R := total (fun p => V (fst p)) pts / INR (List.length pts).
Definition centre_y (pts : list fpt) : R := total (fun p => V (snd p)) pts / INR (List.length pts).
Definition spread (pts : list fpt) : R :=
  total (fun p => (V (fst p) - centre_x pts) ^ 2 + (V (snd p) - centre_y pts) ^ 2) pts / INR (List.length pts).
Definition far (pts : list fpt) : R :=
  total (fun p => V (fst p) ^ 2 + V (snd p) ^ 2) pts / INR (List.length pts).
(** How far the number under the root may be off. *)
Definition slack (pts : list fpt) : R := (INR (List.length pts) + 3) * bpow radix2 (-50) * far pts + bpow radix2 (-1070).
Definition finite_points (pts : list fpt) : Prop := Forall (fun p => fin (fst p) /\ fin (snd p)) pts.

Lemma total_plus : forall f h pts, total (fun p => f p + h p) pts = total f pts + total h pts.
Proof. intros f h. induction pts as [|p l IH]; unfold total in *; cbn; lra. Qed.
Lemma total_ext : forall f h pts, (forall p, f p = h p) -> total f pts = total h pts.
Proof. intros f h pts E. unfold total. f_equal. apply map_ext. exact E. Qed.
Lemma total_dev : forall f c pts, total (fun p => (f p - c) ^ 2) pts = total (fun p => f p * f p) pts - 2 * c * total f pts + INR (List.length pts) * (c * c).
Proof.
  intros f c. induction pts as [|p l IH]; unfold total in *; cbn [map fold_right List.length]; [cbn; ring|]. rewrite IH, S_INR. ring.
Qed.
Lemma variance_id : forall f pts, pts <> [] ->
  total (fun p => (f p - total f pts / INR (List.length pts)) ^ 2) pts / INR (List.length pts) =
  total (fun p => f p * f p) pts / INR (List.length pts) - total f pts / INR (List.length pts) * (total f pts / INR (List.length pts)).
Proof.
  intros f pts NE. rewrite total_dev. assert (1 <= INR (List.length pts)) by (destruct pts; [contradiction|]; cbn [List.length]; rewrite S_INR; pose proof (pos_INR (List.length pts)); lra).
  field. lra.
Qed.
Lemma total_nonneg : forall f pts, (forall p, 0 <= f p) -> 0 <= total f pts.
Proof. intros f pts H. induction pts as [|p l IH]; unfold total in *; cbn; [lra|]. specialize (H p). lra. Qed.

Theorem C102_radicand : forall pts, pts <> [] -> finite_points pts -> (Z.of_nat (List.length pts) <= 2 ^ 52)%Z ->
  far pts * INR (List.length pts) <= bpow radix2 1020 ->
  fin (radicand64 pts) /\ Rabs (V (radicand64 pts) - spread pts) <= slack pts.
Proof.
  intros pts NE F N B.
  assert (P : 1 <= INR (List.length pts)) by (destruct pts; [contradiction|]; cbn [List.length]; rewrite S_INR; pose proof (pos_INR (List.length pts)); lra).
  assert (SX : Vsq (map fst pts) = total (fun p => V (fst p) * V (fst p)) pts) by (unfold Vsq, total; rewrite map_map; reflexivity).
  assert (SY : Vsq (map snd pts) = total (fun p => V (snd p) * V (snd p)) pts) by (unfold Vsq, total; rewrite map_map; reflexivity).
  assert (LX : Vsum (map fst pts) = total (fun p => V (fst p)) pts) by (unfold Vsum, total; rewrite map_map; reflexivity).
  assert (LY : Vsum (map snd pts) = total (fun p => V (snd p)) pts) by (unfold Vsum, total; rewrite map_map; reflexivity).
  assert (NX : size (map fst pts) = INR (List.length pts)) by (unfold size; rewrite map_length; reflexivity).
  assert (NY : size (map snd pts) = INR (List.length pts)) by (unfold size; rewrite map_length; reflexivity).
  assert (FAR : far pts = (Vsq (map fst pts) + Vsq (map snd pts)) / INR (List.length pts)).
  { unfold far. rewrite SX, SY, <- total_plus. f_equal. apply total_ext. intro p. ring. }
  pose proof (Vsq_pos (map fst pts)) as X0. pose proof (Vsq_pos (map snd pts)) as Y0.
  assert (B' : Vsq (map fst pts) + Vsq (map snd pts) <= bpow radix2 1020).
  { rewrite FAR in B. unfold Rdiv in B. rewrite Rmult_assoc, Rinv_l, Rmult_1_r in B by lra. exact B. }
  destruct (variance_error (map fst pts)) as [A1 A2].
  { destruct pts; [contradiction|discriminate]. } { apply Forall_map. eapply Forall_impl; [|exact F]. cbn. tauto. } { rewrite map_length. exact N. } { lra. }
  destruct (variance_error (map snd pts)) as [B1 B2].
  { destruct pts; [contradiction|discriminate]. } { apply Forall_map. eapply Forall_impl; [|exact F]. cbn. tauto. } { rewrite map_length. exact N. } { lra. }
  assert (SP : spread pts = (Vsq (map fst pts) / size (map fst pts) - Vsum (map fst pts) / size (map fst pts) * (Vsum (map fst pts) / size (map fst pts)))
                          + (Vsq (map snd pts) / size (map snd pts) - Vsum (map snd pts) / size (map snd pts) * (Vsum (map snd pts) / size (map snd pts)))).
  { unfold spread. rewrite total_plus. unfold Rdiv at 1. rewrite Rmult_plus_distr_r. rewrite NX, NY, SX, SY, LX, LY. unfold centre_x, centre_y.
    pose proof (variance_id (fun p => V (fst p)) pts NE) as E1. pose proof (variance_id (fun p => V (snd p)) pts NE) as E2. cbv beta in E1, E2. unfold Rdiv in *. rewrite E1, E2. reflexivity. }
  assert (S0 : 0 <= spread pts <= far pts).
  { split.
    - unfold spread. apply Rmult_le_pos; [|apply Rlt_le, Rinv_0_lt_compat; lra]. apply total_nonneg. intro p. pose proof (pow2_ge_0 (V (fst p) - centre_x pts)). pose proof (pow2_ge_0 (V (snd p) - centre_y pts)). lra.
    - rewrite SP, FAR, NX, NY. unfold Rdiv. rewrite Rmult_plus_distr_r.
      pose proof (Rle_0_sqr (Vsum (map fst pts) / INR (List.length pts))) as H1. pose proof (Rle_0_sqr (Vsum (map snd pts) / INR (List.length pts))) as H2. unfold Rsqr in *. unfold Rdiv in *. lra. }
  rewrite NX in A2. rewrite NY in B2. rewrite NX, NY in SP.
  set (n := INR (List.length pts)) in *. set (MX := Vsq (map fst pts) / n) in *. set (MY := Vsq (map snd pts) / n) in *.
  assert (FM : far pts = MX + MY) by (rewrite FAR; unfold MX, MY; field; lra).
  pose proof u_ge as U0. pose proof u_le as U1. pose proof tiny_gt as T0. destruct tiny_facts as (T1 & T2 & T3).
  assert (SN : n * u <= / 2) by (apply len_u; exact N).
  set (M := MX + MY) in *. rewrite FM in *.
  assert (MN : M <= bpow radix2 1020) by (assert (0 <= M) by lra; assert (M * 1 <= M * n) by (apply Rmult_le_compat_l; lra); lra).
  assert (E : Rabs (V (variance64 (map fst pts)) + V (variance64 (map snd pts)) - spread pts) <= (8 * n + 14) * u * M + 16 * tiny).
  { rewrite SP. match goal with |- Rabs (?a + ?b - (?c + ?d)) <= _ => replace (a + b - (c + d)) with ((a - c) + (b - d)) by ring end.
    eapply Rle_trans; [apply Rabs_triang|]. unfold M. lra. }
  assert (nM : n * u * M <= / 2 * M) by (apply Rmult_le_compat_r; lra).
  assert (uM : u * M <= / 8 * M) by (apply Rmult_le_compat_r; lra).
  assert (VS : Rabs (V (variance64 (map fst pts)) + V (variance64 (map snd pts))) <= 7 * M + 16 * tiny).
  { replace (V (variance64 (map fst pts)) + V (variance64 (map snd pts))) with ((V (variance64 (map fst pts)) + V (variance64 (map snd pts)) - spread pts) + spread pts) by ring.
    eapply Rle_trans; [apply Rabs_triang|]. rewrite (Rabs_pos_eq (spread pts)) by lra. lra. }
  assert (P23 : bpow radix2 1023 = 8 * bpow radix2 1020) by (change 1023%Z with (3 + 1020)%Z; rewrite bpow_plus; reflexivity).
  assert (P1 : 16 <= bpow radix2 1020) by (change 16 with (bpow radix2 4); apply bpow_le; lia).
  destruct (fadd_ok (variance64 (map fst pts)) (variance64 (map snd pts)) A1 B1) as [C1 C2]; [lra|].
  split; [exact C1|]. unfold radicand64. rewrite C2.
  match goal with |- Rabs (rnd ?z - ?s) <= _ => replace (rnd z - s) with ((rnd z - z) + (z - s)) by ring; pose proof (rnd_error z) as R; set (zz := z) in * end.
  eapply Rle_trans; [apply Rabs_triang|].
  assert (uz : u * Rabs zz <= u * (7 * M + 16 * tiny)) by (apply Rmult_le_compat_l; lra).
  assert (ut : u * tiny <= / 8 * tiny) by (apply Rmult_le_compat_r; lra).
  unfold slack. fold n. rewrite FM. assert (E50 : bpow radix2 (-50) = 8 * u) by (change (-50)%Z with (3 + -53)%Z; rewrite bpow_plus; reflexivity).
  assert (ET : bpow radix2 (-1070) = 32 * tiny) by (change (-1070)%Z with (5 + -1075)%Z; rewrite bpow_plus; reflexivity).
  assert (0 <= u * M) by (apply Rmult_le_pos; lra). rewrite E50, ET. lra.
Qed.
Print Assumptions C102_radicand.

(** The result is NaN exactly if the number under the root came out negative. *)
Theorem C102_result : forall pts, fin (radicand64 pts) ->
  (V (radicand64 pts) < 0 -> is_nan (std_distance64 pts) = true) /\
  (0 <= V (radicand64 pts) -> fin (std_distance64 pts) /\ V (std_distance64 pts) = rnd (sqrt (V (radicand64 pts)))).
Proof.
  intros pts F. unfold std_distance64, fsqrt. generalize dependent (radicand64 pts). intros r F.
  pose proof (Bsqrt_correct 53 1024 eq_refl eq_refl mode_NE r) as (A & B & _). unfold fin, V in *.
  destruct r as [s|s| |s m e H]; try discriminate.
  - cbn [B2R]. split; [intro; lra|]. intros _. split; [exact B|exact A].
  - cbn [B2R] in *. destruct s.
    + split; [reflexivity|]. intro Q. exfalso. revert Q. apply Rlt_not_le. apply F2R_lt_0. reflexivity.
    + split.
      * intro Q. exfalso. revert Q. apply Rle_not_lt. apply F2R_ge_0. discriminate.
      * intros _. split; [exact B|exact A].
Qed.
Print Assumptions C102_result.

(** Patterns whose spread exceeds the slack have a standard distance. *)
Theorem C102_defined : forall pts, pts <> [] -> finite_points pts -> (Z.of_nat (List.length pts) <= 2 ^ 52)%Z ->
  far pts * INR (List.length pts) <= bpow radix2 1020 -> slack pts <= spread pts -> fin (std_distance64 pts).
Proof.
  intros pts NE F N B S. destruct (C102_radicand pts NE F N B) as [R1 R2]. apply (C102_result pts R1). apply Rabs_le_inv in R2. lra.
Qed.
Print Assumptions C102_defined.

(** Three coincident points have standard distance NaN, not 0. *)
Theorem C102_coincident_refuted : exists p, fin (fst p) /\ fin (snd p) /\ is_nan (std_distance64 [p; p; p]) = true.
Proof. exists (tenth, tenth). repeat split; vm_compute; reflexivity. Qed.
Print Assumptions C102_coincident_refuted.

(** Two points at distance 1 have standard distance 0 instead of 1/2. *)
Theorem C102_cancellation_refuted : exists p q, fin (fst p) /\ fin (snd p) /\ fin (fst q) /\ fin (snd q) /\
  V (fst q) = V (fst p) + 1 /\ V (snd q) = V (snd p) /\ spread [p; q] = / 4 /\ V (std_distance64 [p; q]) = 0.
Proof.
  destruct (fint_ok 134217728) as [F1 V1]; [lia|]. destruct (fint_ok 134217729) as [F2 V2]; [lia|]. destruct (fint_ok 0) as [F0 V0]; [lia|].
  exists (fint 134217728, fint 0), (fint 134217729, fint 0). cbn [fst snd]. rewrite V1, V2.
  split; [exact F1|]. split; [exact F0|]. split; [exact F2|]. split; [exact F0|]. split; [lra|]. split; [reflexivity|]. split.
  - unfold spread, centre_x, centre_y, total. cbn [map fold_right List.length fst snd INR]. rewrite V1, V2, V0. lra.
  - replace (std_distance64 [(fint 134217728, fint 0); (fint 134217729, fint 0)]) with (B754_zero false : f64) by (apply B2SF_inj; vm_compute; reflexivity). reflexivity.
Qed.
Print Assumptions C102_cancellation_refuted.

Example C102_case : V (std_distance64 [(fint 0, fint 0); (fint 6, fint 8)]) = 5.
Proof.
  replace (std_distance64 [(fint 0, fint 0); (fint 6, fint 8)]) with (fint 5) by (apply B2SF_inj; vm_compute; reflexivity).
  apply fint_ok. lia.
Qed.
