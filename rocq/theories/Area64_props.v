(** Theorems about areas and intensities of a pattern on binary64: property C132. *)
From Coq Require Import Reals ZArith List Bool Lia Lra Psatz Permutation.
From Flocq Require Import Core BinarySingleNaN.
From Verif Require Import Base Float_model Float_proofs F64_model F64_proofs F64_props Hex64_proofs K64_model K64_spec K64_proofs Area64_model Area64_spec Area64_proofs.
Import ListNotations.
Local Open Scope R_scope.

(** Distance of the computed hull area from the exact one, for m additions: relative to
    the products of coordinates, not to the area. *)
Definition hull_slack (m : nat) (h : list fpt) : R := (2 * INR m + 3) * bpow radix2 (-53) * ring_size h + (2 * INR m + 2) * bpow radix2 (-1075).
Theorem C132_hull : forall h t, finite_ring h -> Adds t (terms64 h) -> ring_size h <= bpow radix2 1000 -> (Z.of_nat (length (leaves t)) <= 2 ^ 50)%Z ->
  fin (hull_area64 t) /\ Rabs (V (hull_area64 t) - ring_area h) <= hull_slack (length (leaves t)) h.
Proof.
  intros h t FR AD SZ N. destruct (ring_ok h FR) as (F & AR & SR).
  assert (F' : Forall (fun e => fp (fst e) /\ fp (snd e)) (pairs (close64 h))) by (eapply Forall_impl; [|exact F]; cbn; intros e (A & B & _); auto).
  destruct (terms_ok _ F' ltac:(lra)) as (T1 & T2 & T3 & T4 & T5). change (map (fun e => cross64 (fst e) (snd e)) (pairs (close64 h))) with (terms64 h) in *.
  destruct (adds_ok t _ AD T1) as (A1 & A2 & A3 & A4 & _).
  assert (TL : length (terms64 h) = length (pairs (close64 h))) by (unfold terms64; apply map_length). rewrite TL in A4.
  set (S0 := ptot cs (pairs (close64 h))) in *. set (m := length (leaves t)) in *. set (k := INR (length (pairs (close64 h)))) in *.
  assert (KM : 0 <= k <= INR m) by (split; [apply pos_INR|apply le_INR; exact A4]).
  assert (M50 : INR m <= bpow radix2 50). { rewrite <- IZR_pow2, INR_IZR_INZ by lia. apply IZR_le. exact N. }
  assert (UE : u * bpow radix2 50 = / 8) by (unfold u; rewrite <- bpow_plus; cbn; lra).
  pose proof u_ge as U. pose proof tiny_gt as TG. pose proof tiny_small as TS. assert (MU : INR m * u <= / 8) by nra.
  assert (B53 : INR m <= bpow radix2 1000). { eapply Rle_trans; [exact M50|]. apply bpow_le. lia. }
  assert (VB : 2 * Vabs (leaves t) <= bpow radix2 1023).
  { rewrite A3. assert (3 * k * tiny <= 3 * bpow radix2 1000) by nra. assert (16 * bpow radix2 1000 <= bpow radix2 1023).
    { change 16 with (bpow radix2 4). rewrite <- bpow_plus. apply bpow_le. lia. }
    pose proof (bpow_gt_0 radix2 1000). lra. }
  destruct (tsum_error t A1 ltac:(fold m; lra) VB) as [S1 S2]. rewrite A2, A3 in S2. fold m in S2.
  assert (GM : g (m - 1) <= 2 * INR m * u).
  { assert (MU1 : INR (m - 1) * u <= INR m * u) by (apply Rmult_le_compat_r; [lra|apply le_INR; lia]). eapply Rle_trans; [apply g_bound; lra|]. lra. }
  pose proof (g_pos (m - 1)) as GP. pose proof (Vabs_pos (terms64 h)) as VP.
  assert (GV : g (m - 1) * Vabs (terms64 h) <= 2 * INR m * u * (2 * S0 + 3 * k * tiny)) by (apply Rmult_le_compat; lra).
  assert (KT : 0 <= k * tiny <= INR m * tiny) by (split; [apply Rmult_le_pos; lra|apply Rmult_le_compat_r; lra]).
  assert (E1 : Rabs (V (tsum t) - ptot ca (pairs (close64 h))) <= (4 * INR m + 3) * u * S0 + 4 * (INR m * tiny)).
  { replace (V (tsum t) - ptot ca (pairs (close64 h))) with ((V (tsum t) - Vsum (terms64 h)) + (Vsum (terms64 h) - ptot ca (pairs (close64 h)))) by ring.
    eapply Rle_trans; [apply Rabs_triang|]. assert (INR m * u * (k * tiny) <= / 8 * (k * tiny)) by (apply Rmult_le_compat_r; lra). nra. }
  assert (C0 : (4 * INR m + 3) * u * S0 <= 1 * S0). { apply Rmult_le_compat_r; [lra|]. assert (u <= / 100) by (rewrite u_small; lra). lra. }
  assert (VS : Rabs (V (tsum t)) <= 2 * S0 + 4 * (INR m * tiny)).
  { replace (V (tsum t)) with ((V (tsum t) - ptot ca (pairs (close64 h))) + ptot ca (pairs (close64 h))) by ring. eapply Rle_trans; [apply Rabs_triang|]. lra. }
  destruct (fint_ok 2) as [_ V2]; [lia|].
  assert (HALF : Rabs (V (tsum t) / 2) <= S0 + 2 * (INR m * tiny)). { unfold Rdiv. rewrite Rabs_mult, (Rabs_pos_eq (/ 2)) by lra. lra. }
  assert (MT : INR m * tiny <= bpow radix2 1000) by nra.
  destruct (fdiv_ok (tsum t) (fint 2) S1) as [D1 D2]; [rewrite V2; lra| |].
  { rewrite V2. eapply Rle_trans; [exact HALF|]. assert (4 * bpow radix2 1000 <= bpow radix2 1023).
    { change 4 with (bpow radix2 2). rewrite <- bpow_plus. apply bpow_le. lia. } pose proof (bpow_gt_0 radix2 1000). lra. }
  rewrite V2 in D2. split; [exact D1|]. unfold hull_area64. rewrite D2. pose proof (rnd_error (V (tsum t) / 2)) as RE.
  replace (rnd (V (tsum t) / 2) - ring_area h) with ((rnd (V (tsum t) / 2) - V (tsum t) / 2) + (V (tsum t) - ptot ca (pairs (close64 h))) * / 2) by (rewrite AR; field).
  eapply Rle_trans; [apply Rabs_triang|]. rewrite (Rabs_mult _ (/ 2)), (Rabs_pos_eq (/ 2)) by lra. unfold hull_slack. fold u tiny. fold m.
  assert (UH : u * Rabs (V (tsum t) / 2) <= u * (S0 + 2 * (INR m * tiny))) by (apply Rmult_le_compat_l; lra).
  assert (UMT : INR m * u * tiny <= / 8 * tiny) by (apply Rmult_le_compat_r; lra).
  assert (SS : (2 * INR m + 3) * u * S0 <= (2 * INR m + 3) * u * ring_size h) by (apply Rmult_le_compat_l; [apply Rmult_le_pos; lra|exact SR]).
  assert (0 <= u * S0) by (apply Rmult_le_pos; lra). nra.
Qed.
Print Assumptions C132_hull.

(** A ring whose area exceeds the slack has a positive computed area and intensity. *)
Theorem C132_positive : forall h t n, finite_ring h -> Adds t (terms64 h) -> ring_size h <= bpow radix2 1000 -> (Z.of_nat (length (leaves t)) <= 2 ^ 50)%Z ->
  hull_slack (length (leaves t)) h < ring_area h -> bpow radix2 (-900) <= V (hull_area64 t) -> (0 < n)%nat -> (Z.of_nat n <= 2 ^ 53)%Z ->
  0 < V (hull_area64 t) /\ fin (lambda_hull64 n t) /\ 0 <= V (lambda_hull64 n t) /\
  Rabs (V (lambda_hull64 n t) * V (hull_area64 t) - INR n) <= bpow radix2 (-52) * INR n + bpow radix2 (-50).
Proof.
  intros h t n FR AD SZ N SL LOW NP NN. destruct (C132_hull h t FR AD SZ N) as [F E]. apply Rabs_le_inv in E.
  assert (P : 0 < V (hull_area64 t)) by lra. split; [exact P|]. destruct (fint_ok (Z.of_nat n)) as [Fn Vn]; [lia|]. rewrite <- INR_IZR_INZ in Vn.
  set (A := V (hull_area64 t)) in *. assert (N53 : 1 <= INR n <= bpow radix2 53).
  { split; [change 1 with (INR 1); apply le_INR; lia|]. rewrite <- IZR_pow2, INR_IZR_INZ by lia. apply IZR_le. lia. }
  assert (AU : A <= bpow radix2 1003).
  { destruct (ring_ok h FR) as (Fe & AR & SR). assert (F' : Forall (fun e => fp (fst e) /\ fp (snd e)) (pairs (close64 h))) by (eapply Forall_impl; [|exact Fe]; cbn; intros e (A0 & B0 & _); auto).
    destruct (terms_ok _ F' ltac:(lra)) as (_ & _ & _ & T4 & T5). assert (RA : ring_area h <= ring_size h). { pose proof (Rle_abs (ptot ca (pairs (close64 h)))). lra. }
    apply Rle_trans with (2 * bpow radix2 1000); [lra|]. change 2 with (bpow radix2 1). rewrite <- bpow_plus. apply bpow_le. lia. }
  assert (QL : 0 < / A <= bpow radix2 900). { split; [apply Rinv_0_lt_compat; exact P|]. replace (bpow radix2 900) with (/ bpow radix2 (-900)) by (rewrite <- bpow_opp; reflexivity). apply Rinv_le; [apply bpow_gt_0|exact LOW]. }
  assert (Q0 : 0 <= INR n / A). { unfold Rdiv. apply Rmult_le_pos; lra. }
  assert (QU : INR n / A <= bpow radix2 953). { change (bpow radix2 953) with (bpow radix2 (53 + 900)). rewrite bpow_plus. unfold Rdiv. apply Rmult_le_compat; lra. }
  destruct (fdiv_ok (fint (Z.of_nat n)) (hull_area64 t) Fn) as [L1 L2]; [fold A; lra| |].
  { rewrite Vn. fold A. rewrite Rabs_pos_eq by exact Q0. eapply Rle_trans; [exact QU|]. apply bpow_le. lia. }
  rewrite Vn in L2. fold A in L2. split; [exact L1|]. unfold lambda_hull64. rewrite L2. split; [apply rnd_nonneg; exact Q0|].
  pose proof (rnd_error (INR n / A)) as RE. rewrite (Rabs_pos_eq (INR n / A)) in RE by exact Q0.
  replace (rnd (INR n / A) * A - INR n) with ((rnd (INR n / A) - INR n / A) * A) by (field; lra). rewrite Rabs_mult, (Rabs_pos_eq A) by lra.
  apply Rle_trans with ((u * (INR n / A) + tiny) * A); [apply Rmult_le_compat_r; lra|].
  replace ((u * (INR n / A) + tiny) * A) with (u * INR n + tiny * A) by (field; lra).
  assert (TA : tiny * A <= bpow radix2 (-50)). { apply Rle_trans with (tiny * bpow radix2 1003); [apply Rmult_le_compat_l; [apply Rlt_le, tiny_gt|exact AU]|]. unfold tiny. rewrite <- bpow_plus. apply bpow_le. lia. }
  assert (UU : u * INR n <= bpow radix2 (-52) * INR n). { apply Rmult_le_compat_r; [lra|]. unfold u. apply bpow_le. lia. } lra.
Qed.
Print Assumptions C132_positive.

(** Coordinates on a common dyadic grid, for example integers, with products of at
    most 53 bits in total: the area is exact, in any order of additions. *)
Theorem C132_exact : forall h t e, finite_ring h -> Adds t (terms64 h) -> (-500 <= e <= 400)%Z ->
  Forall (fun p => multiple e (fst p) /\ multiple e (snd p)) h -> ring_size h <= bpow radix2 (2 * e + 53) ->
  fin (hull_area64 t) /\ V (hull_area64 t) = ring_area h.
Proof.
  intros h t e FR AD E M SZ. destruct (ring_ok h FR) as (F & AR & SR). rewrite Forall_forall in M.
  assert (F' : Forall (fun e => fp (fst e) /\ fp (snd e)) (pairs (close64 h))) by (eapply Forall_impl; [|exact F]; cbn; intros x (A & B & _); auto).
  assert (M' : Forall (fun p => multiple e (fst (fst p)) /\ multiple e (snd (fst p)) /\ multiple e (fst (snd p)) /\ multiple e (snd (snd p))) (pairs (close64 h))).
  { eapply Forall_impl; [|exact F]. cbn. intros x (_ & _ & A & B). destruct (M _ A), (M _ B). auto. }
  destruct (terms_exact _ e E F' M' ltac:(lra)) as (T1 & T2 & T3 & T4 & T5). change (map (fun e => cross64 (fst e) (snd e)) (pairs (close64 h))) with (terms64 h) in *.
  destruct (adds_ok t _ AD T1) as (A1 & A2 & A3 & _ & A5). specialize (A5 _ T2).
  destruct (tsum_exact t (2 * e) ltac:(lia) A1 A5 ltac:(lra)) as (S1 & S2 & [k S3]). pose proof (Vsum_abs (leaves t)) as SA.
  destruct (fint_ok 2) as [_ V2]; [lia|].
  assert (EQ : V (tsum t) / 2 = IZR k * bpow radix2 (2 * e - 1)).
  { rewrite S3. replace (2 * e - 1)%Z with (2 * e + -1)%Z by lia. rewrite bpow_plus. change (bpow radix2 (-1)) with (/ 2). unfold Rdiv. ring. }
  assert (BH : Rabs (V (tsum t) / 2) <= bpow radix2 (2 * e - 1 + 53)).
  { unfold Rdiv. rewrite Rabs_mult, (Rabs_pos_eq (/ 2)) by lra. replace (2 * e - 1 + 53)%Z with (2 * e + 53 + -1)%Z by lia. rewrite bpow_plus. change (bpow radix2 (-1)) with (/ 2).
    rewrite S2. apply Rmult_le_compat_r; lra. }
  destruct (fdiv_ok (tsum t) (fint 2) S1) as [D1 D2]; [rewrite V2; lra| |].
  { rewrite V2. eapply Rle_trans; [exact BH|]. apply bpow_le. lia. }
  rewrite V2 in D2. split; [exact D1|]. unfold hull_area64. rewrite D2, rnd_id; [rewrite S2, A2, T3, AR; field|].
  rewrite EQ. apply grid_float; [lia|]. rewrite <- EQ. exact BH.
Qed.
Print Assumptions C132_exact.

(** A ring given in closed form has the same terms. *)
Theorem C132_closed : forall p h, fin (fst p) -> fin (snd p) -> eq_row p (last (p :: h) p) = false -> terms64 ((p :: h) ++ [p]) = terms64 (p :: h).
Proof.
  intros p h F1 F2 E. unfold terms64. assert (C : close64 ((p :: h) ++ [p]) = close64 (p :: h)); [|rewrite C; reflexivity].
  change (close64 ((p :: h) ++ [p])) with (if eq_row p (last ((p :: h) ++ [p]) p) then (p :: h) ++ [p] else ((p :: h) ++ [p]) ++ [p]).
  change (close64 (p :: h)) with (if eq_row p (last (p :: h) p) then p :: h else (p :: h) ++ [p]). rewrite E, last_last.
  unfold eq_row. assert (R : feq (fst p) (fst p) = true /\ feq (snd p) (snd p) = true) by (split; apply feq_ok; auto). destruct R as [-> ->]. reflexivity.
Qed.
Print Assumptions C132_closed.

(** The bounding box: never negative, relative errors, wherever the pattern lies. *)
Theorem C132_box : forall l, l <> [] -> Forall usable l -> exists w h, Extent fst l w /\ Extent snd l h /\
  fin (mbb_area64 l) /\ 0 <= V (mbb_area64 l) /\ Rabs (V (mbb_area64 l) - w * h) <= bpow radix2 (-51) * (w * h) + bpow radix2 (-1075) /\
  fin (rot64 l) /\ 0 <= V (rot64 l) /\ Rabs (V (rot64 l) - Rmin w h / 4) <= bpow radix2 (-51) * (Rmin w h / 4) + bpow radix2 (-1075).
Proof.
  intros [|p l] NE US; [congruence|]. rewrite Forall_forall in US.
  destruct (side_ok fst p l) as (w & W1 & W2 & W3 & W4 & W5 & W6); [intros q Q; apply (US q Q)|].
  destruct (side_ok snd p l) as (h & H1 & H2 & H3 & H4 & H5 & H6); [intros q Q; apply (US q Q)|].
  exists w, h. split; [exact W1|]. split; [exact H1|]. pose proof (extent_nonneg _ _ _ W1) as w0. pose proof (extent_nonneg _ _ _ H1) as h0.
  change (side64 fst (p :: l)) with (fsub (col_max fst p l) (col_min fst p l)) in *. unfold mbb_area64, rot64, side64.
  set (X := fsub (col_max fst p l) (col_min fst p l)) in *. set (Y := fsub (col_max snd p l) (col_min snd p l)) in *.
  rewrite (Rabs_pos_eq w) in W6 by lra. rewrite (Rabs_pos_eq h) in H6 by lra. apply Rabs_le_inv in W6. apply Rabs_le_inv in H6.
  pose proof u_ge as U. assert (US' : u <= / 100) by (rewrite u_small; lra). assert (U51 : bpow radix2 (-51) = 4 * u) by (unfold u; change (-51)%Z with (2 + -53)%Z; rewrite bpow_plus; reflexivity).
  rewrite U51. fold tiny. pose proof tiny_gt as TG. assert (P : 0 <= rnd w * rnd h) by (apply Rmult_le_pos; lra).
  destruct (fmul_ok X Y W2 H2) as [A B].
  { rewrite W3, H3, Rabs_pos_eq by exact P. apply Rle_trans with (bpow radix2 501 * bpow radix2 501); [apply Rmult_le_compat; lra|]. rewrite <- bpow_plus. apply bpow_le. lia. }
  rewrite W3, H3 in B. split; [exact A|]. rewrite B. split; [apply rnd_nonneg; exact P|]. split.
  - pose proof (rnd_error (rnd w * rnd h)) as RE. rewrite (Rabs_pos_eq (rnd w * rnd h)) in RE by exact P. assert (WH : 0 <= w * h) by (apply Rmult_le_pos; lra).
    assert (PU : rnd w * rnd h <= (1 + u) * w * ((1 + u) * h)) by (apply Rmult_le_compat; lra).
    assert (PL : (1 - u) * w * ((1 - u) * h) <= rnd w * rnd h) by (apply Rmult_le_compat; nra).
    assert (UU : u * u * (w * h) <= / 100 * (u * (w * h))) by (assert (0 <= u * (w * h)) by (apply Rmult_le_pos; lra); nra).
    assert (UUU : u * (u * u * (w * h)) <= / 100 * (u * u * (w * h))) by (apply Rmult_le_compat_r; [nra|lra]).
    apply Rabs_le. apply Rabs_le_inv in RE. assert (u * (rnd w * rnd h) <= u * ((1 + u) * w * ((1 + u) * h))) by (apply Rmult_le_compat_l; lra). nra.
  - assert (M : exists z, fin (fmin X Y) /\ V (fmin X Y) = rnd z /\ z = Rmin w h).
    { unfold fmin. destruct (flt Y X) eqn:E.
      - apply flt_ok in E; auto. rewrite W3, H3 in E. exists h. split; [exact H2|]. split; [exact H3|]. rewrite Rmin_right; [reflexivity|].
        apply Rnot_lt_le. intro C. assert (rnd w <= rnd h) by (apply rnd_le; lra). lra.
      - apply flt_false in E; auto. rewrite W3, H3 in E. destruct (Rle_lt_dec w h) as [C|C].
        + exists w. split; [exact W2|]. split; [exact W3|]. rewrite Rmin_left; [reflexivity|exact C].
        + exists h. assert (rnd h <= rnd w) by (apply rnd_le; lra). split; [exact W2|]. split; [rewrite W3; lra|]. rewrite Rmin_right; lra. }
    destruct M as (z & M1 & M2 & ->). set (z := Rmin w h) in *.
    assert (ZR : 0 <= z /\ rnd z <= bpow radix2 501 /\ (1 - u) * z <= rnd z <= (1 + u) * z).
    { unfold z. unfold Rmin. destruct (Rle_dec w h); lra. }
    destruct ZR as (Z0 & Z1 & Z2). destruct (fdyadic_ok 1 (-2)) as [Q1 Q2].
    { change (IZR 1 * bpow radix2 (-2)) with (1 * / 4). rewrite Rabs_pos_eq by lra. apply Rle_trans with (bpow radix2 0); [cbn; lra|]. apply bpow_le. lia. }
    rewrite (rnd_id (IZR 1 * bpow radix2 (-2))) in Q2 by (apply float_dyadic; lia). change (IZR 1 * bpow radix2 (-2)) with (1 * / 4) in Q2. rewrite Rmult_1_l in Q2.
    assert (ZP : 0 <= rnd z) by (apply rnd_nonneg; exact Z0).
    destruct (fmul_ok (fdyadic 1 (-2)) (fmin X Y) Q1 M1) as [C1 C2].
    { rewrite Q2, M2, Rabs_pos_eq by (apply Rmult_le_pos; lra). apply Rle_trans with (bpow radix2 501); [lra|]. apply bpow_le. lia. }
    rewrite Q2, M2 in C2. split; [exact C1|]. rewrite C2. split; [apply rnd_nonneg, Rmult_le_pos; lra|].
    pose proof (rnd_error (/ 4 * rnd z)) as RE. rewrite (Rabs_pos_eq (/ 4 * rnd z)) in RE by (apply Rmult_le_pos; lra). apply Rabs_le. apply Rabs_le_inv in RE.
    assert (u * (/ 4 * rnd z) <= u * (/ 4 * ((1 + u) * z))) by (apply Rmult_le_compat_l; lra).
    assert (UU : u * (u * z) <= / 100 * (u * z)) by (apply Rmult_le_compat_r; [apply Rmult_le_pos; lra|lra]). nra.
Qed.
Print Assumptions C132_box.

(** The intensity of the bounding box. *)
Theorem C132_lambda_box : forall l, l <> [] -> Forall usable l -> (Z.of_nat (length l) <= 2 ^ 53)%Z -> bpow radix2 (-900) <= V (mbb_area64 l) ->
  fin (lambda_mbb64 l) /\ 0 < V (lambda_mbb64 l) /\
  Rabs (V (lambda_mbb64 l) * V (mbb_area64 l) - INR (length l)) <= bpow radix2 (-52) * INR (length l) + bpow radix2 (-50).
Proof.
  intros l NE US NN LOW. set (n := length l) in *. assert (NP : (0 < n)%nat) by (unfold n; destruct l; [congruence|cbn; lia]).
  destruct (fint_ok (Z.of_nat n)) as [Fn Vn]; [lia|]. rewrite <- INR_IZR_INZ in Vn.
  assert (N53 : 1 <= INR n <= bpow radix2 53).
  { split; [change 1 with (INR 1); apply le_INR; lia|]. rewrite <- IZR_pow2, INR_IZR_INZ by lia. apply IZR_le. lia. }
  assert (AU : V (mbb_area64 l) <= bpow radix2 1003).
  { clear LOW. unfold n in *. clear n. destruct l as [|p l]; [congruence|]. rewrite Forall_forall in US.
    destruct (side_ok fst p l) as (w & W1 & W2 & W3 & W4 & W5 & W6); [intros q Q; apply (US q Q)|].
    destruct (side_ok snd p l) as (h & H1 & H2 & H3 & H4 & H5 & H6); [intros q Q; apply (US q Q)|].
    pose proof (extent_nonneg _ _ _ W1) as w0. pose proof (extent_nonneg _ _ _ H1) as h0.
    assert (P : 0 <= rnd w * rnd h) by (apply Rmult_le_pos; apply rnd_nonneg; assumption).
    assert (PU : rnd w * rnd h <= bpow radix2 1002) by (change (bpow radix2 1002) with (bpow radix2 (501 + 501)); rewrite bpow_plus; apply Rmult_le_compat; try (apply rnd_nonneg; assumption); lra).
    destruct (fmul_ok _ _ W2 H2) as [A B]. { rewrite W3, H3, Rabs_pos_eq by exact P. eapply Rle_trans; [exact PU|]. apply bpow_le. lia. }
    unfold mbb_area64, side64. unfold side64 in B. rewrite B, W3, H3. apply Rle_trans with (rnd (bpow radix2 1002)); [apply rnd_le; exact PU|].
    rewrite rnd_id; [apply bpow_le; lia|]. rewrite <- (Rmult_1_l (bpow radix2 1002)). apply (float_dyadic 1 1002); lia. }
  assert (F : fin (mbb_area64 l)) by (destruct (C132_box l NE US) as (w & h & _ & _ & F & _); exact F).
  set (A := V (mbb_area64 l)) in *. assert (P : 0 < A) by (pose proof (bpow_gt_0 radix2 (-900)); lra).
  assert (QL : 0 < / A <= bpow radix2 900). { split; [apply Rinv_0_lt_compat; exact P|]. replace (bpow radix2 900) with (/ bpow radix2 (-900)) by (rewrite <- bpow_opp; reflexivity). apply Rinv_le; [apply bpow_gt_0|exact LOW]. }
  assert (Q0 : 0 <= INR n / A). { unfold Rdiv. apply Rmult_le_pos; lra. }
  assert (QU : INR n / A <= bpow radix2 953). { change (bpow radix2 953) with (bpow radix2 (53 + 900)). rewrite bpow_plus. unfold Rdiv. apply Rmult_le_compat; lra. }
  destruct (fdiv_ok (fint (Z.of_nat n)) (mbb_area64 l) Fn) as [L1 L2]; [fold A; lra| |].
  { rewrite Vn. fold A. rewrite Rabs_pos_eq by exact Q0. eapply Rle_trans; [exact QU|]. apply bpow_le. lia. }
  rewrite Vn in L2. fold A in L2. split; [exact L1|]. unfold lambda_mbb64. fold n. rewrite L2.
  pose proof (rnd_error (INR n / A)) as RE. rewrite (Rabs_pos_eq (INR n / A)) in RE by exact Q0. split.
  - apply Rlt_le_trans with (bpow radix2 (-1003)); [apply bpow_gt_0|]. apply Rle_trans with (rnd (bpow radix2 (-1003))).
    + rewrite rnd_id; [apply Rle_refl|]. rewrite <- (Rmult_1_l (bpow radix2 (-1003))). apply (float_dyadic 1 (-1003)); lia.
    + apply rnd_le. change (-1003)%Z with (Z.opp 1003). rewrite bpow_opp. apply Rle_trans with (/ A); [apply Rinv_le; assumption|]. unfold Rdiv. rewrite <- (Rmult_1_l (/ A)) at 1. apply Rmult_le_compat_r; lra.
  - replace (rnd (INR n / A) * A - INR n) with ((rnd (INR n / A) - INR n / A) * A) by (field; lra). rewrite Rabs_mult, (Rabs_pos_eq A) by lra.
    apply Rle_trans with ((u * (INR n / A) + tiny) * A); [apply Rmult_le_compat_r; lra|].
    replace ((u * (INR n / A) + tiny) * A) with (u * INR n + tiny * A) by (field; lra).
    assert (TA : tiny * A <= bpow radix2 (-50)). { apply Rle_trans with (tiny * bpow radix2 1003); [apply Rmult_le_compat_l; [apply Rlt_le, tiny_gt|exact AU]|]. unfold tiny. rewrite <- bpow_plus. apply bpow_le. lia. }
    assert (UU : u * INR n <= bpow radix2 (-52) * INR n). { apply Rmult_le_compat_r; [lra|]. unfold u. apply bpow_le. lia. } lra.
Qed.
Print Assumptions C132_lambda_box.

(** Finding: a unit square with integer coordinates has hull area -4 and a negative
    intensity, while its bounding box has area 1. *)
Definition square : list fpt :=
  let x := 134822538%Z in let y := 134237309%Z in [(fint x, fint y); (fint (x + 1), fint y); (fint (x + 1), fint (y + 1)); (fint x, fint (y + 1))].
(** The terms added from the first to the last, starting from zero. *)
Definition in_order (l : list f64) : tree := fold_left (fun t x => Node t (Leaf x)) l (Leaf (fint 0)).
Lemma in_order_adds : forall l, Adds (in_order l) l.
Proof.
  intro l. exists [fint 0]. split; [constructor; [exact I|constructor]|]. unfold in_order.
  assert (G : forall l t, leaves (fold_left (fun t x => Node t (Leaf x)) l t) = leaves t ++ l).
  { clear. induction l as [|x l IH]; intro t; cbn; [rewrite app_nil_r; reflexivity|]. rewrite IH. cbn. rewrite <- app_assoc. reflexivity. }
  rewrite G. cbn [leaves]. apply (Permutation_app_comm [fint 0] l).
Qed.
Theorem C132_negative_refuted : finite_ring square /\ Adds (in_order (terms64 square)) (terms64 square) /\ ring_area square = 1 /\
  V (hull_area64 (in_order (terms64 square))) = -4 /\ V (lambda_hull64 4 (in_order (terms64 square))) = -1 /\
  V (mbb_area64 square) = 1 /\ V (lambda_mbb64 square) = 4.
Proof.
  destruct (fint_ok 134822538) as [A1 A2]; [lia|]. destruct (fint_ok 134237309) as [B1 B2]; [lia|]. destruct (fint_ok (134822538 + 1)) as [C1 C2]; [lia|]. destruct (fint_ok (134237309 + 1)) as [D1 D2]; [lia|].
  split; [|split; [apply in_order_adds|split]].
  - split; [discriminate|]. unfold square. repeat constructor; assumption.
  - unfold ring_area, square, vx, vy, total. cbn [length seq map Nat.modulo Nat.divmod fst snd Nat.sub nth fold_right]. rewrite A2, B2, C2, D2, !plus_IZR. lra.
  - assert (E1 : hull_area64 (in_order (terms64 square)) = fint (-4)) by (apply B2SF_inj; vm_compute; reflexivity).
    assert (E2 : lambda_hull64 4 (in_order (terms64 square)) = fint (-1)) by (apply B2SF_inj; vm_compute; reflexivity).
    assert (E3 : mbb_area64 square = fint 1) by (apply B2SF_inj; vm_compute; reflexivity). assert (E4 : lambda_mbb64 square = fint 4) by (apply B2SF_inj; vm_compute; reflexivity).
    rewrite E1, E2, E3, E4. split; [apply fint_ok; lia|]. split; [apply fint_ok; lia|]. split; apply fint_ok; lia.
Qed.
Print Assumptions C132_negative_refuted.

(** A triangle near the origin, open and closed: area 6, intensity 1/2, box 12, a quarter of the smaller side 3/4. *)
Example C132_case :
  let h := [(fint 1, fint 1); (fint 5, fint 1); (fint 1, fint 4)] in
  B2SF (hull_area64 (in_order (terms64 h))) = B2SF (fint 6) /\ B2SF (hull_area64 (in_order (terms64 (h ++ [(fint 1, fint 1)])))) = B2SF (fint 6) /\
  B2SF (lambda_hull64 3 (in_order (terms64 h))) = B2SF (fdyadic 1 (-1)) /\ B2SF (mbb_area64 h) = B2SF (fint 12) /\ B2SF (rot64 h) = B2SF (fdyadic 3 (-2)) /\
  B2SF (lambda_mbb64 h) = B2SF (fdyadic 1 (-2)) /\ map (@B2SF 53 1024) (terms64 h) = map (@B2SF 53 1024) [fint (-4); fint 19; fint (-3)].
Proof. cbv zeta. repeat split; vm_compute; reflexivity. Qed.
