(** Theorems on the mean of Ripley's K and L: property C150. *)
From Coq Require Import Reals Qreals ZArith QArith Qround Qabs List Bool Arith Lia Lra Psatz String.
From Verif Require Import Base BaseLemmas Quadrat_model Quadrat_proofs Geometry_model Random_model Random_spec DistStats_model DistStats_proofs Ripley_model Joint_spec Joint_proofs Blocks_spec Null_spec Null_proofs Chimean_spec Chimean_proofs Kmean_spec Kmean_proofs.
Import ListNotations.
Local Open Scope R_scope.

Section Law.
Variables (G : list Q) (w : Q -> R).
Notation mean := (mean G w).
Hypothesis LW : is_law G w.
(** Fixed points [frame] fix the data box [b]; [n] points are drawn in the window [h]. *)
Variables (h : hull) (frame : list pt) (b : box).
Hypothesis mbb : compute_mbb frame = Ok b.
Hypothesis inside : forall p, h_contains h p = true -> within b p.
Hypothesis A : kept G w (box_candidate (h_bbox h)) (h_contains h) always <> 0.
(** The distance function of a metric the functions accept, and the support. *)
Variables (query : metric -> list pt -> pt -> nat -> row) (dist : metric -> pt -> pt -> Q) (mt : metric) (sup : list Q) (j : nat).
Hypothesis usable : match mt with MName x => x <> "precomputed"%string | MOther _ => False | _ => True end.
Hypothesis J : (j < List.length sup)%nat.
Notation s := (nth j sup 0%Q).
Notation F := (INR (List.length frame)).
Notation area := (Q2R (box_area b)).
Definition near (p q : pt) : bool := Qltb (dist mt p q) s.
(** The probability that a random point is near [p], and that two random points are near. *)
Definition near_prob (p : pt) : R := share G w (box_candidate (h_bbox h)) (h_contains h) (indicator (near p)).
Definition pair_prob : R := share G w (box_candidate (h_bbox h)) (h_contains h) near_prob.
Definition k_test (n : nat) (us : list Q) : run (list Q * list xq) := framed h frame n (fun pts us => lift (k_fun query dist pts (SupArr sup) DNone mt false) us) us.
Definition k_at (r : list Q * list xq) : R := real_of (nth j (snd r) NaN).
Definition expected_k (n : nat) : R :=
  area * 2 / (F + INR n) ^ 2 * (INR (close_pairs near frame) + INR n * sum_over frame near_prob + INR n * (INR n - 1) / 2 * pair_prob).

Lemma area_nonneg : (0 <= box_area b)%Q.
Proof using. apply Qabs_nonneg. Qed.
Lemma k_run : forall l, (forall p, In p l -> within b p) ->
  exists v, k_fun query dist (frame ++ l) (SupArr sup) DNone mt false = Ok (sup, v) /\
  k_at (sup, v) = area * 2 / (F + INR (List.length l)) ^ 2 * INR (close_pairs near (frame ++ l)) /\
  exists q, nth j v NaN = Fin q /\ (0 <= q)%Q.
Proof using mbb usable J.
  intros l W. pose proof (mbb_frame frame b l mbb W) as MB. unfold k_fun, prepare, prepare_hull. rewrite MB. cbn [bind is_none andb].
  assert (FN : frame <> []) by (intro X; rewrite X in mbb; discriminate mbb).
  assert (N1 : (1 <= List.length (frame ++ l))%nat) by (rewrite app_length; destruct frame; [congruence|cbn; lia]).
  destruct (k_value_spec (List.length (frame ++ l)) (box_area b) (pdist (List.length (frame ++ l)) (fun i k => dist mt (nth i (frame ++ l) (0%Q, 0%Q)) (nth k (frame ++ l) (0%Q, 0%Q)))) s N1 area_nonneg) as [q [Q1 Q2]].
  set (vals := map (k_value (List.length (frame ++ l)) (box_area b) (pdist (List.length (frame ++ l)) (fun i k => dist mt (nth i (frame ++ l) (0%Q, 0%Q)) (nth k (frame ++ l) (0%Q, 0%Q))))) sup).
  assert (NV : nth j vals NaN = Fin q).
  { unfold vals. rewrite (nth_indep _ NaN (k_value (List.length (frame ++ l)) (box_area b) (pdist (List.length (frame ++ l)) (fun i k => dist mt (nth i (frame ++ l) (0%Q, 0%Q)) (nth k (frame ++ l) (0%Q, 0%Q)))) 0%Q)) by (rewrite map_length; exact J). rewrite map_nth. exact Q1. }
  exists vals. split; [|split].
  - clear NV Q1 Q2. unfold vals. destruct mt as [x|x|x]; [|reflexivity|destruct usable]. apply String.eqb_neq in usable. rewrite usable. reflexivity.
  - unfold k_at. cbn [snd]. rewrite NV. cbn [real_of]. rewrite count_pairs in Q2. apply Qeq_eqR in Q2. rewrite Q2.
    assert (N0 : 0 < INR (List.length (frame ++ l))) by (apply lt_0_INR; lia).
    assert (P : forall k, Q2R (inject_Z (Z.of_nat k)) = INR k) by (intro k; rewrite Q2R_inject, INR_IZR_INZ; reflexivity).
    rewrite Q2R_div.
    + rewrite !Q2R_mult, inject_Z_mult, Q2R_mult, !P, <- plus_INR, <- app_length. change (Q2R (inject_Z 2)) with (Q2R (inject_Z (Z.of_nat 2))). rewrite P. change (INR 2) with 2. unfold near. field. lra.
    + intro X. apply Qeq_eqR in X. rewrite Q2R_mult, !P in X. unfold Q2R in X. cbn in X. nra.
  - exists q. split; [exact NV|]. rewrite Q2. apply Qle_shift_div_l; [apply Qmult_lt_0_compat; apply inject_Z_pos; lia|]. rewrite Qmult_0_l. apply Qmult_le_0_compat; [apply area_nonneg|]. apply inject_Z_nonneg. lia.
Qed.

(** ** C150 *)
(** The mean of K(s). *)
Theorem C150_mean : forall n L,
  mean (2 * L) (fun us => of_run (k_test n us) k_at) = expected_k n * mean (2 * L) (fun us => of_run (k_test n us) always) /\
  mean (2 * L) (fun us => of_run (k_test n us) always) = mean (2 * L) (fun us => of_run (poisson h None (SInt (Z.of_nat n)) us) always).
Proof using LW mbb inside A usable J.
  intros n L. unfold k_test.
  destruct (framed_mean G w h frame b LW inside _ (fun pts us => lift (k_fun query dist pts (SupArr sup) DNone mt false) us) k_at
    (fun l => area * 2 / (F + INR n) ^ 2 * INR (close_pairs near (frame ++ l))) n L) as [M1 M2].
  { intros l us E W. destruct (k_run l W) as [v [V1 [V2 _]]]. exists (sup, v). rewrite V1. split; [reflexivity|]. rewrite V2, E. reflexivity. }
  split; [|exact M2]. apply Rmult_eq_reg_r with (kept G w (box_candidate (h_bbox h)) (h_contains h) always ^ n); [|apply pow_nonzero; exact A]. rewrite M1.
  rewrite all_scale, framed_pairs by exact A. unfold expected_k, pair_prob. change (hit G w (h_contains h) (box_candidate (h_bbox h)) near) with near_prob.
  change (both G w (h_contains h) (box_candidate (h_bbox h)) near) with (share G w (box_candidate (h_bbox h)) (h_contains h) near_prob). ring.
Qed.

(** For large patterns it tends to the area of the data box times the probability that
    two random points are near. *)
Theorem C150_limit : exists c, forall n, (1 <= n)%nat -> Rabs (expected_k n - area * pair_prob) <= c / INR n.
Proof using LW mbb A.
  pose proof (Qle_Rle _ _ area_nonneg) as A0. replace (Q2R 0) with 0 in A0 by (unfold Q2R; cbn; field).
  destruct (both_range G w (h_contains h) (box_candidate (h_bbox h)) near A LW) as [B0 B1]. change (both G w (h_contains h) (box_candidate (h_bbox h)) near) with pair_prob in B0, B1.
  pose proof (pos_INR (List.length frame)) as F0. pose proof (pos_INR (close_pairs near frame)) as P0.
  assert (H0 : 0 <= sum_over frame near_prob) by (apply so_nonneg; intros p _; apply (hit_range G w (h_contains h) (box_candidate (h_bbox h)) near A LW p)).
  set (P := INR (close_pairs near frame)) in *. set (H := sum_over frame near_prob) in *.
  exists (area * (2 * P + 2 * H + 1 + 2 * F + F * F)). intros n N. assert (I : 1 <= INR n) by (change 1 with (INR 1); apply le_INR; exact N).
  unfold expected_k. fold P H. set (x := INR n) in *. set (a := area) in *. set (q := pair_prob) in *.
  replace (a * 2 / (F + x) ^ 2 * (P + x * H + x * (x - 1) / 2 * q) - a * q) with (a * ((2 * P + 2 * x * H - x * q - 2 * F * x * q - F * F * q) / (F + x) ^ 2)) by (field; lra).
  rewrite Rabs_mult, (Rabs_pos_eq a) by exact A0. unfold Rdiv. rewrite (Rmult_assoc a). apply Rmult_le_compat_l; [exact A0|].
  rewrite Rabs_mult, (Rabs_pos_eq (/ (F + x) ^ 2)) by (left; apply Rinv_0_lt_compat, pow_lt; lra).
  assert (NUM : Rabs (2 * P + 2 * x * H - x * q - 2 * F * x * q - F * F * q) <= (2 * P + 2 * H + 1 + 2 * F + F * F) * x).
  { assert (X1 : 0 <= x * q <= x) by (split; [apply Rmult_le_pos; lra|rewrite <- (Rmult_1_r x) at 2; apply Rmult_le_compat_l; lra]).
    assert (X2 : 0 <= F * (x * q) <= F * x) by (split; [apply Rmult_le_pos; lra|apply Rmult_le_compat_l; lra]).
    assert (FF : 0 <= F * F) by (apply Rmult_le_pos; lra).
    assert (X3 : 0 <= F * F * q <= F * F * x) by (split; [apply Rmult_le_pos; lra|apply Rmult_le_compat_l; lra]).
    assert (X4 : P * 1 <= P * x) by (apply Rmult_le_compat_l; lra).
    assert (X5 : 0 <= H * x) by (apply Rmult_le_pos; lra).
    apply Rabs_le. replace (2 * F * x * q) with (2 * (F * (x * q))) by ring. replace (2 * x * H) with (2 * (H * x)) by ring.
    assert (X6 : 0 <= P * x) by (apply Rmult_le_pos; lra). assert (X7 : 0 <= F * x) by (apply Rmult_le_pos; lra). assert (X8 : 0 <= F * F * x) by (apply Rmult_le_pos; [apply Rmult_le_pos|]; lra).
    replace ((2 * P + 2 * H + 1 + 2 * F + F * F) * x) with (2 * (P * x) + 2 * (H * x) + x + 2 * (F * x) + F * F * x) by ring. lra. }
  assert (DEN : / (F + x) ^ 2 <= / x ^ 2) by (apply Rinv_le_contravar; [apply pow_lt; lra|apply pow_incr; lra]).
  assert (C0 : 0 <= (2 * P + 2 * H + 1 + 2 * F + F * F) * x) by (apply Rmult_le_pos; [pose proof (Rmult_le_pos F F F0 F0)|]; lra).
  apply Rle_trans with ((2 * P + 2 * H + 1 + 2 * F + F * F) * x * / x ^ 2).
  - apply Rmult_le_compat; [apply Rabs_pos|left; apply Rinv_0_lt_compat, pow_lt; lra|exact NUM|exact DEN].
  - right. field. lra.
Qed.

(** When two random points are near with a probability below pi s^2 / area - as under
    random points of the uniform law wherever the circle of radius s leaves the window -
    the linearized L(s) of large patterns has a mean below a fixed negative bound. *)
Definition l_test (n : nat) (us : list Q) : run (list Q * list (option R)) :=
  framed h frame n (fun pts us => lift (l_fun query dist true pts (SupArr sup) DNone mt false) us) us.
Definition l_at (r : list Q * list (option R)) : R := match nth j (snd r) None with Some v => v | None => 0 end.
Theorem C150_L_refuted : (0 <= s)%Q -> area * pair_prob < PI * (Q2R s) ^ 2 -> exists c n0, 0 < c /\ forall n L, (n0 <= n)%nat ->
  mean (2 * L) (fun us => of_run (l_test n us) l_at) <= - c * mean (2 * L) (fun us => of_run (l_test n us) always).
Proof using LW mbb inside A usable J.
  intros S0 LT. apply Qle_Rle in S0. replace (Q2R 0) with 0 in S0 by (unfold Q2R; cbn; field).
  pose proof PI_RGT_0 as PI0. set (gap := PI * Q2R s ^ 2 - area * pair_prob). assert (G0 : 0 < gap) by (unfold gap; lra).
  destruct C150_limit as [c0 LIM]. destruct (above (2 * Rabs c0 / gap)) as [n1 N1].
  assert (SP : 0 < Q2R s).
  { destruct (Rle_lt_or_eq_dec 0 (Q2R s) S0) as [X|X]; [exact X|]. exfalso. rewrite <- X in LT.
    pose proof (Qle_Rle _ _ area_nonneg) as A0. replace (Q2R 0) with 0 in A0 by (unfold Q2R; cbn; field).
    destruct (both_range G w (h_contains h) (box_candidate (h_bbox h)) near A LW) as [B0 _]. change (both G w (h_contains h) (box_candidate (h_bbox h)) near) with pair_prob in B0.
    pose proof (Rmult_le_pos _ _ A0 B0). lra. }
  exists (gap / (4 * PI * Q2R s)), (S n1). split; [apply Rdiv_lt_0_compat; [exact G0|apply Rmult_lt_0_compat; lra]|]. intros n L LE.
  assert (N0 : 1 <= INR n) by (change 1 with (INR 1); apply le_INR; lia). assert (N2 : INR n1 <= INR n) by (apply le_INR; lia).
  assert (EK : expected_k n <= PI * Q2R s ^ 2 - gap / 2).
  { pose proof (LIM n ltac:(lia)) as X. assert (Y : c0 / INR n <= gap / 2).
    { apply Rle_trans with (Rabs c0 / INR n); [apply Rmult_le_compat_r; [left; apply Rinv_0_lt_compat; lra|apply Rle_abs]|].
      apply Rmult_le_reg_r with (INR n); [lra|]. unfold Rdiv at 1. rewrite Rmult_assoc, Rinv_l, Rmult_1_r by lra.
      assert (Z1 : 2 * Rabs c0 / gap < INR n) by lra. apply (Rmult_lt_compat_r gap) in Z1; [|exact G0]. unfold Rdiv in Z1. rewrite Rmult_assoc, Rinv_l, Rmult_1_r in Z1 by lra. lra. }
    pose proof (Rle_abs (expected_k n - area * pair_prob)) as U. unfold gap in *. lra. }
  assert (END : forall us, of_run (l_test n us) always = of_run (k_test n us) always).
  { intro us. unfold l_test, k_test, framed. destruct (poisson h None (SInt (Z.of_nat n)) us) as [a r| |]; cbn [rbind]; try reflexivity. unfold l_fun.
    destruct (k_fun query dist (frame ++ arr_points a) (SupArr sup) DNone mt false) as [[sp ks]|]; reflexivity. }
  rewrite (mean_ext G w (2 * L) (fun us => of_run (l_test n us) always) _ END). destruct (C150_mean n L) as [MEAN _].
  set (E := mean (2 * L) (fun us => of_run (k_test n us) always)) in *.
  assert (E0 : 0 <= E) by (rewrite <- (mean_const G w LW (2 * L) 0); apply mean_le; [exact LW|]; intro us; destruct (k_test n us); cbn; unfold always; lra).
  (* sqrt (k / PI) - s <= (k / (PI s) + s) / 2 - s *)
  apply Rle_trans with (mean (2 * L) (fun us => (/ (2 * PI * Q2R s)) * of_run (k_test n us) k_at + (- Q2R s / 2) * of_run (k_test n us) always)).
  - apply mean_le; [exact LW|]. intro us. unfold l_test, k_test, framed. destruct (poisson h None (SInt (Z.of_nat n)) us) as [a r| |] eqn:PE; cbn [rbind of_run]; try lra.
    assert (W : forall p, In p (arr_points a) -> within b p).
    { destruct (parse_size_and_intensity h None (SInt (Z.of_nat n))) as [[[n' s'] it]|e] eqn:P; [|unfold poisson in PE; rewrite P in PE; discriminate PE].
      assert (E1 : n' = Z.of_nat n /\ s' = 1%Z) by (cbn [parse_size_and_intensity] in P; destruct (div_area (Z.of_nat n) h); [|discriminate P]; cbn [bind] in P; inversion P; split; reflexivity).
      destruct E1 as [-> ->]. pose proof (poisson_staged h None (SInt (Z.of_nat n)) (Z.of_nat n) 1 it P ltac:(lia) ltac:(lia) us) as PS. rewrite PE in PS. cbn [rbind] in PS. symmetry in PS. apply staged_fits in PS. destruct PS as [_ PI']. intros p I. apply inside, PI', I. }
    destruct (k_run (arr_points a) W) as [v [V1 [_ [q [V3 V4]]]]]. unfold l_fun. rewrite V1. cbn [lift rbind of_run bind].
    unfold l_at, k_at. cbn [snd].
    assert (LV : List.length v = List.length sup).
    { clear - V1. unfold k_fun in V1. destruct (prepare _ _ _ _ _ _ _) as [[[sp m'] hh]|]; [|discriminate V1]. cbn [bind] in V1. destruct hh; try discriminate V1. cbn [k_stat k_distances bind] in V1. inversion V1. apply map_length. }
    assert (NL : nth j (map (fun sk => l_of_k true (fst sk) (snd sk)) (combine sup v)) None = l_of_k true s (Fin q)).
    { rewrite (nth_indep _ None (l_of_k true (fst (0%Q, NaN)) (snd (0%Q, NaN)))) by (rewrite map_length, combine_length, LV, Nat.min_id; exact J).
      rewrite (map_nth (fun sk => l_of_k true (fst sk) (snd sk)) (combine sup v) (0%Q, NaN)), combine_nth by (symmetry; exact LV). cbn [fst snd]. rewrite V3. reflexivity. }
    rewrite NL, V3. cbn [l_of_k real_of]. change (always (sup, v)) with 1. apply Qle_Rle in V4. replace (Q2R 0) with 0 in V4 by (unfold Q2R; cbn; field).
    set (k := Q2R q) in *. set (t := Q2R s) in *. set (r0 := sqrt (k / PI)).
    assert (RR : r0 * r0 = k / PI) by (apply sqrt_sqrt; apply Rmult_le_pos; [exact V4|left; apply Rinv_0_lt_compat; exact PI0]).
    replace (/ (2 * PI * t) * k) with (r0 * r0 / (2 * t)) by (rewrite RR; field; lra).
    apply Rmult_le_reg_r with (2 * t); [lra|]. replace ((r0 * r0 / (2 * t) + - t / 2 * 1) * (2 * t)) with (r0 * r0 - t * t) by (field; lra).
    pose proof (Rle_0_sqr (r0 - t)) as SQ. unfold Rsqr in SQ. nra.
  - rewrite mean_lin2, MEAN. fold E. assert (X : / (2 * PI * Q2R s) * expected_k n - Q2R s / 2 <= - (gap / (4 * PI * Q2R s))).
    { assert (I0 : 0 < / (2 * PI * Q2R s)) by (apply Rinv_0_lt_compat, Rmult_lt_0_compat; lra).
      apply Rle_trans with (/ (2 * PI * Q2R s) * (PI * Q2R s ^ 2 - gap / 2) - Q2R s / 2); [apply Rplus_le_compat_r, Rmult_le_compat_l; lra|]. right. field. lra. }
    replace (/ (2 * PI * Q2R s) * (expected_k n * E) + - Q2R s / 2 * E) with ((/ (2 * PI * Q2R s) * expected_k n - Q2R s / 2) * E) by (unfold Rdiv; ring).
    apply Rmult_le_compat_r; [exact E0|]. lra.
Qed.
End Law.
Print Assumptions C150_mean.
Print Assumptions C150_limit.
Print Assumptions C150_L_refuted.

(** ** A concrete case *)
(** Numbers 1/4 and 3/4 with equal probability, the unit square and its corners, the
    city block distance and s = 1: two random points are near with probability 3/4, K(1)
    of ten random points has mean 25/56, and the mean tends to 3/4 instead of pi. *)
Definition g2 : list Q := [(1 # 4)%Q; (3 # 4)%Q].
Definition w2 (_ : Q) : R := 1 / 2.
Definition unit_square : hull := bbox_hull (mkbox 0 0 1 1).
Definition corners : list pt := [(0, 0); (1, 0); (0, 1); (1, 1)]%Q.
Definition city (_ : metric) (p q : pt) : Q := (Qabs (fst p - fst q) + Qabs (snd p - snd q))%Q.
Example C150_case : is_law g2 w2 /\ kept g2 w2 (box_candidate (h_bbox unit_square)) (h_contains unit_square) always <> 0 /\
  compute_mbb corners = Ok (mkbox 0 0 1 1) /\ (forall p, h_contains unit_square p = true -> within (mkbox 0 0 1 1) p) /\
  pair_prob g2 w2 unit_square city (MName "cityblock") [(1 # 2)%Q; 1%Q] 1 = 3 / 4 /\
  expected_k g2 w2 unit_square corners (mkbox 0 0 1 1) city (MName "cityblock") [(1 # 2)%Q; 1%Q] 1 10 = 25 / 56 /\
  Q2R (box_area (mkbox 0 0 1 1)) * pair_prob g2 w2 unit_square city (MName "cityblock") [(1 # 2)%Q; 1%Q] 1 < PI * Q2R 1 ^ 2.
Proof.
  assert (K : kept g2 w2 (box_candidate (h_bbox unit_square)) (h_contains unit_square) always = 1) by (unfold kept, mean1, g2, w2, always; cbn; lra).
  assert (SH : forall f, share g2 w2 (box_candidate (h_bbox unit_square)) (h_contains unit_square) f = kept g2 w2 (box_candidate (h_bbox unit_square)) (h_contains unit_square) f) by (intro f; unfold share; rewrite K; field).
  assert (NP : forall p, near_prob g2 w2 unit_square city (MName "cityblock") [(1 # 2)%Q; 1%Q] 1 p =
    kept g2 w2 (box_candidate (h_bbox unit_square)) (h_contains unit_square) (indicator (near city (MName "cityblock") [(1 # 2)%Q; 1%Q] 1 p))) by (intro p; apply SH).
  assert (PP : pair_prob g2 w2 unit_square city (MName "cityblock") [(1 # 2)%Q; 1%Q] 1 = 3 / 4).
  { unfold pair_prob. rewrite SH. rewrite (kept_ext g2 w2 (h_contains unit_square) (box_candidate (h_bbox unit_square)) _ _ (fun p _ => NP p)). unfold kept, mean1, g2, w2, indicator. cbn. lra. }
  split; [split; [intros; unfold w2; lra|unfold mean1, g2, w2; cbn; lra]|]. split; [rewrite K; lra|]. split; [reflexivity|]. split; [|split; [exact PP|split]].
  - intros p H. cbn [h_contains unit_square bbox_hull] in H. unfold box_contains in H. cbn in H. qb. repeat split; auto.
  - unfold expected_k. rewrite PP. unfold sum_over, corners. cbn [map fold_right]. rewrite !NP. unfold kept, mean1, g2, w2, indicator. cbn. unfold Q2R. cbn. lra.
  - rewrite PP. replace (Q2R (box_area (mkbox 0 0 1 1))) with 1 by (unfold Q2R; cbn; field). replace (Q2R 1) with 1 by (unfold Q2R; cbn; field). pose proof PI2_1. lra.
Qed.
