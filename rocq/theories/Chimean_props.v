(** Theorems on the mean of the quadrat statistic: property C149. *)
From Coq Require Import Reals Qreals ZArith QArith Qround List Bool Arith Lia Lra Psatz.
From Verif Require Import Base BaseLemmas Quadrat_model Quadrat_spec Quadrat_proofs Hexagon_grid Geometry_model Random_model Random_spec QStat_model QStat_proofs Joint_spec Joint_proofs Joint_props Blocks_spec Null_spec Null_proofs Chimean_spec Chimean_proofs.
Import ListNotations.
Local Open Scope R_scope.

(** ** C149 *)
(** Every location of the data box has a cell: always with rectangles, and with hexagons
    when the data box is no multiple of the hexagon. *)
Theorem C149_covers : forall frame shape nx ny rw rh lh sh m, make_manager frame shape nx ny rw rh lh sh = Ok m ->
  match m with
  | MRect _ => spread fst frame /\ spread snd frame /\ valid_grid nx ny rw rh
  | MHex _ => (0 < lh)%Q /\ (0 < sh)%Q /\ generic_extent (bxmax (extent m) - bxmin (extent m)) (bymax (extent m) - bymin (extent m)) lh sh
  end -> covers m.
Proof.
  intros frame shape nx ny rw rh lh sh m H C p W.
  destruct (manager_frame _ _ _ _ _ _ _ _ _ [p] H) as [MM _]; [intros q [<-|[]]; exact W|].
  destruct m as [r|h].
  - destruct C as [SX [SY V]]. destruct shape; cbn [make_manager] in H; try discriminate H; [|destruct (hex_init frame lh sh); discriminate H].
    destruct (rect_init_fits frame nx ny rw rh SX SY V) as [r' [w0 [h0 [E [_ [_ [_ [_ [_ [Ew [Eh [Fx [Fy _]]]]]]]]]]]]]. rewrite E in H. cbn [bind] in H. inversion H; subst r'.
    destruct W as [W1 W2]. cbn [extent] in W1, W2. pose proof (slot_index_in _ _ _ _ _ Fx W1) as [I1 _]. pose proof (slot_index_in _ _ _ _ _ Fy W2) as [I2 _].
    pose proof Fx as [Cx [Wx _]]. pose proof Fy as [Cy [Wy _]]. cbn [cell_of cells]. unfold rect_cell_id. rewrite Ew, Eh, !rect_index_int by assumption. cbn [xint bind]. eexists. split; [reflexivity|].
    unfold rect_keys. rewrite grid_keys by lia. apply in_zrange. nia.
  - destruct C as [L0 [S0 GE]]. destruct shape; cbn [make_manager] in MM; try discriminate MM; [destruct (rect_init (frame ++ [p]) nx ny rw rh); discriminate MM|].
    destruct (hex_init (frame ++ [p]) lh sh) as [h'|] eqn:E; [|discriminate MM]. cbn [bind with_points] in MM. inversion MM as [E2].
    assert (IP : In p (frame ++ [p])) by (apply in_app_iff; right; left; reflexivity).
    destruct (hex_cell_in_grid _ _ _ _ p E L0 S0 ltac:(rewrite E2; exact GE) IP) as [A1 [A2 A3]].
    pose proof (hex_key_ok _ _ _ _ _ _ E S0 A1 A2 A3) as K. exists (hex_cell_id h p). split; [reflexivity|]. rewrite E2 in K. exact K.
Qed.

Section Law.
Variables (G : list Q) (w : Q -> R).
Notation mean := (mean G w).
Hypothesis LW : is_law G w.
(** Fixed points [frame] fix the tessellation [m]; [n] points are drawn in the window [h]. *)
Variables (h : hull) (frame : list pt) (shape : qshape) (nx ny : Z) (rw rh lh sh : Q) (m : manager).
Hypothesis tess : make_manager frame shape nx ny rw rh lh sh = Ok m.
Hypothesis cov : covers m.
Hypothesis inside : forall p, h_contains h p = true -> within (extent m) p.
Hypothesis A : kept G w (box_candidate (h_bbox h)) (h_contains h) always <> 0.
(** The probability of cell [k] and the number of fixed points in it. *)
Definition prob (k : Z) : R := share G w (box_candidate (h_bbox h)) (h_contains h) (indicator (in_cell m k)).
Definition fixed (k : Z) : R := INR (count (in_cell m k) frame).
Notation M := (INR (List.length (cells m))).
Notation F := (INR (List.length frame)).
Definition expected (n : nat) : R :=
  M / (F + INR n) * sum_over (cells m) (fun k => INR n * prob k * (1 - prob k) + (INR n * prob k + fixed k - (F + INR n) / M) ^ 2).
Definition test (n : nat) (us : list Q) : run qresult := framed h frame n (fun pts us => qstatistic pts shape nx ny rw rh lh sh 0 h us) us.

(** The test ends whenever the points can be drawn, and the statistic has this mean. *)
Theorem C149_mean : forall n L,
  mean (2 * L) (fun us => of_run (test n us) (fun q => real_of (q_chi2 q))) = expected n * mean (2 * L) (fun us => of_run (test n us) always) /\
  mean (2 * L) (fun us => of_run (test n us) always) = mean (2 * L) (fun us => of_run (poisson h None (SInt (Z.of_nat n)) us) always) /\
  forall us q rest, test n us = Val q rest -> q_df q = (Z.of_nat (List.length (cells m)) - 1)%Z.
Proof using LW tess cov inside A.
  intros n L. unfold test, framed.
  destruct (parse_size_and_intensity h None (SInt (Z.of_nat n))) as [[[n' s'] it]|e] eqn:P.
  2:{ assert (X : forall us, poisson h None (SInt (Z.of_nat n)) us = Exc e) by (intro us; unfold poisson; rewrite P; reflexivity).
      split; [|split]; [| |intros us q rest H; rewrite X in H; discriminate H].
      - rewrite (mean_ext G w (2 * L) _ (fun _ => 0)) by (intro us; rewrite X; reflexivity). rewrite (mean_ext G w (2 * L) (fun us => of_run _ always) (fun _ => 0)) by (intro us; rewrite X; reflexivity). rewrite mean_const by exact LW. ring.
      - apply mean_ext. intro us. rewrite X. reflexivity. }
  assert (E1 : n' = Z.of_nat n /\ s' = 1%Z).
  { cbn [parse_size_and_intensity] in P. destruct (div_area (Z.of_nat n) h); [|discriminate P]. cbn [bind] in P. inversion P. split; reflexivity. }
  destruct E1 as [-> ->].
  pose proof (chance_poisson G w h None (SInt (Z.of_nat n)) (Z.of_nat n) 1 it P ltac:(lia) ltac:(lia) L) as CP.
  replace (Z.to_nat 1 * Z.to_nat (Z.of_nat n))%nat with n in CP by lia.
  pose proof (poisson_staged h None (SInt (Z.of_nat n)) (Z.of_nat n) 1 it P ltac:(lia) ltac:(lia)) as PS.
  replace (Z.to_nat 1 * Z.to_nat (Z.of_nat n))%nat with n in PS by lia.
  set (mk := box_candidate (h_bbox h)) in *.
  assert (RUN : forall us a rest, poisson h None (SInt (Z.of_nat n)) us = Val a rest -> exists q, qstatistic (frame ++ arr_points a) shape nx ny rw rh lh sh 0 h rest = Val q rest /\
     q_df q = (Z.of_nat (List.length (cells m)) - 1)%Z /\
     real_of (q_chi2 q) = M / (F + INR n) * sum_over (cells m) (fun k => (INR (count (in_cell m k) (arr_points a)) + (fixed k - (F + INR n) / M)) * (INR (count (in_cell m k) (arr_points a)) + (fixed k - (F + INR n) / M)))).
  { intros us a rest H. specialize (PS us). rewrite H in PS. cbn [rbind] in PS. symmetry in PS. apply staged_fits in PS. destruct PS as [PL PI]. rewrite repeat_length in PL.
    destruct (framed_chi2 frame shape nx ny rw rh lh sh m (arr_points a) h rest tess cov) as [q [Q1 [_ [Q3 Q4]]]]; [intros p I; apply inside, PI, I|].
    exists q. split; [exact Q1|]. split; [exact Q3|]. rewrite Q4, PL, plus_INR. reflexivity. }
  set (stat := fun l : list pt => M / (F + INR n) * sum_over (cells m) (fun k => (INR (count (in_cell m k) l) + (fixed k - (F + INR n) / M)) * (INR (count (in_cell m k) l) + (fixed k - (F + INR n) / M)))).
  assert (END : mean (2 * L) (fun us => of_run (rbind (poisson h None (SInt (Z.of_nat n)) us) (fun a us0 => qstatistic (frame ++ arr_points a) shape nx ny rw rh lh sh 0 h us0)) always) =
                mean (2 * L) (fun us => of_run (poisson h None (SInt (Z.of_nat n)) us) always)).
  { apply mean_ext. intro us. destruct (poisson h None (SInt (Z.of_nat n)) us) as [a rest| |] eqn:E; cbn [rbind of_run]; try reflexivity. destruct (RUN us a rest E) as [q [-> _]]. reflexivity. }
  split; [|split; [exact END|]].
  - rewrite END. transitivity (mean (2 * L) (fun us => of_run (poisson h None (SInt (Z.of_nat n)) us) (fun a => stat (arr_points a)))).
    { apply mean_ext. intro us. destruct (poisson h None (SInt (Z.of_nat n)) us) as [a rest| |] eqn:E; cbn [rbind of_run]; try reflexivity. destruct (RUN us a rest E) as [q [-> [_ X]]]. exact X. }
    rewrite CP. pose proof (law_joint G w (h_contains h) LW L (repeat mk n) stat) as LJ. unfold law in LJ. rewrite all_power in LJ.
    assert (AL : mean (2 * L) (fun us => of_run (poisson h None (SInt (Z.of_nat n)) us) always) = mean (2 * L) (fun us => of_run (staged (h_contains h) us (repeat mk n)) (fun _ => 1))) by (rewrite <- (CP (fun _ => 1)); reflexivity).
    rewrite AL. apply Rmult_eq_reg_r with (kept G w mk (h_contains h) always ^ n); [|apply pow_nonzero; exact A]. rewrite LJ.
    assert (MM : kept_all G w (h_contains h) (repeat mk n) stat = expected n * kept G w mk (h_contains h) always ^ n); [|rewrite MM; ring].
    unfold stat. rewrite all_scale, all_sum. unfold expected. rewrite !Rmult_assoc. f_equal.
    rewrite (Rmult_comm (sum_over _ _)), <- so_scale. apply so_ext. intros k _. rewrite moment_shift by exact A. change (share G w mk (h_contains h) (indicator (in_cell m k))) with (prob k). replace (INR n * prob k + (fixed k - (F + INR n) / M)) with (INR n * prob k + fixed k - (F + INR n) / M) by ring. ring.
  - intros us q rest H. destruct (poisson h None (SInt (Z.of_nat n)) us) as [a r0| |] eqn:E; cbn [rbind] in H; try discriminate H. destruct (RUN us a r0 E) as [q' [X [Y _]]]. rewrite X in H. inversion H; subst. exact Y.
Qed.

(** Cells of equal probability, and as many fixed points in each cell: the mean is the
    number of degrees of freedom, reduced by the share of the fixed points. *)
Theorem C149_even : forall n, (forall k, In k (cells m) -> prob k = 1 / M /\ fixed k = F / M) -> 0 < F + INR n -> cells m <> [] ->
  expected n = (M - 1) * (INR n / (F + INR n)).
Proof using.
  intros n H N0 NE. assert (M0 : 0 < M) by (apply lt_0_INR; destruct (cells m); [congruence|cbn; lia]).
  unfold expected. rewrite (so_ext _ (cells m) _ (fun _ => INR n * (1 / M) * (1 - 1 / M))).
  - rewrite so_const. field. lra.
  - intros k K. destruct (H k K) as [-> ->]. replace (INR n * (1 / M) + F / M - (F + INR n) / M) with 0 by (field; lra). ring.
Qed.

(** Cells of unequal probability: the mean grows beyond every bound with the number of
    points, while the p-value is read off the same chi-square law, with the number of
    cells less one as degrees of freedom. *)
Theorem C149_uneven_refuted : forall j, In j (cells m) -> prob j <> 1 / M -> forall bound, exists n0, forall n, (n0 <= n)%nat ->
  bound < expected n /\
  forall L, bound * mean (2 * L) (fun us => of_run (test n us) always) <= mean (2 * L) (fun us => of_run (test n us) (fun q => real_of (q_chi2 q))).
Proof using LW tess cov inside A.
  intros j J NE bound. assert (M0 : 0 < M) by (apply lt_0_INR; destruct (cells m); [destruct J|cbn; lia]).
  set (d := Rabs (prob j - 1 / M)). set (c := Rabs (fixed j - F / M)). assert (D0 : 0 < d) by (apply Rabs_pos_lt; lra). assert (C0 : 0 <= c) by apply Rabs_pos.
  destruct (above (2 * c / d)) as [n1 N1]. destruct (above (8 * Rabs bound / (M * d * d))) as [n2 N2].
  exists (S (n1 + n2 + List.length frame)). intros n LE.
  assert (I1 : INR n1 <= INR n) by (apply le_INR; lia). assert (I2 : INR n2 <= INR n) by (apply le_INR; lia). assert (I3 : F <= INR n) by (apply le_INR; lia). assert (I4 : 1 <= INR n) by (change 1 with (INR 1); apply le_INR; lia).
  pose proof (pos_INR (List.length frame)) as F0.
  assert (P2 : 2 * c <= INR n * d) by (apply Rmult_le_reg_r with (/ d); [apply Rinv_0_lt_compat, D0|]; unfold Rdiv in N1; rewrite (Rmult_assoc (INR n)), Rinv_r by lra; lra).
  assert (MD : 0 < M * d * d) by (repeat apply Rmult_lt_0_compat; assumption).
  assert (P3 : 8 * Rabs bound < INR n * (M * d * d)).
  { apply Rmult_lt_reg_r with (/ (M * d * d)); [apply Rinv_0_lt_compat, MD|]. unfold Rdiv in N2. rewrite (Rmult_assoc (INR n)), Rinv_r by lra. lra. }
  assert (BIG : bound < expected n).
  { set (t := INR n * prob j + fixed j - (F + INR n) / M). assert (T : t = INR n * (prob j - 1 / M) + (fixed j - F / M)) by (unfold t; field; lra).
    assert (AT : INR n * d / 2 <= Rabs t).
    { rewrite T. pose proof (Rabs_triang_inv (INR n * (prob j - 1 / M)) (- (fixed j - F / M))) as X. rewrite Rabs_Ropp, Rabs_mult, (Rabs_pos_eq (INR n)) in X by lra. fold c d in X. replace (INR n * (prob j - 1 / M) - - (fixed j - F / M)) with (INR n * (prob j - 1 / M) + (fixed j - F / M)) in X by ring. lra. }
    assert (T2 : INR n * d / 2 * (INR n * d / 2) <= t ^ 2).
    { rewrite <- (Rsqr_pow2 t), Rsqr_abs. unfold Rsqr. assert (0 <= INR n * d / 2) by (apply Rmult_le_pos; [apply Rmult_le_pos; lra|lra]). apply Rmult_le_compat; assumption. }
    assert (TERM : t ^ 2 <= sum_over (cells m) (fun k => INR n * prob k * (1 - prob k) + (INR n * prob k + fixed k - (F + INR n) / M) ^ 2)).
    { assert (V0 : forall k, 0 <= INR n * prob k * (1 - prob k)) by (intro k; destruct (share_range G w (h_contains h) (box_candidate (h_bbox h)) (in_cell m k) A LW) as [S0 S1]; unfold prob; apply Rmult_le_pos; [apply Rmult_le_pos; lra|lra]).
      eapply Rle_trans; [|apply (so_single Z (cells m) (fun k => INR n * prob k * (1 - prob k) + (INR n * prob k + fixed k - (F + INR n) / M) ^ 2) j J)].
      - cbn beta. fold t. pose proof (V0 j). lra.
      - intros k _. pose proof (V0 k). pose proof (pow2_ge_0 (INR n * prob k + fixed k - (F + INR n) / M)). lra. }
    unfold expected. set (S1 := sum_over _ _) in *.
    assert (S2 : INR n * d / 2 * (INR n * d / 2) <= S1) by lra.
    apply Rmult_lt_reg_r with (F + INR n); [lra|]. replace (M / (F + INR n) * S1 * (F + INR n)) with (M * S1) by (field; lra).
    assert (B1 : bound <= Rabs bound) by apply Rle_abs.
    assert (B2 : bound * (F + INR n) <= Rabs bound * (2 * INR n)) by (pose proof (Rabs_pos bound); apply Rle_trans with (Rabs bound * (F + INR n)); [apply Rmult_le_compat_r; lra|apply Rmult_le_compat_l; lra]).
    assert (B3 : M * (INR n * d / 2 * (INR n * d / 2)) <= M * S1) by (apply Rmult_le_compat_l; lra).
    assert (B4 : 8 * Rabs bound * INR n < INR n * (M * d * d) * INR n) by (apply Rmult_lt_compat_r; lra). lra. }
  split; [exact BIG|]. intro L. destruct (C149_mean n L) as [-> _]. apply Rmult_le_compat_r; [|lra].
  rewrite <- (mean_const G w LW (2 * L) 0) at 1. apply mean_le; [exact LW|]. intro us. destruct (test n us); cbn; unfold always; lra.
Qed.
End Law.
Print Assumptions C149_covers.
Print Assumptions C149_mean.
Print Assumptions C149_even.
Print Assumptions C149_uneven_refuted.

(** ** A concrete case *)
(** Numbers 1/4 and 3/4 with equal probability, the square with side 3 and its corners.
    With 2 x 2 rectangles the mean is 3 n / (4 + n); with hexagons of side 2 the three
    cells have probabilities 1/4, 1/2 and 1/4, and the mean of the statistic of 1000
    points is above 120, with 2 degrees of freedom. *)
Definition g2 : list Q := [(1 # 4)%Q; (3 # 4)%Q].
Definition w2 (_ : Q) : R := 1 / 2.
Definition square3 : hull := bbox_hull (mkbox 0 0 3 3).
Definition corners : list pt := [(0, 0); (3, 0); (0, 3); (3, 3)]%Q.
Definition grid22 : manager := match make_manager corners ShRect 2 2 0 0 0 0 with Ok m => m | Raise _ => MRect (mkrect [] (mkbox 0 0 0 0) 0 0 NaN NaN 0) end.
Definition hexes : manager := match make_manager corners ShHex 0 0 0 0 2 (7 # 4) with Ok m => m | Raise _ => grid22 end.
Example C149_case : is_law g2 w2 /\ kept g2 w2 (box_candidate (h_bbox square3)) (h_contains square3) always <> 0 /\
  make_manager corners ShRect 2 2 0 0 0 0 = Ok grid22 /\ covers grid22 /\ (forall p, h_contains square3 p = true -> within (extent grid22) p) /\
  (forall n, expected g2 w2 square3 corners grid22 n = 3 * (INR n / (4 + INR n))) /\
  make_manager corners ShHex 0 0 0 0 2 (7 # 4) = Ok hexes /\ covers hexes /\ (forall p, h_contains square3 p = true -> within (extent hexes) p) /\
  cells hexes = [0; 1; 2]%Z /\ map (prob g2 w2 square3 hexes) [0; 1; 2]%Z = [1 / 4; 1 / 2; 1 / 4] /\
  120 < expected g2 w2 square3 corners hexes 1000.
Proof.
  assert (K : kept g2 w2 (box_candidate (h_bbox square3)) (h_contains square3) always = 1) by (unfold kept, mean1, g2, w2, always; cbn; lra).
  assert (IN : forall p, h_contains square3 p = true -> (0 <= fst p <= 3 /\ 0 <= snd p <= 3)%Q).
  { intros p H. cbn [h_contains square3 bbox_hull] in H. unfold box_contains in H. cbn in H. qb. repeat split; auto. }
  assert (PR : forall m k, prob g2 w2 square3 m k = kept g2 w2 (box_candidate (h_bbox square3)) (h_contains square3) (indicator (in_cell m k))) by (intros m k; unfold prob, share; rewrite K; field).
  split; [split; [intros; unfold w2; lra|unfold mean1, g2, w2; cbn; lra]|]. split; [rewrite K; lra|]. split; [reflexivity|]. split; [|split; [|split; [|split; [|split; [|split; [|split; [|split]]]]]]].
  - apply (C149_covers corners ShRect 2 2 0 0 0 0 grid22 eq_refl). cbn. split; [exists (0, 0)%Q, (3, 0)%Q; cbn; repeat split; auto; lra|]. split; [exists (0, 0)%Q, (0, 3)%Q; cbn; repeat split; auto|].
    right. repeat split; [left; reflexivity|lia|lia].
  - intros p H. apply IN in H. exact H.
  - intro n. rewrite (C149_even g2 w2 square3 corners grid22 n).
    + change (List.length (cells grid22)) with 4%nat. change (List.length corners) with 4%nat. cbn [INR]. field. pose proof (pos_INR n). lra.
    + change (cells grid22) with [0; 1; 2; 3]%Z. intros k I. rewrite PR. change (List.length [0; 1; 2; 3]%Z) with 4%nat. change (List.length corners) with 4%nat.
      repeat destruct I as [<-|I]; try destruct I; (split; [unfold kept, mean1, g2, w2, indicator; cbn; lra|unfold fixed; cbn; lra]).
    + change (List.length corners) with 4%nat. pose proof (pos_INR n). cbn [INR]. lra.
    + discriminate.
  - reflexivity.
  - apply (C149_covers corners ShHex 0 0 0 0 2 (7 # 4) hexes eq_refl). cbn. split; [reflexivity|]. split; [reflexivity|]. split; intros k H; [unfold Qeq in H; cbn in H; lia|].
    assert (E : (inject_Z 3 == inject_Z (3 * k + 1))%Q) by (rewrite inject_Z_plus, inject_Z_mult; change (inject_Z 1) with 1%Q; change (inject_Z 3) with 3%Q; transitivity (3 - 0)%Q; [reflexivity|]; rewrite H; field).
    unfold Qeq, inject_Z in E; cbn [Qnum Qden] in E. lia.
  - intros p H. apply IN in H. exact H.
  - reflexivity.
  - cbn [map]. rewrite !PR. f_equal; [|f_equal; [|f_equal]]; unfold kept, mean1, g2, w2, indicator; cbn; lra.
  - unfold expected. change (cells hexes) with [0; 1; 2]%Z. change (List.length [0; 1; 2]%Z) with 3%nat. change (List.length corners) with 4%nat. unfold sum_over. cbn [map fold_right]. rewrite !PR.
    assert (P0 : kept g2 w2 (box_candidate (h_bbox square3)) (h_contains square3) (indicator (in_cell hexes 0)) = 1 / 4) by (unfold kept, mean1, g2, w2, indicator; cbn; lra).
    assert (P1 : kept g2 w2 (box_candidate (h_bbox square3)) (h_contains square3) (indicator (in_cell hexes 1)) = 1 / 2) by (unfold kept, mean1, g2, w2, indicator; cbn; lra).
    assert (P2 : kept g2 w2 (box_candidate (h_bbox square3)) (h_contains square3) (indicator (in_cell hexes 2)) = 1 / 4) by (unfold kept, mean1, g2, w2, indicator; cbn; lra).
    change (fixed corners hexes 0) with (INR 1). change (fixed corners hexes 1) with (INR 2). change (fixed corners hexes 2) with (INR 1).
    rewrite P0, P1, P2. replace (INR 1000) with 1000 by (rewrite INR_IZR_INZ; reflexivity). cbn [INR]. lra.
Qed.
