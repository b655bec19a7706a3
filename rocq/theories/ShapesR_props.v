(** C129, real part: std_distance, dtot and ellipse on array-likes of any shape. *)
From Coq Require Import Reals Ratan List Bool String Arith Lia Lra.
From Verif Require Import Base CenterR_model CenterR_spec CenterR_proofs Shapes_model ShapesR_model Shapes_spec Shapes_props.
Import ListNotations.
Local Open Scope R_scope.

Lemma col_var_value : forall l, l <> [] -> col_var l = variance l.
Proof.
  intros l N. unfold col_var, variance. pose proof (var_identity R (fun x => x) l N) as V. unfold mean_of in V.
  unfold mean. rewrite map_length. unfold Rsum in *. rewrite map_id in V. symmetry. exact V.
Qed.

Lemma variance_nonneg : forall l, l <> [] -> 0 <= variance l.
Proof.
  intros l N. unfold variance, mean. rewrite map_length. pose proof (INR_len_pos _ l N) as P.
  apply Rmult_le_pos; [|left; apply Rinv_0_lt_compat; exact P].
  apply (Rsum_nonneg R (fun x => (x - fold_right Rplus 0 l / INR (List.length l)) ^ 2)). intros x _. apply pow2_ge_0.
Qed.

Lemma variance_zero : forall l, l <> [] -> (variance l = 0 <-> constant l).
Proof.
  intros l N. pose proof (INR_len_pos _ l N) as P. split.
  - intros V. unfold variance in V. unfold mean at 1 in V. rewrite map_length in V.
    assert (Z : Rsum (map (fun x => (x - mean l) ^ 2) l) = 0).
    { unfold Rsum. apply (Rmult_eq_reg_r (/ INR (List.length l))); [|apply Rinv_neq_0_compat; lra].
      rewrite Rmult_0_l. exact V. }
    assert (E : forall x, In x l -> x = mean l).
    { intros x I. pose proof (Rsum_zero R (fun x => (x - mean l) ^ 2) l (fun x _ => pow2_ge_0 _) Z x I) as Q.
      cbv beta in Q. assert (S : x - mean l = 0) by (apply Rsqr_0_uniq; unfold Rsqr; lra). lra. }
    intros x y I J. rewrite (E x I), (E y J). reflexivity.
  - intros C. destruct l as [|a l]; [congruence|].
    assert (E : forall x, In x (a :: l) -> x = a) by (intros x I; apply C; [exact I|left; reflexivity]).
    set (q := a :: l) in *.
    assert (M : mean q = a).
    { unfold mean. rewrite <- (map_id q) at 1. rewrite (map_ext_in (fun x => x) (fun _ => a) q E).
      change (fold_right Rplus 0 (map (fun _ : R => a) q)) with (Rsum (map (fun _ : R => a) q)). rewrite Rsum_const. field. lra. }
    unfold variance. rewrite M. unfold mean. rewrite map_length.
    rewrite (map_ext_in (fun x => (x - a) ^ 2) (fun _ => 0) q) by (intros x I; rewrite (E x I); ring).
    change (fold_right Rplus 0 (map (fun _ : R => 0) q)) with (Rsum (map (fun _ : R => 0) q)). rewrite Rsum_const. unfold Rdiv. ring.
Qed.

Lemma rsum_app : forall a b, Rsum (a ++ b) = Rsum a + Rsum b.
Proof. unfold Rsum. induction a as [|x a IH]; intro b; cbn [app fold_right]; [ring|]. rewrite IH. ring. Qed.

(** Sequences: as arrays, except that an ellipse with no method is reported with
    another exception. *)
Theorem C129_sequences_real : forall (s : seqarg R),
  (~ ragged s /\ exists a, asarray s = Ok a /\
     dispatch std_distance_arr (PSeq s) = dispatch std_distance_arr (PArr a) /\
     (forall w m cs df, ellipse_seq w (Some m) cs df s = ellipse_arr w (Some m) cs df a) /\
     (forall w cs df, ellipse_seq w None cs df s = Raise NotImplementedError /\ ellipse_arr w None cs df a = Raise AttributeError)) \/
  (ragged s /\ dispatch std_distance_arr (PSeq s) = Raise ValueError /\
     forall w m cs df, ellipse_seq w m cs df s = Raise ValueError).
Proof.
  intro s. destruct (asarray_cases R s) as [(G & E)|(G & a & E)].
  - right. split; [exact G|]. cbn [dispatch]. split; [apply via_ragged; exact E|]. intros. apply via_ragged. exact E.
  - left. split; [exact G|]. exists a. split; [exact E|]. cbn [dispatch]. split; [|split].
    + apply via_ok; [exact E|]. destruct a as [x|l|k [|r rows]]; discriminate.
    + intros w m cs df. apply via_ok; [exact E|]. unfold ellipse_arr. destruct (negb _); [discriminate|].
      destruct (xy_columns a) as [pts|e] eqn:X; cbn [bind].
      * unfold ellipse. destruct (negb _); [discriminate|].
        destruct w as [w|]; [destruct (Nat.eqb _ _); cbn [bind]; [|discriminate]|cbn [bind]];
          (destruct (Req_EM_T _ 0); [discriminate|]); (destruct (ellipse_angles _ _ _)); (destruct (xgt _ _)); discriminate.
      * intro Q. injection Q as ->. unfold xy_columns in X. destruct a; try discriminate. destruct (Nat.leb 2 k); discriminate.
    + intros w cs df. split; [|reflexivity]. unfold ellipse_seq, via_asarray. rewrite E. reflexivity.
Qed.
Print Assumptions C129_sequences_real.

(** Which shapes are accepted: two dimensions for std_distance; at least two
    columns for dtot (and at least two numbers for the place) and ellipse. *)
Theorem C129_shapes_real : forall (a c : arr R),
  (succeeds (std_distance_arr a) <-> ndim a = 2%nat) /\ (ndim a <> 2%nat -> std_distance_arr a = Raise ValueError) /\
  (succeeds (dtot_arr c a) <-> (2 <= ncols a)%nat /\ ndim c = 1%nat /\ (2 <= nrows c)%nat) /\
  (forall e, dtot_arr c a = Raise e -> e = IndexError) /\
  (forall w m cs df, lower m = "crimestat"%string \/ lower m = "yuill"%string ->
     (ellipse_arr w (Some m) cs df a = Raise IndexError <-> (ncols a < 2)%nat)) /\
  (forall w m cs df, lower m <> "crimestat"%string -> lower m <> "yuill"%string ->
     ellipse_arr w (Some m) cs df a = Raise ValueError).
Proof.
  intros a c.
  assert (X : (exists p, xy_columns a = Ok p /\ (2 <= ncols a)%nat) \/ (xy_columns a = Raise IndexError /\ (ncols a < 2)%nat)).
  { destruct a as [x|l|k rows]; cbn [ncols xy_columns]; try (right; split; [reflexivity|lia]).
    destruct (Nat.leb_spec 2 k) as [K|K]; [left; eexists; split; [reflexivity|exact K]|right; split; [reflexivity|exact K]]. }
  assert (Y : (exists p, coord_xy c = Ok p /\ ndim c = 1%nat /\ (2 <= nrows c)%nat) \/
              (coord_xy c = Raise IndexError /\ ~ (ndim c = 1%nat /\ (2 <= nrows c)%nat))).
  { destruct c as [x|[|x [|y l]]|k rows]; cbn [ndim nrows coord_xy List.length];
      try (right; split; [reflexivity|intros (H & H'); lia || discriminate]).
    left. eexists. split; [reflexivity|]. split; [reflexivity|lia]. }
  split; [|split; [|split; [|split; [|split]]]].
  - split.
    + destruct a as [x|l|k rows]; intros (v & E); try discriminate. reflexivity.
    + destruct a as [x|l|k [|r rows]]; intro E; try discriminate; eexists; reflexivity.
  - destruct a as [x|l|k rows]; intro E; try reflexivity. exfalso. apply E. reflexivity.
  - unfold dtot_arr. destruct X as [(p & -> & K)|(-> & K)]; cbn [bind].
    + destruct Y as [(q & -> & C)|(-> & C)]; cbn [bind].
      * split; [intros _; split; assumption|intros _; eexists; reflexivity].
      * split; [intros (v & E); discriminate|intros (_ & H); contradiction].
    + split; [intros (v & E); discriminate|intros (H & _); lia].
  - intros e. unfold dtot_arr. destruct X as [(p & -> & K)|(-> & K)]; cbn [bind]; [|congruence].
    destruct Y as [(q & -> & C)|(-> & C)]; cbn [bind]; congruence.
  - intros w m cs df M. unfold ellipse_arr.
    assert (G : (String.eqb (lower m) "crimestat" || String.eqb (lower m) "yuill")%bool = true).
    { apply orb_true_iff. rewrite !String.eqb_eq. exact M. }
    rewrite G. cbn [negb]. destruct X as [(p & -> & K)|(-> & K)]; cbn [bind].
    + split; [|lia]. unfold ellipse. rewrite G. cbn [negb].
      destruct w as [w|]; [destruct (Nat.eqb _ _); cbn [bind]; [|discriminate]|cbn [bind]];
        (destruct (Req_EM_T _ 0); [discriminate|]); (destruct (ellipse_angles _ _ _)); (destruct (xgt _ _)); discriminate.
    + split; [intros _; exact K|intros _; reflexivity].
  - intros w m cs df N1 N2. unfold ellipse_arr.
    replace (String.eqb (lower m) "crimestat" || String.eqb (lower m) "yuill")%bool with false; [reflexivity|].
    symmetry. apply orb_false_iff. rewrite !String.eqb_neq. split; assumption.
Qed.
Print Assumptions C129_shapes_real.

Lemma ellipse_method : forall pts w m cs df,
  ~ (lower m = "crimestat"%string \/ lower m = "yuill"%string) -> ellipse pts w m cs df = Raise ValueError.
Proof.
  intros pts w m cs df N. unfold ellipse.
  replace (String.eqb (lower m) "crimestat" || String.eqb (lower m) "yuill")%bool with false; [reflexivity|].
  symmetry. apply orb_false_iff. rewrite !String.eqb_neq. tauto.
Qed.

(** dtot and ellipse read the first two columns and nothing else; on two columns
    they and std_distance are the functions of the other models. *)
Theorem C129_two_columns_real : forall k (rows : list (list R)), (2 <= k)%nat ->
  let pts := map (fun r => (nth 0 r 0, nth 1 r 0)) rows in
  (forall x y l, dtot_arr (A1 (x :: y :: l)) (A2 k rows) = Ok (dtot (x, y) pts)) /\
  (forall w m cs df, ellipse_arr w (Some m) cs df (A2 k rows) = ellipse pts w m cs df) /\
  (forall p : list rpt, std_distance_arr (of_points p) = Ok (std_distance p)).
Proof.
  intros k rows K pts.
  assert (X : xy_columns (A2 k rows) = Ok pts).
  { cbn [xy_columns]. destruct (Nat.leb_spec 2 k); [reflexivity|lia]. }
  split; [|split].
  - intros x y l. unfold dtot_arr. rewrite X. reflexivity.
  - intros w m cs df. unfold ellipse_arr. rewrite X. cbn [bind].
    destruct (String.eqb (lower m) "crimestat" || String.eqb (lower m) "yuill")%bool eqn:G; [reflexivity|].
    cbn [negb]. symmetry. apply ellipse_method. intro M. rewrite <- !String.eqb_eq, <- orb_true_iff in M. congruence.
  - intro p. unfold of_points. destruct p as [|q p]; [reflexivity|].
    cbn [std_distance_arr map].
    change ([fst q; snd q] :: map (fun p : R * R => [fst p; snd p]) p) with (map (fun p : R * R => [fst p; snd p]) (q :: p)).
    unfold std_distance. f_equal. f_equal. f_equal. unfold per_column, col. cbn [seq]. 
    assert (C : forall f : rpt -> R, col_var (map f (q :: p)) =
      Rsum (map (fun p => f p * f p) (q :: p)) / INR (List.length (q :: p)) -
      Rsum (map f (q :: p)) / INR (List.length (q :: p)) * (Rsum (map f (q :: p)) / INR (List.length (q :: p)))).
    { intro f. unfold col_var. rewrite map_map, map_length. reflexivity. }
    cbn [map] in *. rewrite !map_map. cbn [nth].
    pose proof (C fst) as C1. pose proof (C snd) as C2. cbn [map] in C1, C2.
    change (fun x : R * R => fst x) with (@fst R R). change (fun x : R * R => snd x) with (@snd R R).
    rewrite C1, C2. cbn [Rsum fold_right]. rewrite Rplus_0_r. reflexivity.
Qed.
Print Assumptions C129_two_columns_real.

(** The standard distance is the root of the sum of the variances of all columns;
    leaving out the columns after the second (as GeoPandas layers do with
    heights) never gives more, and gives the same exactly if each of these
    columns is constant. *)
Lemma std_value : forall k rows, rows <> [] ->
  std_distance_arr (A2 k rows) = Ok (Some (sqrt (Rsum (map (fun j => variance (col 0 j rows)) (seq 0 k))))).
Proof.
  intros k rows N. destruct rows as [|r rows]; [congruence|]. cbn [std_distance_arr]. do 3 f_equal. f_equal.
  unfold per_column. apply map_ext_in. intros j _. apply col_var_value. discriminate.
Qed.

Lemma col_firstn : forall j rows, (j < 2)%nat -> @col R 0 j (map (firstn 2) rows) = col 0 j rows.
Proof.
  intros j rows J. unfold col. rewrite map_map. apply map_ext. intro r.
  destruct r as [|x [|y r]]; destruct j as [|[|j]]; try reflexivity; lia.
Qed.

Theorem C129_heights : forall k (rows : list (list R)), (2 <= k)%nat -> rows <> [] ->
  exists s t, dispatch std_distance_arr (PArr (A2 k rows)) = Ok (Some s) /\
    dispatch std_distance_arr (PLayer rows) = Ok (Some t) /\
    s = sqrt (Rsum (map (fun j => variance (map (fun r => nth j r 0) rows)) (seq 0 k))) /\
    t = sqrt (variance (map (fun r => nth 0 r 0) rows) + variance (map (fun r => nth 1 r 0) rows)) /\
    t <= s /\
    (t = s <-> forall j, (2 <= j < k)%nat -> constant (map (fun r => nth j r 0) rows)).
Proof.
  intros k rows K N.
  assert (NL : map (firstn 2) rows <> []) by (destruct rows; [congruence|discriminate]).
  cbn [dispatch]. unfold layer_coords. rewrite (std_value k rows N), (std_value 2 _ NL).
  cbn [seq map]. rewrite !col_firstn by lia.
  set (V := fun j => variance (col 0 j rows)).
  assert (NC : forall j, @col R 0 j rows <> []) by (intro j; destruct rows; [congruence|discriminate]).
  assert (VN : forall j, 0 <= V j) by (intro j; apply variance_nonneg, NC).
  assert (SP : Rsum (map V (seq 0 k)) = V 0%nat + V 1%nat + Rsum (map V (seq 2 (k - 2)))).
  { replace k with (2 + (k - 2))%nat at 1 by lia. rewrite seq_app, map_app, rsum_app. cbn [seq map]. unfold Rsum. cbn [fold_right Nat.add]. ring. }
  assert (RN : 0 <= Rsum (map V (seq 2 (k - 2)))) by (apply Rsum_nonneg; intros; apply VN).
  change (variance (col 0 0 rows)) with (V 0%nat). change (variance (col 0 1 rows)) with (V 1%nat).
  assert (S2 : Rsum [V 0%nat; V 1%nat] = V 0%nat + V 1%nat) by (unfold Rsum; cbn [fold_right]; ring). rewrite S2.
  exists (sqrt (Rsum (map V (seq 0 k)))), (sqrt (V 0%nat + V 1%nat)).
  split; [reflexivity|]. split; [reflexivity|]. split; [reflexivity|]. split; [reflexivity|].
  rewrite SP. pose proof (VN 0%nat) as V0. pose proof (VN 1%nat) as V1.
  split; [apply sqrt_le_1; lra|]. split.
  - intro E. apply sqrt_inj in E; [|lra|lra].
    assert (Z : Rsum (map V (seq 2 (k - 2))) = 0) by lra.
    intros j J. apply variance_zero; [apply (NC j)|].
    apply (Rsum_zero nat V (seq 2 (k - 2))); [intros; apply VN|exact Z|]. apply in_seq. lia.
  - intro C. f_equal.
    replace (Rsum (map V (seq 2 (k - 2)))) with 0; [ring|]. symmetry.
    rewrite (map_ext_in V (fun _ => 0)); [rewrite Rsum_const; ring|].
    intros j J. apply in_seq in J. apply variance_zero; [apply NC|]. apply C. lia.
Qed.
Print Assumptions C129_heights.

(** dtot chooses by the type of the place alone: with an array as the place, the
    points cannot be a list. *)
Theorem C129_dtot_forms_refuted : forall (c : arr R) (s t : seqarg R) (a : arr R),
  asarray s = Ok c -> asarray t = Ok a ->
  dtot_call (inl c) (inl a) = dtot_call (inr s) (inl a) /\ dtot_call (inr s) (inr t) = dtot_call (inr s) (inl a) /\
  dtot_call (inl c) (inr t) = Raise TypeError.
Proof. intros c s t a S T. unfold dtot_call. rewrite S, T. repeat split. Qed.
Print Assumptions C129_dtot_forms_refuted.

Example C129_case_real :
  std_distance_arr (A2 3 [[0; 0; 0]; [0; 0; 2]]) = Ok (Some 1) /\
  dispatch std_distance_arr (PLayer [[0; 0; 0]; [0; 0; 2]]) = Ok (Some 0) /\
  dtot_arr (A1 [0; 0; 7]) (A2 3 [[3; 4; 9]; [0; 2; 1]]) = Ok (5 + (2 + 0)) /\
  dtot_arr (A1 [0; 0]) (A2 1 [[3]; [4]]) = Raise IndexError /\
  ellipse_seq None None true true (SRows [[0; 0]; [1; 2]]) = Raise NotImplementedError.
Proof.
  split; [|split; [|split; [|split]]].
  - cbn [std_distance_arr]. do 2 f_equal. rewrite <- sqrt_1. f_equal. unfold per_column, col, col_var, Rsum. cbn [map seq nth fold_right List.length INR firstn]. field.
  - cbn [dispatch layer_coords std_distance_arr map firstn]. do 2 f_equal. rewrite <- sqrt_0. f_equal. unfold per_column, col, col_var, Rsum. cbn [map seq nth fold_right List.length INR firstn]. field.
  - unfold dtot_arr. cbn. unfold dtot. cbn. do 2 f_equal; [|f_equal].
    + replace ((3 - 0) * (3 - 0) + (4 - 0) * (4 - 0)) with (5 * 5) by ring. apply sqrt_square. lra.
    + replace ((0 - 0) * (0 - 0) + (2 - 0) * (2 - 0)) with (2 * 2) by ring. apply sqrt_square. lra.
  - reflexivity.
  - reflexivity.
Qed.
