(** Theorems about point patterns, with the cases that illustrate them. *)
From Coq Require Import ZArith QArith Qabs Qminmax List Bool String Sorted Permutation Lia Lqa.
From Verif Require Import Base BaseLemmas Quadrat_model Geometry_model Centrography_model Pattern_model
  Pattern_spec Pattern_proofs PatternRows_proofs PatternRing_proofs.
Import ListNotations.
Local Open Scope Q_scope.

(** Example data: an unmarked and a marked pattern. *)
Definition nrow (x y : Q) : drow := [CNum x; CNum y].
Definition mrow (x y : Q) (m : cell) : drow := [CNum x; CNum y; m].
Definition ex_rows : list drow := [nrow 1 3; nrow 4 5; nrow 0 0; nrow 4 5].
Definition ex : res pattern := fst (pattern_init 2 ex_rows None None None).
Definition ex_marked_rows : list drow :=
  [mrow 1 3 (CStr "b"); mrow 4 5 (CStr "a"); mrow 0 0 (CStr "b"); mrow 2 2 (CStr "a")].
Definition ex_marked : res pattern := fst (pattern_init 3 ex_marked_rows None None None).

(** ** C01 *)
Lemma py_min_spec : forall l x, py_min x l == Qmin_list x l.
Proof.
  assert (G : forall l x y, x == y -> py_min x l == fold_left Qmin l y).
  { induction l; simpl; intros x y E; auto. apply IHl.
    destruct (Qltb a x) eqn:C; qb; destruct (Q.min_spec y a) as [[A B]|[A B]]; rewrite B; lra. }
  intros. apply G. reflexivity.
Qed.
Lemma py_max_spec : forall l x, py_max x l == Qmax_list x l.
Proof.
  assert (G : forall l x y, x == y -> py_max x l == fold_left Qmax l y).
  { induction l; simpl; intros x y E; auto. apply IHl.
    destruct (Qltb x a) eqn:C; qb; destruct (Q.max_spec y a) as [[A B]|[A B]]; rewrite B; lra. }
  intros. apply G. reflexivity.
Qed.

Theorem C01_mbb_tight : forall p rows w names cn s,
  fst (pattern_init p rows w names cn) = Ok s -> p_pts s <> [] ->
  exists b, fst (read_mbb s) = Some b /\ tight_box b (p_pts s) /\
    (forall c, (forall q, In q (p_pts s) -> covers c q) -> box_inside b c) /\
    geo_bbox (Pts (p_pts s)) = Ok b /\ compute_mbb (p_pts s) = Ok b /\
    exists x0 y0 x1 y1, minimum_bounding_rectangle (p_pts s) = Ok (x0, y0, x1, y1) /\
      x0 == bxmin b /\ y0 == bymin b /\ x1 == bxmax b /\ y1 == bymax b.
Proof.
  intros p rows w names cn s H N.
  destruct (init_ok (fun l => l) _ _ _ _ _ _ H) as [C _].
  destruct (read_mbb_ok (fun l => l) s C) as [[V _] _]. unfold mbb_of in V.
  destruct (compute_mbb (p_pts s)) as [b|] eqn:E; [|destruct (p_pts s); [tauto|discriminate]].
  exists b. split; [exact V|]. pose proof (mbb_tight_box _ _ E) as T.
  split; [exact T|]. split; [apply tight_box_least; exact T|]. split; [exact E|]. split; [reflexivity|].
  destruct (p_pts s) as [|q l]; [tauto|]. simpl in E. inversion E; subst b; clear E.
  simpl. do 4 eexists. split; [reflexivity|].
  split; [apply py_min_spec|]. split; [apply py_min_spec|]. split; apply py_max_spec.
Qed.
Print Assumptions C01_mbb_tight.

Example C01_case : exists s, ex = Ok s /\ fst (read_mbb s) = Some (mkbox 0 0 4 5).
Proof. eexists. split; vm_compute; reflexivity. Qed.

(** ** C02 *)
Theorem C02_default_window : forall p rows names cn s,
  fst (pattern_init p rows None names cn) = Ok s -> p_pts s <> [] ->
  exists b a1 a2 l1 l2, fst (read_mbb s) = Some b /\
    fst (get_window s) = WPoly [[(bxmin b, bymin b); (bxmin b, bymax b); (bxmax b, bymax b);
                                 (bxmax b, bymin b); (bxmin b, bymin b)]] /\
    window_area (fst (get_window s)) = Some a1 /\ fst (read_mbb_area s) = Fin a2 /\ a1 == a2 /\
    fst (read_lambda_window s) = Ok l1 /\ fst (read_lambda_mbb s) = l2 /\ xsame l1 l2.
Proof.
  intros p rows names cn s H N.
  destruct (init_ok (fun l => l) _ _ _ _ _ _ H) as [C [L W]].
  destruct (read_mbb_ok (fun l => l) s C) as [[V _] _].
  destruct (read_mbb_area_ok (fun l => l) s C) as [[VA _] _].
  destruct (read_lambda_mbb_ok (fun l => l) s C) as [VL _].
  destruct (read_lambda_window_fresh (fun l => l) s C L) as [VW _].
  destruct (get_window_ok (fun l => l) s C) as [[VG _] _].
  unfold lambda_of, window_or_default in *. rewrite W in *.
  unfold mbb_of in *.
  destruct (compute_mbb (p_pts s)) as [b|] eqn:E; [|destruct (p_pts s); [tauto|discriminate]].
  destruct (tight_box_sane _ _ (mbb_tight_box _ _ E)) as [Sx Sy].
  cbn [default_window window_area mbb_area_of xdiv_area] in *.
  exists b. do 4 eexists. split; [exact V|]. split; [rewrite VG; reflexivity|].
  split; [rewrite VG; reflexivity|]. split; [exact VA|]. split; [apply bbox_ring_area; auto|].
  split; [exact VW|]. split; [exact VL|].
  apply xdiv_same; [reflexivity|apply bbox_ring_area; auto].
Qed.
Print Assumptions C02_default_window.

Example C02_case : exists s, ex = Ok s /\ exists l, fst (read_lambda_window s) = Ok (Fin l) /\ l == 1#5.
Proof. eexists. split; [vm_compute; reflexivity|]. eexists. split; vm_compute; reflexivity. Qed.

(** ** C03 *)
(** Between construction and a read any number of calls may happen, of any kind
    except changing the window; the value read is that of a fresh object with
    the same points and window. *)
Theorem C03_reads_stable : forall hullf p rows w names cn s ops a,
  fst (pattern_init p rows w names cn) = Ok s ->
  (forall o, In o ops -> match o with OSetWindow _ => False | _ => True end) ->
  fst (read hullf a (history hullf ops s)) = fst (read hullf a (forget s)).
Proof.
  intros hullf p rows w names cn s ops a H NW.
  destruct (init_ok hullf _ _ _ _ _ _ H) as [C [L W]].
  (* the window stays, and a memoised intensity is the fresh one *)
  assert (G : forall ops s1, coherent hullf s1 -> p_pts s1 = p_pts s -> p_win s1 = p_win s ->
     (forall v, c_lambda_window (p_cache s1) = Some v -> Ok v = lambda_of s) ->
     (forall o, In o ops -> match o with OSetWindow _ => False | _ => True end) ->
     let s2 := history hullf ops s1 in
     coherent hullf s2 /\ p_pts s2 = p_pts s /\ p_win s2 = p_win s /\
     (forall v, c_lambda_window (p_cache s2) = Some v -> Ok v = lambda_of s)).
  { induction ops0 as [|o l IH]; intros s1 C1 E1 W1 K1 NO; simpl; [auto|].
    destruct (step_ok hullf o s1 C1) as [S1 [S2 [S3 S4]]].
    apply IH; auto; try congruence.
    - destruct o; simpl; try (specialize (NO _ (or_introl eq_refl)); simpl in NO; tauto); auto.
      + destruct (read_step hullf a0 s1 C1) as [_ [_ [X _]]].
        destruct X as [X|[X _]]; [congruence|]. rewrite W1, W in X. discriminate.
      + unfold add_marks.
        match goal with |- context[store_marks s1 ?n ?m] => destruct (store_marks_keeps n m s1) as [A [B D]] end.
        congruence.
    - intros v Hv. destruct (c_lambda_window (p_cache s1)) as [v'|] eqn:E.
      + rewrite (S4 v' eq_refl) in Hv. inversion Hv; subst. apply K1. auto.
      + destruct o as [a0| | |]; try (rewrite S3 in Hv by discriminate; discriminate).
        destruct a0; try (rewrite S3 in Hv by discriminate; discriminate).
        simpl in Hv. destruct (read_lambda_window_fresh hullf s1 C1 E) as [X1 [X2 [X3 [X4 X5]]]].
        destruct (read_lambda_window s1) as [r s']. simpl in *. rewrite X5 in Hv.
        assert (EQ : lambda_of s1 = lambda_of s).
        { unfold lambda_of, window_or_default. rewrite E1, W1. reflexivity. }
        rewrite EQ in Hv. destruct (lambda_of s); inversion Hv; subst; auto.
    - intros o' Ho. apply NO. simpl; auto. }
  destruct (G ops s C eq_refl eq_refl) as [G1 [G2 [G3 G4]]]; auto.
  { rewrite L. discriminate. }
  set (s2 := history hullf ops s) in *.
  assert (F : forget s2 = forget s -> fst (read hullf a s2) = fst (read hullf a (forget s)) ->
              fst (read hullf a s2) = fst (read hullf a (forget s))) by auto.
  assert (FR : forall t, coherent hullf (forget t)) by (intros; constructor; simpl; discriminate).
  destruct a.
  6: { simpl. destruct (c_lambda_window (p_cache s2)) as [v|] eqn:E.
       - rewrite (read_lambda_window_memo s2 v E). simpl. specialize (G4 v eq_refl).
         destruct (read_lambda_window_fresh hullf (forget s) (FR s) eq_refl) as [V _].
         destruct (read_lambda_window (forget s)) as [r t]. simpl in *. subst r.
         change (lambda_of (forget s)) with (lambda_of s). rewrite <- G4. reflexivity.
       - destruct (read_lambda_window_fresh hullf s2 G1 E) as [V _].
         destruct (read_lambda_window_fresh hullf (forget s) (FR s) eq_refl) as [V' _].
         destruct (read_lambda_window s2) as [r t]. destruct (read_lambda_window (forget s)) as [r' t'].
         simpl in *. subst r r'.
         assert (EQ : lambda_of s2 = lambda_of (forget s)).
         { unfold lambda_of, window_or_default. simpl. rewrite G2, G3. reflexivity. }
         rewrite EQ. reflexivity. }
  all: rewrite (read_value hullf _ s2 G1) by discriminate; simpl.
  - destruct (read_mbb_ok hullf (forget s2) (FR s2)) as [[V _] _].
    destruct (read_mbb_ok hullf (forget s) (FR s)) as [[V' _] _].
    destruct (read_mbb (forget s2)), (read_mbb (forget s)). simpl in *. subst. rewrite G2. auto.
  - destruct (read_mbb_area_ok hullf (forget s2) (FR s2)) as [[V _] _].
    destruct (read_mbb_area_ok hullf (forget s) (FR s)) as [[V' _] _].
    destruct (read_mbb_area (forget s2)), (read_mbb_area (forget s)). simpl in *. subst. rewrite G2. auto.
  - destruct (read_n_ok hullf (forget s2) (FR s2)) as [[V _] _].
    destruct (read_n_ok hullf (forget s) (FR s)) as [[V' _] _].
    destruct (read_n (forget s2)), (read_n (forget s)). simpl in *. subst. rewrite G2. auto.
  - destruct (read_rot_ok hullf (forget s2) (FR s2)) as [V _].
    destruct (read_rot_ok hullf (forget s) (FR s)) as [V' _].
    destruct (read_rot (forget s2)), (read_rot (forget s)). simpl in *. subst. rewrite G2. auto.
  - destruct (read_lambda_mbb_ok hullf (forget s2) (FR s2)) as [V _].
    destruct (read_lambda_mbb_ok hullf (forget s) (FR s)) as [V' _].
    destruct (read_lambda_mbb (forget s2)), (read_lambda_mbb (forget s)). simpl in *. subst. rewrite G2. auto.
  - destruct (read_hull_ok hullf (forget s2) (FR s2)) as [[V _] _].
    destruct (read_hull_ok hullf (forget s) (FR s)) as [[V' _] _].
    destruct (read_hull hullf (forget s2)), (read_hull hullf (forget s)). simpl in *. subst. rewrite G2. auto.
  - destruct (read_hull_area_ok hullf (forget s2) (FR s2)) as [[V _] _].
    destruct (read_hull_area_ok hullf (forget s) (FR s)) as [[V' _] _].
    destruct (read_hull_area hullf (forget s2)), (read_hull_area hullf (forget s)). simpl in *. subst. rewrite G2. auto.
  - destruct (read_lambda_hull_ok hullf (forget s2) (FR s2)) as [V _].
    destruct (read_lambda_hull_ok hullf (forget s) (FR s)) as [V' _].
    destruct (read_lambda_hull hullf (forget s2)), (read_lambda_hull hullf (forget s)). simpl in *. subst. rewrite G2. auto.
  - destruct (get_window_ok hullf (forget s2) (FR s2)) as [[V _] _].
    destruct (get_window_ok hullf (forget s) (FR s)) as [[V' _] _].
    destruct (get_window (forget s2)), (get_window (forget s)). simpl in *. subst.
    unfold window_or_default. simpl. rewrite G2, G3. auto.
Qed.
Print Assumptions C03_reads_stable.

(** The values themselves, for a constructed pattern with points and a polygonal
    window, and the parts of the object a read leaves alone. *)
Theorem C03_values : forall hullf p rows w names cn s b, 
  fst (pattern_init p rows w names cn) = Ok s -> compute_mbb (p_pts s) = Ok b ->
  fst (read hullf AN s) = VZ (Z.of_nat (List.length rows)) /\
  fst (read hullf AMbbArea s) = VX (Fin ((bxmax b - bxmin b) * (bymax b - bymin b))) /\
  fst (read hullf ARot s) = VX (Fin ((1#4) * Qmin (bxmax b - bxmin b) (bymax b - bymin b))) /\
  fst (read hullf ALambdaMbb s) =
    VX (xdiv (inject_Z (Z.of_nat (List.length rows))) ((bxmax b - bxmin b) * (bymax b - bymin b))) /\
  (forall a, let s' := snd (read hullf a s) in
     p_df s' = p_df s /\ p_pts s' = p_pts s /\ p_win s' = p_win s /\ p_nmarks s' = p_nmarks s /\
     p_coord s' = p_coord s /\ p_x s' = p_x s /\ p_y s' = p_y s).
Proof.
  intros hullf p rows w names cn s b H E.
  destruct (init_ok hullf _ _ _ _ _ _ H) as [C [L W]].
  destruct (init_fields _ _ _ _ _ _ H) as [x [y [A1 [A2 [A3 [A4 [A5 [A6 [A7 [A8 A9]]]]]]]]]].
  assert (LEN : List.length (p_pts s) = List.length rows).
  { unfold frame_points in A7. destruct (col_index x _); [|discriminate]. destruct (col_index y _); [|discriminate].
    apply mapM_len in A7. rewrite A7, A4. reflexivity. }
  destruct (read_n_ok hullf s C) as [[V1 _] _].
  destruct (read_mbb_area_ok hullf s C) as [[V2 _] _].
  destruct (read_rot_ok hullf s C) as [V3 _].
  destruct (read_lambda_mbb_ok hullf s C) as [V4 _].
  unfold mbb_of in *. rewrite E in *. rewrite LEN in *.
  simpl. destruct (read_n s), (read_mbb_area s), (read_rot s), (read_lambda_mbb s). simpl in *. subst.
  repeat (split; [reflexivity|]).
  intros a. destruct (read_step hullf a s C) as [_ [[K1 [K2 [K3 [K4 [K5 K6]]]]] [X _]]].
  repeat split; auto. destruct X as [X|[X _]]; auto. rewrite W in X. discriminate.
Qed.
Print Assumptions C03_values.

Example C03_case : exists s, ex = Ok s /\
  fst (read (fun l => l) ALambdaMbb (history (fun l => l) [ORead AN; OFlip; ORead AMbbArea; ORead AWindow] s))
  = VX (xdiv 4 ((4 - 0) * (5 - 0))).
Proof. eexists. split; vm_compute; reflexivity. Qed.

(** ** C04 *)
(** Before lambda_window has been read for the first time it is the number of
    points over the area of the current window, whatever was done before ... *)
Theorem C04_first_read : forall hullf p rows w names cn s ops parts,
  fst (pattern_init p rows w names cn) = Ok s -> ~ In (ORead ALambdaWindow) ops ->
  fst (read_lambda_window (set_window (history hullf ops s) (Some (WPoly parts)))) =
    Ok (xdiv (inject_Z (Z.of_nat (List.length (p_pts s)))) (Qsum (map ring_area parts))).
Proof.
  intros hullf p rows w names cn s ops parts H N.
  destruct (init_ok hullf _ _ _ _ _ _ H) as [C [L W]].
  destruct (history_ok hullf ops s C) as [H1 [H2 [H3 H4]]].
  set (s2 := set_window (history hullf ops s) (Some (WPoly parts))).
  assert (C2 : coherent hullf s2) by (apply (coherent_ext hullf (history hullf ops s)); auto).
  assert (L2 : c_lambda_window (p_cache s2) = None) by (simpl; rewrite H3; auto).
  destruct (read_lambda_window_fresh hullf s2 C2 L2) as [V _]. rewrite V.
  unfold lambda_of, window_or_default. simpl. rewrite H2. reflexivity.
Qed.
Print Assumptions C04_first_read.

(** ... and afterwards it never changes again, whatever the window becomes. *)
Theorem C04_later_reads : forall hullf p rows w names cn s ops v s1 ops',
  fst (pattern_init p rows w names cn) = Ok s ->
  read_lambda_window (history hullf ops s) = (Ok v, s1) ->
  fst (read_lambda_window (history hullf ops' s1)) = Ok v.
Proof.
  intros hullf p rows w names cn s ops v s1 ops' H R.
  destruct (init_ok hullf _ _ _ _ _ _ H) as [C [L W]].
  destruct (history_ok hullf ops s C) as [H1 [H2 [H3 H4]]].
  assert (K : coherent hullf s1 /\ c_lambda_window (p_cache s1) = Some v).
  { destruct (c_lambda_window (p_cache (history hullf ops s))) as [v'|] eqn:E.
    - rewrite (read_lambda_window_memo _ _ E) in R. inversion R; subst. auto.
    - destruct (read_lambda_window_fresh hullf _ H1 E) as [X1 [X2 [X3 [X4 X5]]]].
      rewrite R in *. simpl in *. rewrite <- X1 in X5. auto. }
  destruct K as [K1 K2]. destruct (history_ok hullf ops' s1 K1) as [_ [_ [_ I]]].
  rewrite (read_lambda_window_memo _ _ (I v K2)). reflexivity.
Qed.
Print Assumptions C04_later_reads.

(** So the unconditional claim is false: read, change the window, read. *)
Definition big_window : window := WPoly [[(0, 0); (0, 100); (100, 100); (100, 0); (0, 0)]].
Theorem C04_stale_refuted : exists s v, ex = Ok s /\
  let s1 := set_window (snd (read_lambda_window s)) (Some big_window) in
  fst (read_lambda_window s1) = Ok (Fin v) /\ v == 1 # 5 /\
  exists v', fst (read_lambda_window (forget s1)) = Ok (Fin v') /\ v' == 4 / 10000 /\ ~ v == v'.
Proof.
  eexists. eexists. split; [vm_compute; reflexivity|]. cbv zeta.
  split; [vm_compute; reflexivity|]. split; [vm_compute; reflexivity|].
  eexists. split; [vm_compute; reflexivity|]. split; [vm_compute; reflexivity|]. vm_compute. discriminate.
Qed.
Print Assumptions C04_stale_refuted.

Example C04_case : exists s v, ex = Ok s /\
  fst (read_lambda_window (set_window (history (fun l => l) [ORead ALambdaMbb; OFlip] s) (Some big_window)))
  = Ok (Fin v) /\ v == 4 / 10000.
Proof. do 2 eexists. split; [vm_compute; reflexivity|]. split; vm_compute; reflexivity. Qed.

(** ** C05 *)
Theorem C05_explode : forall s mark i, built s -> col_index mark (f_cols (p_df s)) = Some i ->
  (exists b, all_str b (map (get_cell i) (f_rows (p_df s)))) ->
  exists keys ps, explode s mark = Ok ps /\ StronglySorted cell_lt keys /\
    (forall v, In v keys -> exists r, In r (f_rows (p_df s)) /\ get_cell i r = v) /\
    (forall r, In r (f_rows (p_df s)) -> exists v, In v keys /\ cell_same (get_cell i r) v) /\
    Permutation (List.concat (map (fun q => f_rows (p_df q)) ps))
      (filter (fun r => negb (is_nan (get_cell i r))) (f_rows (p_df s))) /\
    Forall2 (fun v q => f_cols (p_df q) = f_cols (p_df s) /\ p_coord q = p_coord s /\
                        subseq (f_rows (p_df q)) (f_rows (p_df s)) /\
                        p_win q = Some (default_window (mbb_of (p_pts q))) /\
                        List.length (p_pts q) = List.length (f_rows (p_df q)) /\
                        (forall r, In r (f_rows (p_df q)) -> cell_same (get_cell i r) v) /\
                        (f_rows (p_df q) = [] <-> v = CNaN)) keys ps.
Proof. exact explode_ok. Qed.
Print Assumptions C05_explode.

Theorem C05_errors : forall s mark,
  (col_index mark (f_cols (p_df s)) = None -> explode s mark = Raise KeyError) /\
  (forall i, col_index mark (f_cols (p_df s)) = Some i ->
     ~ (exists b, all_str b (map (get_cell i) (f_rows (p_df s)))) -> explode s mark = Raise TypeError).
Proof.
  intros s mark. unfold explode, explode_rows. split.
  - intros ->. reflexivity.
  - intros i -> H. rewrite np_unique_mixed by auto. reflexivity.
Qed.
Print Assumptions C05_errors.

(** A row whose mark is NaN belongs to no part, and an empty pattern is added. *)
Theorem C05_nan_refuted : exists s ps,
  fst (pattern_init 3 [mrow 1 3 (CNum 7); mrow 4 5 CNaN; mrow 0 0 (CNum 7)] None None None) = Ok s /\
  explode s "mark_0" = Ok ps /\
  map (fun q => f_rows (p_df q)) ps = [[mrow 1 3 (CNum 7); mrow 0 0 (CNum 7)]; []].
Proof. do 2 eexists. split; [vm_compute; reflexivity|]. split; vm_compute; reflexivity. Qed.
Print Assumptions C05_nan_refuted.

Example C05_case : exists s ps, ex_marked = Ok s /\ explode s "mark_0" = Ok ps /\
  map (fun q => f_rows (p_df q)) ps =
    [[mrow 4 5 (CStr "a"); mrow 2 2 (CStr "a")]; [mrow 1 3 (CStr "b"); mrow 0 0 (CStr "b")]].
Proof. do 2 eexists. split; [vm_compute; reflexivity|]. split; vm_compute; reflexivity. Qed.

(** ** C06 *)
Theorem C06_unique : forall s, built s -> exists u, unique s = Ok u /\
  f_cols (p_df u) = f_cols (p_df s) /\ p_coord u = p_coord s /\
  subseq (f_rows (p_df u)) (f_rows (p_df s)) /\ no_dups (f_rows (p_df u)) /\
  same_rows (f_rows (p_df u)) (f_rows (p_df s)) /\
  exists u2, unique u = Ok u2 /\ f_rows (p_df u2) = f_rows (p_df u).
Proof.
  intros s B. destruct (unique_ok s B) as [u [U1 [U2 [U3 U4]]]].
  exists u. split; [exact U1|]. rewrite U2. simpl. split; [auto|]. split; [auto|].
  split; [apply dedup_subseq|]. split; [apply dedup_no_dups|]. split; [apply dedup_nil_rows|].
  assert (BU : built u) by (unfold built, unique in *; eauto 10).
  destruct (unique_ok u BU) as [u2 [W1 [W2 _]]]. exists u2. split; [exact W1|].
  rewrite W2, U2. simpl. apply dedup_id; [apply dedup_no_dups|]. intros r _ [x [[] _]].
Qed.
Print Assumptions C06_unique.

(** The kept copy is the first one. *)
Theorem C06_first_kept : forall s u pre r post, built s -> unique s = Ok u ->
  f_rows (p_df s) = pre ++ r :: post -> ~ has_row pre r ->
  exists a b, f_rows (p_df u) = a ++ r :: b /\ same_rows a pre /\ subseq a pre /\ subseq b post.
Proof.
  intros s u pre r post B U E N. destruct (unique_ok s B) as [u' [U1 [U2 _]]].
  rewrite U in U1. inversion U1; subst u'. rewrite U2, E. simpl.
  rewrite dedup_app. simpl.
  assert (F : existsb (row_eqb r) (rev (dedup [] pre) ++ []) = false).
  { apply seen_false. rewrite rev_has_row. intros X. apply N. apply dedup_nil_rows; auto. }
  rewrite F. do 2 eexists. split; [reflexivity|].
  split; [apply dedup_nil_rows|]. split; apply dedup_subseq.
Qed.
Print Assumptions C06_first_kept.

Example C06_case : exists s u, ex = Ok s /\ unique s = Ok u /\
  f_rows (p_df u) = [nrow 1 3; nrow 4 5; nrow 0 0].
Proof. do 2 eexists. split; [vm_compute; reflexivity|]. split; vm_compute; reflexivity. Qed.

(** ** C07 *)
Theorem C07_unique_window_refuted : forall p rows w names cn s,
  w <> Some WMethod -> fst (pattern_init p rows w names cn) = Ok s ->
  exists u, unique s = Ok u /\ fst (get_window u) = WMethod /\ fst (get_window s) <> WMethod.
Proof.
  intros p rows w names cn s NW H.
  assert (B : built s) by (unfold built; eauto 10).
  destruct (unique_ok s B) as [u [U1 [U2 [U3 U4]]]]. exists u. split; [exact U1|].
  split; [unfold get_window; rewrite U4; reflexivity|].
  destruct (init_ok (fun l => l) _ _ _ _ _ _ H) as [C [L W]].
  destruct (get_window_ok (fun l => l) s C) as [[VG _] _]. rewrite VG.
  unfold window_or_default. rewrite W. destruct w as [w|]; [congruence|].
  destruct (mbb_of (p_pts s)); discriminate.
Qed.
Print Assumptions C07_unique_window_refuted.

(** Consequently the intensity of every de-duplicated pattern is an error. *)
Theorem C07_lambda_window_refuted : forall s u, built s -> unique s = Ok u ->
  fst (read_lambda_window u) = Raise AttributeError.
Proof.
  intros s u B U. assert (BU := U). unfold unique in BU.
  destruct (init_ok (fun l => l) _ _ _ _ _ _ BU) as [C [L W]].
  destruct (read_lambda_window_fresh (fun l => l) u C L) as [V _]. rewrite V.
  unfold lambda_of, window_or_default. rewrite W. reflexivity.
Qed.
Print Assumptions C07_lambda_window_refuted.

Example C07_case : exists s u, ex = Ok s /\ unique s = Ok u /\
  fst (read_lambda_window u) = Raise AttributeError /\ exists q, fst (read_lambda_window s) = Ok (Fin q).
Proof.
  do 2 eexists. split; [vm_compute; reflexivity|]. split; [vm_compute; reflexivity|].
  split; [vm_compute; reflexivity|]. eexists. vm_compute. reflexivity.
Qed.

(** ** C08 *)
Theorem C08_superimpose : forall s1 s2, built s1 -> built s2 ->
  (superimpose s1 s2 = Raise TypeError <->
     f_cols (p_df s1) <> f_cols (p_df s2) \/ p_coord s1 <> p_coord s2) /\
  (f_cols (p_df s1) = f_cols (p_df s2) -> p_coord s1 = p_coord s2 ->
     exists u u1 new, superimpose s1 s2 = Ok u /\ unique s1 = Ok u1 /\
       f_cols (p_df u) = f_cols (p_df s1) /\ p_coord u = p_coord s1 /\
       f_rows (p_df u) = f_rows (p_df u1) ++ new /\ subseq new (f_rows (p_df s2)) /\
       no_dups (f_rows (p_df u)) /\ (forall r, In r new -> ~ has_row (f_rows (p_df s1)) r) /\
       (forall r, has_row (f_rows (p_df u)) r <->
                  has_row (f_rows (p_df s1)) r \/ has_row (f_rows (p_df s2)) r)).
Proof.
  intros s1 s2 B1 B2. split.
  - split.
    + intros H. destruct (list_eq_dec string_dec (f_cols (p_df s1)) (f_cols (p_df s2))) as [E1|E1]; auto.
      destruct (list_eq_dec string_dec (p_coord s1) (p_coord s2)) as [E2|E2]; auto.
      destruct (superimpose_ok s1 s2 B1 B2 E1 E2) as [u [U _]]. congruence.
    + intros H. unfold superimpose.
      destruct (strings_eqb (f_cols (p_df s1)) (f_cols (p_df s2)) && strings_eqb (p_coord s1) (p_coord s2)) eqn:E; auto.
      apply andb_true_iff in E. destruct E as [E1 E2]. apply strings_eqb_spec in E1. apply strings_eqb_spec in E2. tauto.
  - intros E1 E2. destruct (superimpose_ok s1 s2 B1 B2 E1 E2) as [u [U1 [U2 [U3 U4]]]].
    destruct (unique_ok s1 B1) as [u1 [V1 [V2 V3]]].
    destruct (dedup_union (f_rows (p_df s1)) (f_rows (p_df s2))) as [t [T1 [T2 [T3 [T4 T5]]]]].
    exists u, u1, t. rewrite U3, V2. simpl.
    split; [auto|]. split; [auto|]. split; [auto|]. split; [auto|]. split; [exact T1|]. split; [exact T2|].
    split; [apply dedup_no_dups|]. split; [exact T4|].
    intros r. rewrite (dedup_nil_rows (f_rows (p_df s1) ++ f_rows (p_df s2)) r). apply has_row_app.
Qed.
Print Assumptions C08_superimpose.

Theorem C08_algebra : forall s1 s2 s3, built s1 -> built s2 -> built s3 ->
  f_cols (p_df s1) = f_cols (p_df s2) -> p_coord s1 = p_coord s2 ->
  f_cols (p_df s2) = f_cols (p_df s3) -> p_coord s2 = p_coord s3 ->
  exists a b c d e f, superimpose s1 s2 = Ok a /\ superimpose s2 s1 = Ok b /\
    superimpose a s3 = Ok c /\ superimpose s2 s3 = Ok d /\ superimpose s1 d = Ok e /\
    superimpose s1 s1 = Ok f /\
    same_rows (f_rows (p_df a)) (f_rows (p_df b)) /\
    same_rows (f_rows (p_df c)) (f_rows (p_df e)) /\
    exists u, unique s1 = Ok u /\ f_rows (p_df f) = f_rows (p_df u).
Proof.
  intros s1 s2 s3 B1 B2 B3 E12 N12 E23 N23.
  destruct (superimpose_ok s1 s2 B1 B2 E12 N12) as [a [A1 [A2 [A3 A4]]]].
  destruct (superimpose_ok s2 s1 B2 B1 (eq_sym E12) (eq_sym N12)) as [b [C1 [C2 [C3 C4]]]].
  destruct (superimpose_ok a s3 A2 B3) as [c [D1 [D2 [D3 D4]]]].
  { rewrite A3. simpl. congruence. } { congruence. }
  destruct (superimpose_ok s2 s3 B2 B3 E23 N23) as [d [F1 [F2 [F3 F4]]]].
  destruct (superimpose_ok s1 d B1 F2) as [e [G1 [G2 [G3 G4]]]].
  { rewrite F3. simpl. congruence. } { congruence. }
  destruct (superimpose_ok s1 s1 B1 B1 eq_refl eq_refl) as [f [H1 [H2 [H3 H4]]]].
  destruct (unique_ok s1 B1) as [u [V1 [V2 V3]]].
  exists a, b, c, d, e, f.
  repeat (split; [assumption|]).
  split; [|split].
  - intros r. rewrite A3, C3. simpl. rewrite !(dedup_nil_rows _ r), !has_row_app. tauto.
  - intros r. rewrite D3, G3, A3, F3. simpl.
    rewrite (dedup_nil_rows (dedup [] _ ++ _) r), (dedup_nil_rows (_ ++ dedup [] _) r), !has_row_app.
    rewrite !(dedup_nil_rows _ r), !has_row_app. tauto.
  - exists u. split; [exact V1|]. rewrite H3, V2. simpl. rewrite dedup_app.
    rewrite (dedup_all_seen (f_rows (p_df s1)) (rev (dedup [] (f_rows (p_df s1))) ++ [])); [apply app_nil_r|].
    intros r R. apply rev_has_row. apply dedup_nil_rows. apply has_row_in; auto.
Qed.
Print Assumptions C08_algebra.

Example C08_case : exists s1 s2 u, ex = Ok s1 /\
  fst (pattern_init 2 [nrow 5 6; nrow 0 0; nrow 1 4] None None None) = Ok s2 /\ superimpose s1 s2 = Ok u /\
  f_rows (p_df u) = [nrow 1 3; nrow 4 5; nrow 0 0; nrow 5 6; nrow 1 4].
Proof.
  do 3 eexists. split; [vm_compute; reflexivity|]. split; [vm_compute; reflexivity|].
  split; vm_compute; reflexivity.
Qed.

(** ** C09 *)
Theorem C09_default_marks_fresh : forall p (rows : list drow) w s calls,
  (forall r, In r rows -> List.length r = p) ->
  fst (pattern_init p rows w None None) = Ok s ->
  let s' := fold_left (fun s m => fst (add_marks s m None)) calls s in
  exists new, f_cols (p_df s') = f_cols (p_df s) ++ new /\ NoDup (f_cols (p_df s')) /\
    List.length (f_rows (p_df s')) = List.length (f_rows (p_df s)) /\
    (forall c, In c (f_cols (p_df s)) -> column (p_df s') c = column (p_df s) c) /\
    p_pts s' = p_pts s /\ p_win s' = p_win s /\ p_coord s' = p_coord s.
Proof.
  intros p rows w s calls R H. pose proof (init_numbered p rows w s R H) as N.
  destruct (add_marks_many calls s N) as [_ E]. exact E.
Qed.
Print Assumptions C09_default_marks_fresh.

(** After any such history a successful call stores its columns, in order, at the end. *)
Theorem C09_stored : forall p (rows : list drow) w s calls marks,
  (forall r, In r rows -> List.length r = p) ->
  fst (pattern_init p rows w None None) = Ok s ->
  let s1 := fold_left (fun s m => fst (add_marks s m None)) calls s in
  snd (add_marks s1 marks None) = None ->
  let s2 := fst (add_marks s1 marks None) in
  exists names, f_cols (p_df s2) = f_cols (p_df s1) ++ names /\ NoDup names /\
    List.length names = List.length marks /\
    forall j, (j < List.length marks)%nat -> column (p_df s2) (nth j names ""%string) = Some (nth j marks []).
Proof.
  intros p rows w s calls marks R H s1 OK s2. pose proof (init_numbered p rows w s R H) as N.
  destruct (add_marks_many calls s N) as [N1 _]. fold s1 in N1.
  destruct (add_marks_stores marks s1 N1 OK) as [A B].
  exists (map (fun j => mark_name (p_nmarks s1 + 1 + j)) (seq 0 (List.length marks))).
  split; [exact A|]. split; [|split].
  - apply NoDup_map_inj'; [|apply seq_NoDup]. intros x y E. apply mark_name_inj in E. lia.
  - rewrite map_length, seq_length. reflexivity.
  - intros j Hj. rewrite (nth_indep _ ""%string (mark_name (p_nmarks s1 + 1 + 0)))
      by (rewrite map_length, seq_length; auto).
    rewrite (map_nth (fun j => mark_name (p_nmarks s1 + 1 + j))), seq_nth by auto. apply B; auto.
Qed.
Print Assumptions C09_stored.

(** With columns named by the user the automatic name may hit one of them. *)
Theorem C09_named_refuted : exists s, 
  fst (pattern_init 3 [mrow 1 3 (CNum 7); mrow 4 5 (CNum 8)] None (Some ["x"; "y"; "mark_2"]%string) None) = Ok s /\
  let s' := fst (add_marks s [[CNum 0; CNum 0]] None) in
  f_cols (p_df s') = f_cols (p_df s) /\
  column (p_df s) "mark_2" = Some [CNum 7; CNum 8] /\ column (p_df s') "mark_2" = Some [CNum 0; CNum 0].
Proof. eexists. split; [vm_compute; reflexivity|]. cbv zeta. repeat split; vm_compute; reflexivity. Qed.
Print Assumptions C09_named_refuted.

Example C09_case : exists s, ex_marked = Ok s /\
  f_cols (p_df (fst (add_marks (fst (add_marks s [[CNum 1; CNum 2; CNum 3; CNum 4]; [CNum 1]] None))
                               [[CNum 5; CNum 6; CNum 7; CNum 8]] None)))
  = ["x"; "y"; "mark_0"; "mark_2"; "mark_3"]%string.
Proof. eexists. split; vm_compute; reflexivity. Qed.

(** ** C10 *)
(** The caller's list is left alone exactly when names are given or there are at
    most two columns. *)
Theorem C10_coord_names : forall p rows w names (cn : list string),
  snd (pattern_init p rows w names (Some cn)) = Some cn <-> names <> None \/ (p <= 2)%nat.
Proof.
  intros p rows w names cn. unfold pattern_init. destruct names as [n|]; simpl.
  - split; auto. intros _. left. discriminate.
  - split.
    + intros H. inversion H as [E]. right. apply (f_equal (@List.length string)) in E.
      rewrite app_length, map_length, seq_length in E. lia.
    + intros [H|H]; [tauto|]. replace (p - 2)%nat with 0%nat by lia. simpl. rewrite app_nil_r. reflexivity.
Qed.
Print Assumptions C10_coord_names.

Theorem C10_second_call_refuted : forall p rows w cn cn' s,
  (2 < p)%nat -> pattern_init p rows w None (Some cn) = (Ok s, Some cn') ->
  fst (pattern_init p rows w None (Some cn')) = Raise ValueError.
Proof.
  intros p rows w cn cn' s P H.
  assert (H1 : fst (pattern_init p rows w None (Some cn)) = Ok s) by (rewrite H; reflexivity).
  assert (H2 : snd (pattern_init p rows w None (Some cn)) = Some cn') by (rewrite H; reflexivity).
  destruct (init_fields _ _ _ _ _ _ H1) as [x [y [A1 [A2 [A3 [A4 [A5 [A6 [A7 [A8 A9]]]]]]]]]].
  assert (E : cn ++ map mark_name (seq 0 (p - 2)) = cn') by (simpl in H2; congruence).
  simpl in A8. rewrite A8, E in A5.
  unfold pattern_init. cbv iota beta zeta.
  assert (L : Nat.eqb (List.length (cn' ++ map mark_name (seq 0 (p - 2)))) p = false).
  { apply Nat.eqb_neq. rewrite app_length, map_length, seq_length. lia. }
  destruct (firstn 2 (cn' ++ map mark_name (seq 0 (p - 2)))) as [|a [|b [|]]]; try reflexivity.
  rewrite L. reflexivity.
Qed.
Print Assumptions C10_second_call_refuted.

Example C10_case : exists s,
  pattern_init 3 [mrow 1 3 (CNum 7)] None None (Some ["lon"; "lat"]%string)
  = (Ok s, Some ["lon"; "lat"; "mark_0"]%string).
Proof. eexists. vm_compute. reflexivity. Qed.

(** ** C11 *)
Theorem C11_contains : forall s x y rest q, built s -> p_coord s = [x; y] ->
  f_cols (p_df s) = x :: y :: rest -> x <> y ->
  exists b, contains_pt s q = Ok b /\ (b = true <-> exists p, In p (p_pts s) /\ coincide p q).
Proof.
  intros s x y rest q [p [rows [w [names [cn B]]]]] HC HF NE.
  destruct (init_fields _ _ _ _ _ _ B) as [x' [y' [A1 [A2 [A3 [A4 [A5 [A6 [A7 [A8 A9]]]]]]]]]].
  assert (EX : x' = x /\ y' = y) by (split; congruence). destruct EX as [-> ->].
  unfold contains_pt. rewrite HF. eexists. split; [reflexivity|].
  assert (Hi : col_index x (f_cols (p_df s)) = Some 0%nat).
  { rewrite HF. simpl. rewrite String.eqb_refl. reflexivity. }
  assert (Hj : col_index y (f_cols (p_df s)) = Some 1%nat).
  { rewrite HF. simpl. destruct (String.eqb_spec y x); [congruence|]. rewrite String.eqb_refl. reflexivity. }
  assert (PR : Forall2 (fun r p => get_cell 0 r = CNum (fst p) /\ get_cell 1 r = CNum (snd p))
                 (f_rows (p_df s)) (p_pts s)).
  { apply (points_rows s 0 1); rewrite ?A2, ?A3; auto. }
  clear -PR. induction PR as [|r p rs ps [E1 E2] PR IH]; simpl.
  - split; [discriminate|]. intros [p [[] _]].
  - rewrite E1, E2. simpl. rewrite orb_true_iff, andb_true_iff, !Qeq_bool_iff, IH. split.
    + intros [[X Y]|[z [Z1 Z2]]]; [exists p; split; auto; split; auto|exists z; auto].
    + intros [z [[->|Z1] [Z2 Z3]]]; [left; auto|right; exists z; split; auto; split; auto].
Qed.
Print Assumptions C11_contains.

(** Other coordinate columns: the first two columns are compared instead. *)
Theorem C11_coord_names_refuted : exists s,
  fst (pattern_init 3 [[CNum 100; CNum 1; CNum 3]] None (Some ["id"; "x"; "y"]%string) (Some ["x"; "y"]%string)) = Ok s /\
  p_pts s = [(1, 3)] /\ contains_pt s (1, 3) = Ok false /\ contains_pt s (100, 1) = Ok true.
Proof. eexists. split; [vm_compute; reflexivity|]. repeat split; vm_compute; reflexivity. Qed.
Print Assumptions C11_coord_names_refuted.

Example C11_case : exists s, ex = Ok s /\ contains_pt s (1, 3) = Ok true /\ contains_pt s (3, 1) = Ok false.
Proof. eexists. split; [vm_compute; reflexivity|]. split; vm_compute; reflexivity. Qed.

(** ** C12 *)
Theorem C12_flip : forall hullf s,
  flip (flip s) = s /\ p_x (flip s) = p_y s /\ p_y (flip s) = p_x s /\
  p_df (flip s) = p_df s /\ p_pts (flip s) = p_pts s /\ p_coord (flip s) = p_coord s /\
  p_win (flip s) = p_win s /\ p_nmarks (flip s) = p_nmarks s /\
  forall a, read hullf a (flip s) = (fst (read hullf a s), flip (snd (read hullf a s))).
Proof.
  intros hullf s. destruct s as [df nm co x y pts w c].
  repeat (split; [reflexivity|]).
  intros a. destruct c as [c1 c2 c3 c4 c5 c6 c7 c8 c9].
  destruct a; unfold read, read_lambda_hull, read_lambda_window, read_lambda_mbb, read_hull_area, read_hull,
    get_window, read_rot, read_mbb_area, read_mbb, read_n, flip; simpl.
  - destruct c1; reflexivity.
  - destruct c2; [reflexivity|]. destruct c1; reflexivity.
  - destruct c3; reflexivity.
  - destruct c4; [reflexivity|]. destruct c1; reflexivity.
  - destruct c5; [reflexivity|]. destruct c3; simpl; destruct c2; simpl; try reflexivity; destruct c1; reflexivity.
  - destruct c6; [reflexivity|]. destruct c3; simpl; destruct w as [[|]|]; simpl; try reflexivity;
      destruct c1; simpl; try reflexivity; try (destruct o; reflexivity); destruct (mbb_of pts); reflexivity.
  - destruct c7; reflexivity.
  - destruct c8; [reflexivity|]. destruct c7; reflexivity.
  - destruct c9; [reflexivity|]. destruct c3; simpl; destruct c8; simpl; try reflexivity; destruct c7; reflexivity.
  - destruct w; [reflexivity|]. destruct c1; reflexivity.
Qed.
Print Assumptions C12_flip.

Example C12_case : exists s, ex = Ok s /\ p_x s = "x"%string /\ p_x (flip s) = "y"%string /\
  fst (read_mbb (flip s)) = Some (mkbox 0 0 4 5).
Proof. eexists. split; [vm_compute; reflexivity|]. repeat split; vm_compute; reflexivity. Qed.

(** ** C13 *)
Theorem C13_knn : forall pts query k, correct_tree pts query -> no_coincident pts ->
  (1 <= k)%Z -> (k < Z.of_nat (List.length pts))%Z ->
  exists rows, knn query (List.length pts) k = Ok rows /\ List.length rows = List.length pts /\
    forall i, (i < List.length pts)%nat ->
      nearest_others (List.length pts) (Z.to_nat k) i (sqd pts i) (map snd (nth i rows [])) /\
      forall d j, In (d, j) (nth i rows []) -> d == sqd pts i j.
Proof.
  intros pts query k T N K1 K2. unfold knn. destruct (Z.ltb_spec k 1); [lia|].
  eexists. split; [reflexivity|]. split; [rewrite map_length, seq_length; reflexivity|].
  intros i Hi.
  rewrite (nth_indep _ [] (skipn 1 (query (Z.to_nat k + 1)%nat 0%nat)))
    by (rewrite map_length, seq_length; auto).
  rewrite (map_nth (fun i => skipn 1 (query (Z.to_nat k + 1)%nat i))), seq_nth by auto. simpl Nat.add.
  destruct (T (Z.to_nat k + 1)%nat i) as [T1 T2]; [lia|auto|].
  assert (M1 : (1 <= Z.to_nat k + 1)%nat) by lia.
  destruct (nearest_first_self pts _ i _ N Hi M1 T1) as [rest E].
  destruct (query (Z.to_nat k + 1)%nat i) as [|[d0 j0] r]; [discriminate|].
  simpl in E. inversion E; subst. simpl skipn. split.
  - apply nearest_tail. exact T1.
  - intros d j X. apply T2. simpl; auto.
Qed.
Print Assumptions C13_knn.

Theorem C13_value_error : forall query n k, (knn query n k = Raise ValueError <-> (k < 1)%Z) /\
  ((1 <= k)%Z -> exists rows, knn query n k = Ok rows).
Proof.
  intros query n k. unfold knn. destruct (Z.ltb_spec k 1) as [L|L]; split.
  - tauto.
  - intros; lia.
  - split; [discriminate|intros; lia].
  - intros _. eexists. reflexivity.
Qed.
Print Assumptions C13_value_error.

(** Two coincident points and one more: a correct tree may list point 0 first for
    point 1, and knn then reports point 1 as its own neighbour. *)
Definition twin_pts : list pt := [(0, 0); (0, 0); (1, 0)].
Definition twin_query (m i : nat) : list (Q * nat) :=
  firstn m (match i with
            | 2%nat => [(0, 2%nat); (1, 0%nat); (1, 1%nat)]
            | _ => [(0, 0%nat); (0, 1%nat); (1, 2%nat)]
            end).
Theorem C13_coincident_refuted : correct_tree twin_pts twin_query /\
  exists rows, knn twin_query 3 1 = Ok rows /\ map snd (nth 1 rows []) = [1%nat].
Proof.
  split; [|eexists; split; vm_compute; reflexivity].
  assert (LT : forall j : nat, (j < 3)%nat -> j = 0%nat \/ j = 1%nat \/ j = 2%nat) by (intros; lia).
  assert (M : forall m : nat, (m <= 3)%nat -> m = 0%nat \/ m = 1%nat \/ m = 2%nat \/ m = 3%nat) by (intros; lia).
  assert (G : forall dist ids m, List.length ids = m ->
    (ids = [] \/ ids = [0%nat] \/ ids = [0%nat; 1%nat] \/ ids = [0%nat; 1%nat; 2%nat] \/
     ids = [2%nat] \/ ids = [2%nat; 0%nat] \/ ids = [2%nat; 0%nat; 1%nat]) ->
    (forall a b, In a ids -> In b ids -> True) ->
    StronglySorted (fun a b => dist a <= dist b) ids ->
    (forall j l, In j ids -> (l < 3)%nat -> ~ In l ids -> dist j <= dist l) -> nearest 3 m dist ids).
  { intros dist ids m L C _ S F. split; [exact L|]. split; [|split; [|split; [apply order_sorted; exact S|exact F]]].
    - repeat destruct C as [C|C]; subst; repeat constructor; simpl; intuition discriminate.
    - intros j J. repeat destruct C as [C|C]; subst; simpl in J; intuition lia. }
  intros m i Hm Hi. change (List.length twin_pts) with 3%nat in *.
  destruct (LT i Hi) as [->|[->| ->]]; destruct (M m Hm) as [->|[->|[->| ->]]]; (split;
    [apply G; [reflexivity|simpl; tauto|auto|
       simpl; repeat constructor; vm_compute; discriminate|
       simpl; intros j l Hj Hl Hn; destruct (LT l Hl) as [->|[->| ->]]; intuition (subst; vm_compute; discriminate)]
    |simpl; intros d j X; intuition; match goal with H : (_, _) = (_, _) |- _ => inversion H; subst; vm_compute; reflexivity end]).
Qed.
Print Assumptions C13_coincident_refuted.

Example C13_case : exists rows,
  knn (fun m i => firstn m (nth i [[(0, 0%nat); (1, 1%nat); (9, 2%nat)]; [(0, 1%nat); (1, 0%nat); (4, 2%nat)];
                                   [(0, 2%nat); (4, 1%nat); (9, 0%nat)]] [])) 3 1 = Ok rows /\
  rows = [[(1, 1%nat)]; [(1, 0%nat)]; [(4, 1%nat)]].
Proof. eexists. split; vm_compute; reflexivity. Qed.

(** ** C23 *)
Theorem C23_hull_area : forall (h : list pt),
  (forall p t, h = p :: t -> hull_area_of (t ++ [p]) == hull_area_of h) /\
  (forall v, hull_area_of (map (fun p => (fst p + fst v, snd p + snd v)) h) == hull_area_of h) /\
  hull_area_of (rev h) == - hull_area_of h /\
  (forall p t, h = p :: t -> hull_area_of (h ++ [p]) == hull_area_of h) /\
  (ccw_convex h -> 0 <= hull_area_of h) /\
  (ccw_convex h -> forall p0 t a b v, h = p0 :: t -> consecutive (h ++ [p0]) a b -> In v h ->
     0 < orient a b v -> 0 < hull_area_of h).
Proof.
  assert (HALF : forall x y, x == y -> x / 2 == y / 2) by (intros x y E; rewrite E; reflexivity).
  intros h. split; [|split; [|split; [|split; [|split]]]].
  - intros p t ->. rewrite !hull_area_ring_sum. apply HALF, ring_sum_rotate.
  - intros v. rewrite !hull_area_ring_sum. apply HALF. apply (ring_sum_shift v h).
  - rewrite !hull_area_ring_sum, ring_sum_rev. field.
  - intros p t ->. rewrite !hull_area_ring_sum. apply HALF. apply ring_sum_closed.
  - intros C. rewrite hull_area_ring_sum. destruct h as [|p t]; [vm_compute; discriminate|].
    rewrite <- (fan_ring p p t).
    assert (0 <= fan p ((p :: t) ++ [p])).
    { apply fan_nonneg. intros a b E. apply (C p t eq_refl a b p E). simpl; auto. }
    apply Qle_shift_div_l; lra.
  - intros C p t a b v -> E V P. rewrite hull_area_ring_sum. rewrite <- (fan_ring v p t).
    assert (0 < fan v ((p :: t) ++ [p])).
    { apply (fan_pos v _ a b); auto. intros a' b' E'. apply (C p t eq_refl a' b' v E' V). }
    apply Qlt_shift_div_l; lra.
Qed.
Print Assumptions C23_hull_area.

Example C23_case :
  hull_area_of [(0, 0); (3, 0); (3, 2); (0, 2)] == 6 /\
  hull_area_of [(0, 2); (3, 2); (3, 0); (0, 0)] == -6 /\
  ccw_convex [(0, 0); (3, 0); (0, 2)].
Proof.
  split; [vm_compute; reflexivity|]. split; [vm_compute; reflexivity|].
  intros p0 t E a b v [l1 [l2 C]] V. inversion E; subst. simpl in C.
  assert (K : (a, b) = ((0,0),(3,0)) \/ (a, b) = ((3,0),(0,2)) \/ (a, b) = ((0,2),(0,0))).
  { destruct l1 as [|? [|? [|? [|? [|? ?]]]]]; simpl in C; inversion C; subst; auto. }
  destruct K as [K|[K|K]]; inversion K; subst; simpl in V; intuition (subst; vm_compute; discriminate).
Qed.

(** ** C80 *)
Theorem C80_to_ccf : forall poly,
  (poly = [] <-> to_ccf poly = Raise IndexError) /\
  (poly <> [] -> exists r p0, to_ccf poly = Ok r /\ hd p0 poly = p0 /\ In p0 poly /\
     hd p0 r = p0 /\ coincide (last r p0) p0 /\
     (r = poly /\ coincide (last poly p0) p0 \/ r = poly ++ [p0] /\ ~ coincide (last poly p0) p0) /\
     to_ccf r = Ok r).
Proof.
  intros poly. split.
  - destruct poly as [|p t]; simpl; split; auto; try discriminate.
    destruct (pt_eqb _ _); discriminate.
  - intros NE. destruct poly as [|p t]; [tauto|]. unfold to_ccf.
    destruct (pt_eqb (last (p :: t) p) p) eqn:E.
    + exists (p :: t), p. pose proof E as E'. apply pt_eqb_spec in E'.
      split; [reflexivity|]. split; [reflexivity|]. split; [simpl; auto|]. split; [reflexivity|].
      split; [exact E'|]. split; [left; auto|]. rewrite E. reflexivity.
    + exists ((p :: t) ++ [p]), p.
      split; [reflexivity|]. split; [reflexivity|]. split; [simpl; auto|]. split; [reflexivity|].
      split; [rewrite last_last; split; reflexivity|]. split.
      * right. split; auto. intros X. apply pt_eqb_spec in X. congruence.
      * change ((p :: t) ++ [p]) with (p :: (t ++ [p])). cbv iota beta.
        change (p :: (t ++ [p])) with ((p :: t) ++ [p]). rewrite last_last.
        assert (K : pt_eqb p p = true) by (apply pt_eqb_spec; split; reflexivity). rewrite K. reflexivity.
Qed.
Print Assumptions C80_to_ccf.

Example C80_case : to_ccf [(0, 0); (3, 0); (0, 2)] = Ok [(0, 0); (3, 0); (0, 2); (0, 0)].
Proof. reflexivity. Qed.
