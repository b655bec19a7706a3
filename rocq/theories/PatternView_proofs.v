(** Lemmas about what a point pattern shows. *)
From Coq Require Import ZArith QArith List Bool String Lia Lqa.
From Verif Require Import Base BaseLemmas Quadrat_model Pattern_model Pattern_spec Pattern_proofs
  PatternRows_proofs PatternView_model PatternView_spec.
Import ListNotations.
Local Open Scope Q_scope.

(** ** Columns and points *)
Lemma points_columns : forall f x y pts, frame_points f x y = Ok pts ->
  frame_column f x = Ok (map (fun p => CNum (fst p)) pts) /\
  frame_column f y = Ok (map (fun p => CNum (snd p)) pts) /\
  List.length pts = List.length (f_rows f).
Proof.
  intros f x y pts H. unfold frame_points in H. unfold frame_column.
  destruct (col_index x (f_cols f)) as [i|]; [|discriminate].
  destruct (col_index y (f_cols f)) as [j|]; [|discriminate].
  apply mapM_forall2 in H. induction H as [|r p rows pts H F IH]; simpl.
  - repeat split; reflexivity.
  - destruct IH as [A [B C]]. inversion A as [A']. inversion B as [B'].
    apply bind_ok in H. destruct H as [a [H1 H2]]. apply bind_ok in H2. destruct H2 as [b [H2 H3]].
    inversion H3; subst; clear H3.
    unfold cell_num in H1, H2.
    destruct (get_cell i r) as [qa| |]; try discriminate. inversion H1; subst.
    destruct (get_cell j r) as [qb| |]; try discriminate. inversion H2; subst.
    simpl. repeat split. rewrite C. reflexivity.
Qed.

Lemma column_frame : forall f n, column f n = match frame_column f n with Ok c => Some c | Raise _ => None end.
Proof. intros. unfold column, frame_column. destruct (col_index n (f_cols f)); reflexivity. Qed.

Lemma combine_map2 : forall A B C (f : A -> B) (g : A -> C) l,
  combine (map f l) (map g l) = map (fun x => (f x, g x)) l.
Proof. induction l; simpl; congruence. Qed.

(** ** Values read *)
Section Reads.
Variable hullf : list pt -> list pt.

Definition value_of (s : pattern) (a : attr) : value :=
  let pts := p_pts s in let n := Z.of_nat (List.length pts) in
  match a with
  | AMbb => VBox (mbb_of pts)
  | AMbbArea => VX (mbb_area_of (mbb_of pts))
  | AN => VZ n
  | ARot => VX (rot_of (mbb_of pts))
  | ALambdaMbb => VX (xdiv_area n (mbb_area_of (mbb_of pts)))
  | ALambdaWindow =>
      match c_lambda_window (p_cache s) with
      | Some v => VX v
      | None => match lambda_of s with Ok v => VX v | Raise e => VExc e end
      end
  | AHull => VRing (hullf pts)
  | AHullArea => VQ (hull_area_of (hullf pts))
  | ALambdaHull => VX (xdiv (inject_Z n) (hull_area_of (hullf pts)))
  | AWindow => VWin (window_or_default s)
  end.

Lemma read_is : forall s a, coherent hullf s -> fst (read hullf a s) = value_of s a.
Proof.
  intros s a C. destruct a; simpl.
  - destruct (read_mbb_ok hullf s C) as [[V _] _]. destruct (read_mbb s). simpl in *. congruence.
  - destruct (read_mbb_area_ok hullf s C) as [[V _] _]. destruct (read_mbb_area s). simpl in *. congruence.
  - destruct (read_n_ok hullf s C) as [[V _] _]. destruct (read_n s). simpl in *. congruence.
  - destruct (read_rot_ok hullf s C) as [V _]. destruct (read_rot s). simpl in *. congruence.
  - destruct (read_lambda_mbb_ok hullf s C) as [V _]. destruct (read_lambda_mbb s). simpl in *. congruence.
  - destruct (c_lambda_window (p_cache s)) as [v|] eqn:E.
    + rewrite (read_lambda_window_memo _ _ E). reflexivity.
    + destruct (read_lambda_window_fresh hullf s C E) as [V _].
      destruct (read_lambda_window s). simpl in *. rewrite V. reflexivity.
  - destruct (read_hull_ok hullf s C) as [[V _] _]. destruct (read_hull hullf s). simpl in *. congruence.
  - destruct (read_hull_area_ok hullf s C) as [[V _] _]. destruct (read_hull_area hullf s). simpl in *. congruence.
  - destruct (read_lambda_hull_ok hullf s C) as [V _]. destruct (read_lambda_hull hullf s). simpl in *. congruence.
  - destruct (get_window_ok hullf s C) as [[V _] _]. destruct (get_window s). simpl in *. congruence.
Qed.

(** What the two calls do to the object. *)
Record after (s s' : pattern) : Prop := mkafter {
  af_core : same_core s s';
  af_coh : coherent hullf s';
  af_win : p_win s' = p_win s \/ (p_win s = None /\ p_win s' = Some (window_or_default s));
  af_lam : c_lambda_window (p_cache s') = c_lambda_window (p_cache s) \/
           (c_lambda_window (p_cache s) = None /\ exists v, lambda_of s = Ok v /\
            c_lambda_window (p_cache s') = Some v) }.

Lemma after_window : forall s s', after s s' -> window_or_default s' = window_or_default s.
Proof.
  intros s s' [K _ W _]. destruct K as [_ [_ [_ [_ [_ P]]]]].
  unfold window_or_default in *. destruct W as [W|[W1 W2]].
  - rewrite W, P. reflexivity.
  - rewrite W2, W1. reflexivity.
Qed.
Lemma after_lambda_of : forall s s', after s s' -> lambda_of s' = lambda_of s.
Proof.
  intros s s' A. unfold lambda_of. rewrite (after_window _ _ A).
  destruct (af_core _ _ A) as [_ [_ [_ [_ [_ P]]]]]. rewrite P. reflexivity.
Qed.

Lemma after_reads : forall s s', coherent hullf s -> after s s' -> same_reads hullf s s'.
Proof.
  intros s s' C A a. rewrite (read_is s a C), (read_is s' a (af_coh _ _ A)).
  pose proof (after_window _ _ A) as W. pose proof (after_lambda_of _ _ A) as L.
  destruct (af_core _ _ A) as [_ [_ [_ [_ [_ P]]]]].
  destruct a; simpl; rewrite ?P, ?W; auto.
  destruct (af_lam _ _ A) as [E|[E [v [V1 V2]]]].
  - rewrite E, L. reflexivity.
  - rewrite E, V2, V1. reflexivity.
Qed.

Lemma after_refl : forall s, coherent hullf s -> after s s.
Proof. intros s C. constructor; auto. apply same_core_refl. Qed.

Lemma after_trans : forall a b c, after a b -> after b c -> after a c.
Proof.
  intros a b c A B. constructor.
  - eapply same_core_trans; [apply (af_core _ _ A)|apply (af_core _ _ B)].
  - apply (af_coh _ _ B).
  - destruct (af_win _ _ B) as [E|[E1 E2]].
    + rewrite E. apply (af_win _ _ A).
    + rewrite E2, (after_window _ _ A). destruct (af_win _ _ A) as [F|[F1 F2]]; [|congruence].
      right. split; congruence.
  - destruct (af_lam _ _ B) as [E|[E [v [V1 V2]]]].
    + rewrite E. apply (af_lam _ _ A).
    + rewrite V2, <- (after_lambda_of _ _ A), V1.
      destruct (af_lam _ _ A) as [F|[F [v' [W1 W2]]]]; [|congruence].
      right. split; [congruence|]. exists v. auto.
Qed.

Lemma read_ok_after : forall A (v : A) s r, read_ok hullf v s r -> after s (snd r).
Proof. intros A v s r [_ [K [C [L W]]]]. constructor; auto. Qed.

Lemma after_read_lambda : forall s, coherent hullf s -> after s (snd (read_lambda_window s)).
Proof.
  intros s C. destruct (c_lambda_window (p_cache s)) as [v|] eqn:E.
  - rewrite (read_lambda_window_memo _ _ E). apply after_refl; auto.
  - destruct (read_lambda_window_fresh hullf s C E) as [V [K [C' [W L]]]].
    constructor; auto.
    + rewrite W. unfold window_or_default. destruct (p_win s); auto.
    + destruct (lambda_of s) as [v|e] eqn:EL; [|rewrite L, E; auto].
      right. split; auto. exists v. auto.
Qed.

(** ** summary *)
Definition shown_lambda (s : pattern) : res xq :=
  match c_lambda_window (p_cache s) with Some v => Ok v | None => lambda_of s end.

Lemma summary_is : forall s, coherent hullf s ->
  fst (summary s) =
    (match window_area (window_or_default s) with
     | None => ([LTitle; LPoints (Z.of_nat (List.length (p_pts s))); LBox (mbb_of (p_pts s))],
                Some AttributeError)
     | Some a => match shown_lambda s with
        | Ok v => ([LTitle; LPoints (Z.of_nat (List.length (p_pts s))); LBox (mbb_of (p_pts s)); LArea a;
                    LIntensity v; LHead (frame_head (p_df s))], None)
        | Raise e => ([LTitle; LPoints (Z.of_nat (List.length (p_pts s))); LBox (mbb_of (p_pts s)); LArea a],
                Some e)
        end
     end) /\ after s (snd (summary s)).
Proof.
  intros s C. unfold summary.
  destruct (read_n_ok hullf s C) as [R1 _]. pose proof (read_ok_after _ _ _ _ R1) as A1.
  destruct R1 as [V1 [K1 [C1 _]]]. destruct (read_n s) as [n s1]. cbn [fst snd] in *.
  destruct (read_mbb_ok hullf s1 C1) as [R2 _]. pose proof (read_ok_after _ _ _ _ R2) as A2.
  destruct R2 as [V2 [K2 [C2 _]]]. destruct (read_mbb s1) as [b s2]. cbn [fst snd] in *.
  destruct (get_window_ok hullf s2 C2) as [R3 _]. pose proof (read_ok_after _ _ _ _ R3) as A3.
  destruct R3 as [V3 [K3 [C3 _]]]. destruct (get_window s2) as [w s3]. cbn [fst snd] in *.
  pose proof (after_trans _ _ _ A1 A2) as A12. pose proof (after_trans _ _ _ A12 A3) as A13.
  rewrite (after_window _ _ A12) in V3. subst w.
  destruct K1 as [_ [_ [_ [_ [_ P1]]]]]. rewrite P1 in V2. subst n b.
  destruct (window_area (window_or_default s)) as [a|] eqn:EA; [|split; [reflexivity|exact A13]].
  pose proof (after_read_lambda s3 C3) as A4.
  pose proof (read_is s3 ALambdaWindow C3) as RV. simpl in RV.
  pose proof (after_reads s s3 C A13 ALambdaWindow) as SR.
  rewrite (read_is s ALambdaWindow C), (read_is s3 ALambdaWindow C3) in SR.
  assert (D : p_df (snd (read_lambda_window s3)) = p_df s).
  { destruct (after_trans _ _ _ A13 A4) as [[Q _] _ _ _]. exact Q. }
  simpl in SR. unfold shown_lambda.
  destruct (read_lambda_window s3) as [r s4]. cbn [fst snd] in *.
  pose proof (after_trans _ _ _ A13 A4) as A14.
  destruct (c_lambda_window (p_cache s)) as [v|].
  - rewrite <- SR in RV. destruct r as [x|e]; [|discriminate]. inversion RV; subst.
    split; [|exact A14]. simpl. rewrite D. reflexivity.
  - rewrite <- SR in RV. destruct r as [x|e], (lambda_of s) as [x'|e']; try discriminate; inversion RV; subst.
    + split; [|exact A14]. simpl. rewrite D. reflexivity.
    + split; [reflexivity|exact A14].
Qed.

(** ** plot *)
Lemma plot_is : forall s wd title hl ax xs ys, coherent hullf s ->
  frame_column (p_df s) (p_x s) = Ok xs -> frame_column (p_df s) (p_y s) = Ok ys ->
  fst (plot hullf wd title hl ax s) =
    (match (if wd then window_or_default s else WPoly []) with
     | WMethod => (mkfig title xs ys [] false, Raise AttributeError)
     | WPoly parts => (mkfig title xs ys ((if wd then [parts] else []) ++
                         (if hl then [[hullf (p_pts s)]] else [])) true, Ok ax)
     end) /\ after s (snd (plot hullf wd title hl ax s)).
Proof.
  intros s wd title hl ax xs ys C X Y. unfold plot. rewrite X, Y.
  assert (H : forall s1 ws, coherent hullf s1 -> after s s1 ->
    let r := (let (hs, s2) := if hl then let (h, s2) := read_hull hullf s1 in ([[h]], s2) else ([], s1) in
              (mkfig title xs ys (ws ++ hs) true, Ok ax : res bool, s2)) in
    fst r = (mkfig title xs ys (ws ++ (if hl then [[hullf (p_pts s)]] else [])) true, Ok ax) /\ after s (snd r)).
  { intros s1 ws C1 A1. destruct hl; [|split; [reflexivity|exact A1]].
    destruct (read_hull_ok hullf s1 C1) as [R2 _]. pose proof (read_ok_after _ _ _ _ R2) as A2.
    destruct R2 as [V2 _]. destruct (read_hull hullf s1) as [h s2]. cbn [fst snd] in *.
    destruct (af_core _ _ A1) as [_ [_ [_ [_ [_ P]]]]]. rewrite P in V2. subst h.
    split; [reflexivity|]. eapply after_trans; eauto. }
  destruct wd.
  - destruct (get_window_ok hullf s C) as [R1 _]. pose proof (read_ok_after _ _ _ _ R1) as A1.
    destruct R1 as [V1 [K1 [C1 _]]]. destruct (get_window s) as [w s1]. cbn [fst snd] in *. subst w.
    destruct (window_or_default s) as [parts|]; simpl.
    + apply (H s1 [parts] C1 A1).
    + split; [reflexivity|exact A1].
  - cbv zeta. apply (H s [] C (after_refl s C)).
Qed.

(** ** Histories *)
Lemma history_core : forall ops s, coherent hullf s -> no_marks ops ->
  p_df (history hullf ops s) = p_df s /\ p_pts (history hullf ops s) = p_pts s /\
  p_x (history hullf ops s) = (if flipped ops then p_y s else p_x s) /\
  p_y (history hullf ops s) = (if flipped ops then p_x s else p_y s) /\
  coherent hullf (history hullf ops s).
Proof.
  induction ops as [|o ops IH]; intros s C N.
  - simpl. auto.
  - assert (N' : no_marks ops) by (intros m n I; apply (N m n); right; exact I).
    destruct (step_ok hullf o s C) as [S1 [S2 _]].
    destruct (IH (step hullf o s) S1 N') as [H1 [H2 [H3 [H4 H5]]]].
    change (history hullf (o :: ops) s) with (history hullf ops (step hullf o s)).
    rewrite H1, H2, H3, H4, S2.
    destruct o as [a|w| |m n].
    + simpl. destruct (read_step hullf a s C) as [_ [[K1 [_ [_ [K4 [K5 _]]]]] _]].
      unfold flipped. simpl. rewrite K1, K4, K5. do 4 (split; [reflexivity|]); exact H5.
    + unfold flipped. simpl. do 4 (split; [reflexivity|]); exact H5.
    + unfold flipped. simpl. rewrite Nat.odd_succ, <- Nat.negb_odd.
      destruct (Nat.odd _); simpl; do 4 (split; [reflexivity|]); exact H5.
    + exfalso. apply (N m n). left. reflexivity.
Qed.

Lemma history_window : forall ops s, coherent hullf s -> no_window ops ->
  window_or_default (history hullf ops s) = window_or_default s.
Proof.
  induction ops as [|o ops IH]; intros s C N.
  - reflexivity.
  - assert (N' : no_window ops) by (intros w I; apply (N w); right; exact I).
    destruct (step_ok hullf o s C) as [S1 [S2 _]].
    change (history hullf (o :: ops) s) with (history hullf ops (step hullf o s)).
    rewrite (IH _ S1 N'). destruct o as [a|w| |m n].
    + simpl. destruct (read_step hullf a s C) as [_ [[_ [_ [_ [_ [_ K6]]]]] [W _]]].
      unfold window_or_default in *. destruct W as [W|[W1 W2]].
      * rewrite W, K6. reflexivity.
      * rewrite W2, W1. reflexivity.
    + exfalso. apply (N w). left. reflexivity.
    + reflexivity.
    + simpl. unfold add_marks. unfold window_or_default.
      match goal with |- context[store_marks s ?n ?m] => destruct (store_marks_keeps n m s) as [K1 [K2 K3]] end.
      rewrite K1, K3. reflexivity.
Qed.

End Reads.

(** ** Marks *)
Lemma zip_set_rows : forall (rows : list drow) (col : list cell) i j, List.length col = List.length rows -> i <> j ->
  map (get_cell j) (zip_with (fun r c => set_nth i c r) rows col) = map (get_cell j) rows.
Proof.
  assert (G : forall (r : drow) i j c, i <> j -> nth j (set_nth i c r) CNaN = nth j r CNaN).
  { induction r; destruct i, j; simpl; intros c H; auto; try lia. }
  induction rows; destruct col; simpl; intros i j E H; try discriminate; auto.
  f_equal; [|apply IHrows; auto]. unfold get_cell. apply G. exact H.
Qed.
Lemma zip_set_col : forall (rows : list drow) (col : list cell) i, List.length col = List.length rows ->
  (forall r, In r rows -> (i < List.length r)%nat) ->
  map (get_cell i) (zip_with (fun r c => set_nth i c r) rows col) = col.
Proof.
  assert (G : forall (r : drow) i c, (i < List.length r)%nat -> nth i (set_nth i c r) CNaN = c).
  { induction r; destruct i; simpl; intros c H; auto; try lia. apply IHr. lia. }
  induction rows; destruct col; simpl; intros i E H; try discriminate; auto.
  f_equal; [|apply IHrows; auto]. unfold get_cell. apply G. auto.
Qed.
Lemma zip_len : forall A B C (f : A -> B -> C) a b, List.length b = List.length a ->
  List.length (zip_with f a b) = List.length a.
Proof. induction a; destruct b; simpl; intros; try discriminate; auto. Qed.
Lemma zip_set_width : forall (rows : list drow) (col : list cell) i n,
  (forall r, In r rows -> List.length r = n) ->
  forall r, In r (zip_with (fun r c => set_nth i c r) rows col) -> List.length r = n.
Proof.
  assert (G : forall (r : drow) i c, List.length (set_nth i c r) = List.length r).
  { induction r; destruct i; simpl; intros c; auto. }
  induction rows; destruct col; simpl; intros i n H r R; try tauto.
  destruct R as [<-|R]; [rewrite G; auto|]. eapply IHrows; eauto.
Qed.
Lemma col_index_inj : forall cols a b i, col_index a cols = Some i -> col_index b cols = Some i -> a = b.
Proof.
  induction cols as [|c cols IH]; simpl; intros a b i HA HB; [discriminate|].
  destruct (String.eqb_spec a c), (String.eqb_spec b c); try congruence.
  - inversion HA; subst. destruct (col_index b cols); discriminate.
  - inversion HB; subst. destruct (col_index a cols); discriminate.
  - destruct (col_index a cols) eqn:EA; [|discriminate]. destruct (col_index b cols) eqn:EB; [|discriminate].
    inversion HA; subst. inversion HB; subst. eapply IH; eauto.
Qed.

(** Writing one column: that column has the new content, the others keep theirs. *)
Lemma set_column_all : forall f name col f', rect f -> set_column f name col = Ok f' ->
  rect f' /\ List.length (f_rows f') = List.length (f_rows f) /\
  frame_column f' name = Ok col /\
  forall c, In c (f_cols f) -> c <> name -> frame_column f' c = frame_column f c.
Proof.
  intros f name col f' R H.
  destruct (in_dec string_dec name (f_cols f)) as [I|I].
  - unfold set_column in H.
    destruct (Nat.eqb_spec (List.length col) (List.length (f_rows f))) as [E|]; [|discriminate].
    destruct (proj1 (col_index_in _ _) I) as [i Hi]. rewrite Hi in H. inversion H; subst; clear H. simpl.
    split; [|split; [apply zip_len; auto|split]].
    + intros r Hr. simpl in *. eapply zip_set_width; eauto.
    + unfold frame_column. simpl. rewrite Hi. f_equal. apply zip_set_col; auto.
      intros r Hr. rewrite (R r Hr). eapply col_index_lt; eauto.
    + intros c C N. unfold frame_column. simpl. destruct (proj1 (col_index_in _ _) C) as [j Hj]. rewrite Hj.
      f_equal. apply zip_set_rows; auto. intros X. subst. apply N. eapply col_index_inj; eauto.
  - destruct (set_column_fresh _ _ _ _ R I H) as [F1 [F2 [F3 [F4 F5]]]].
    split; auto. split; auto. rewrite column_frame in F4.
    split; [destruct (frame_column f' name); congruence|].
    intros c C _. specialize (F5 c C). rewrite !column_frame in F5.
    destruct (proj1 (col_index_in _ _) C) as [j Hj].
    assert (X : exists l, frame_column f c = Ok l) by (unfold frame_column; rewrite Hj; eauto).
    destruct X as [l X]. rewrite X in *. destruct (frame_column f' c); congruence.
Qed.

Lemma set_column_cols : forall f name col f' c, set_column f name col = Ok f' -> In c (f_cols f) -> In c (f_cols f').
Proof.
  intros f name col f' c H I. unfold set_column in H.
  destruct (Nat.eqb _ _); [|discriminate]. destruct (col_index name (f_cols f)); inversion H; subst; simpl; auto.
  apply in_app_iff. auto.
Qed.

Lemma store_marks_cols : forall names marks s c, rect (p_df s) -> In c (f_cols (p_df s)) -> ~ In c names ->
  rect (p_df (fst (store_marks s names marks))) /\
  frame_column (p_df (fst (store_marks s names marks))) c = frame_column (p_df s) c /\
  In c (f_cols (p_df (fst (store_marks s names marks)))).
Proof.
  induction names as [|n names IH]; intros marks s c R I N; destruct marks as [|m marks]; simpl; auto.
  destruct (set_column (p_df s) n m) as [f|] eqn:SC; simpl; auto.
  destruct (set_column_all _ _ _ _ R SC) as [F1 [F2 [F3 F4]]].
  destruct (IH marks (with_df s f (p_nmarks s + 1)) c F1) as [H1 [H2 H3]].
  - simpl. eapply set_column_cols; eauto.
  - intros X. apply N. right. exact X.
  - split; auto. split; auto. rewrite H2. simpl. apply F4; auto. intros X. apply N. left. auto.
Qed.

Lemma store_marks_rows : forall names marks s,
  List.length (f_rows (p_df (fst (store_marks s names marks)))) = List.length (f_rows (p_df s)).
Proof.
  induction names as [|n names IH]; intros marks s; destruct marks as [|m marks]; simpl; auto.
  destruct (set_column (p_df s) n m) as [f|] eqn:SC; simpl; auto.
  rewrite IH. simpl. unfold set_column in SC.
  destruct (Nat.eqb_spec (List.length m) (List.length (f_rows (p_df s)))) as [E|]; [|discriminate].
  destruct (col_index n (f_cols (p_df s))); inversion SC; subst; simpl; apply zip_len; auto.
Qed.

Lemma store_marks_xy : forall names marks s,
  p_x (fst (store_marks s names marks)) = p_x s /\ p_y (fst (store_marks s names marks)) = p_y s.
Proof.
  induction names as [|n names IH]; intros marks s; destruct marks as [|m marks]; simpl; auto.
  destruct (set_column (p_df s) n m) as [f|] eqn:SC; simpl; auto. 
  destruct (IH marks (with_df s f (p_nmarks s + 1))) as [A B]. auto.
Qed.
