(** C129, rational part: mean_center, weighted_mean_center, manhattan_median,
    minimum_bounding_rectangle and the functions of geometry.py on array-likes
    of any shape. *)
From Coq Require Import ZArith QArith Qabs Qminmax List Bool Arith Lia.
From Verif Require Import Base Centrography_model Center_model Quadrat_model Geometry_model Shapes_model Shapes_spec.
Import ListNotations.
Local Open Scope Q_scope.

(** ** Sequences *)
Lemma asarray_cases : forall A (s : seqarg A),
  (ragged s /\ asarray s = Raise ValueError) \/ (~ ragged s /\ exists a, asarray s = Ok a).
Proof.
  intros A [x|l|rows].
  - right. split; [|eexists; reflexivity]. intros (rows & r & r' & E & _). discriminate.
  - right. split; [|eexists; reflexivity]. intros (rows & r & r' & E & _). discriminate.
  - destruct rows as [|r rows].
    { right. split; [|simpl; eauto]. intros (rows & r & r' & E & I & _). injection E as <-. destruct I. }
    cbn [asarray]. destruct (forallb _ rows) eqn:F.
    + right. split; [|eauto]. rewrite forallb_forall in F.
      assert (L : forall q, In q (r :: rows) -> length q = length r).
      { intros q [<-|I]; [reflexivity|]. apply Nat.eqb_eq. exact (F q I). }
      intros (rows' & q & q' & E & I & I' & N). injection E as <-. apply N. rewrite (L q I), (L q' I'). reflexivity.
    + left. split; [|reflexivity].
      assert (X : existsb (fun r' => negb (Nat.eqb (length r') (length r))) rows = true).
      { clear - F. induction rows as [|q rows IH]; [discriminate|]. cbn [forallb existsb] in *.
        destruct (Nat.eqb (length q) (length r)); [|reflexivity]. exact (IH F). }
      rewrite existsb_exists in X. destruct X as (q & I & Q). apply negb_true_iff, Nat.eqb_neq in Q.
      exists (r :: rows), r, q. split; [reflexivity|]. split; [left; reflexivity|]. split; [right; exact I|].
      intro E. apply Q. symmetry. exact E.
Qed.

Lemma via_ok : forall A B (f : arr A -> res B) s a, asarray s = Ok a -> f a <> Raise AttributeError ->
  via_asarray f s = f a.
Proof.
  intros A B f s a E N. unfold via_asarray. rewrite E. simpl. destruct (f a) as [v|e]; [reflexivity|].
  destruct e; try reflexivity. congruence.
Qed.

Lemma via_ragged : forall A B (f : arr A -> res B) s, asarray s = Raise ValueError -> via_asarray f s = Raise ValueError.
Proof. intros A B f s E. unfold via_asarray. rewrite E. reflexivity. Qed.

Ltac noattr := intro; repeat match goal with
  | H : context [match ?x with _ => _ end] |- _ => destruct x; try discriminate
  | H : context [if ?x then _ else _] |- _ => destruct x; try discriminate
  end; try discriminate.

(** A nested list is taken exactly like the array with the same numbers; rows of
    different lengths raise ValueError in every function. *)
Theorem C129_sequences : forall (s : seqarg Q),
  (~ ragged s /\ exists a, asarray s = Ok a /\
     ndim a = (match s with SNum _ => 0 | SList _ | SRows [] => 1 | SRows _ => 2 end)%nat /\
     dispatch mean_center_arr (PSeq s) = dispatch mean_center_arr (PArr a) /\
     (forall w, dispatch (weighted_mean_center_arr w) (PSeq s) = dispatch (weighted_mean_center_arr w) (PArr a)) /\
     dispatch manhattan_median_arr (PSeq s) = dispatch manhattan_median_arr (PArr a) /\
     dispatch minimum_bounding_rectangle_arr (PSeq s) = dispatch minimum_bounding_rectangle_arr (PArr a) /\
     bbox_seq s = bbox_arr a /\ area_seq s = area_arr a) \/
  (ragged s /\
     dispatch mean_center_arr (PSeq s) = Raise ValueError /\
     (forall w, dispatch (weighted_mean_center_arr w) (PSeq s) = Raise ValueError) /\
     dispatch manhattan_median_arr (PSeq s) = Raise ValueError /\
     dispatch minimum_bounding_rectangle_arr (PSeq s) = Raise ValueError /\
     bbox_seq s = Raise ValueError /\ area_seq s = Raise ValueError).
Proof.
  intro s. destruct (asarray_cases Q s) as [(R & E)|(R & a & E)].
  - right. split; [exact R|]. cbn [dispatch]. repeat split; intros; try (apply via_ragged; exact E).
    + unfold bbox_seq. rewrite E. reflexivity.
    + unfold area_seq. rewrite E. reflexivity.
  - left. split; [exact R|]. exists a. split; [exact E|].
    split; [destruct s as [x|l|[|r rows]]; cbn in E; try (injection E as <-; reflexivity); destruct (forallb _ rows); [injection E as <-; reflexivity|discriminate]|].
    cbn [dispatch]. repeat split; intros.
    + apply via_ok; [exact E|]. unfold mean_center_arr. noattr.
    + apply via_ok; [exact E|]. unfold weighted_mean_center_arr. noattr.
    + apply via_ok; [exact E|]. unfold manhattan_median_arr. noattr.
    + apply via_ok; [exact E|]. unfold minimum_bounding_rectangle_arr. noattr.
    + unfold bbox_seq. rewrite E. reflexivity.
    + unfold area_seq. rewrite E. reflexivity.
Qed.
Print Assumptions C129_sequences.

(** ** Which shapes are accepted *)
Lemma rows4 : forall A (l : list A), length l = 4%nat -> exists a b c d, l = [a; b; c; d].
Proof. intros A [|a [|b [|c [|d [|e l]]]]] E; try discriminate. eauto. Qed.

Lemma asarray_rows : forall A (rows : list (list A)) k, rows <> [] -> Forall (fun r => length r = k) rows ->
  asarray (SRows rows) = Ok (A2 k rows).
Proof.
  intros A [|r rows] k N F; [congruence|]. cbn [asarray]. inversion F as [|r' rows' L F']. subst.
  replace (forallb _ rows) with true; [reflexivity|]. symmetry. apply forallb_forall. intros q I.
  rewrite Forall_forall in F'. rewrite (F' q I). apply Nat.eqb_refl.
Qed.

Theorem C129_shapes : forall (a : arr Q), arr_wf a ->
  (succeeds (mean_center_arr a) <-> ndim a <> 0%nat) /\
  (forall w, succeeds (weighted_mean_center_arr w a) <-> ndim a <> 0%nat /\ length w = nrows a) /\
  (succeeds (manhattan_median_arr a) <-> ndim a <> 0%nat) /\
  (succeeds (minimum_bounding_rectangle_arr a) <-> ncols a = 2%nat /\ nrows a <> 0%nat) /\
  (succeeds (bbox_arr a) <-> (ndim a = 2%nat /\ nrows a <> 0%nat) \/ (ndim a = 1%nat /\ nrows a = 4%nat)) /\
  (succeeds (area_arr a) <-> ndim a <> 0%nat /\ nrows a = 4%nat) /\
  (succeeds (centroid_arr a) <-> ndim a = 2%nat \/ (ndim a = 1%nat /\ nrows a = 4%nat)).
Proof.
  intros a W.
  assert (OK : forall (B : Type) (v : B), succeeds (Ok v)) by (intros B v; exists v; reflexivity).
  assert (NO : forall (B : Type) e, ~ succeeds (@Raise B e)) by (intros B e (v & E); discriminate).
  destruct a as [x|l|k rows]; cbn [ndim nrows ncols] in *.
  - repeat match goal with |- _ /\ _ => split | |- _ <-> _ => split | |- forall w : list Q, _ => intro end; intro Y;
      try (exfalso; exact (NO _ _ Y)); exfalso.
    + apply Y; reflexivity.
    + destruct Y as (Y & _). apply Y; reflexivity.
    + apply Y; reflexivity.
    + destruct Y as (Y & _). discriminate.
    + destruct Y as [(Y & _)|(Y & _)]; discriminate.
    + destruct Y as (Y & _). apply Y; reflexivity.
    + destruct Y as [Y|(Y & _)]; discriminate.
  - split; [split; [discriminate|intro; apply OK]|].
    split. { intro w. unfold weighted_mean_center_arr. destruct (Nat.eqb_spec (length w) (length l)) as [E|E].
      - split; [intro; split; [discriminate|exact E]|intro; apply OK].
      - split; [intro H; exfalso; exact (NO _ _ H)|intros (_ & H); congruence]. }
    split; [split; [discriminate|intro; apply OK]|].
    split. { split; [|intros (H & _); discriminate]. destruct l; intro H; exfalso; exact (NO _ _ H). }
    split. { unfold bbox_arr. destruct (Nat.eqb_spec (length l) 4) as [E|E].
      - split; [right; split; [reflexivity|exact E]|intro; apply OK].
      - split; [destruct l; intro H; exfalso; exact (NO _ _ H)|intros [(H & _)|(_ & H)]; [discriminate|congruence]]. }
    split.
    + split.
      * intro H. split; [discriminate|]. destruct l as [|x0 [|x1 [|x2 [|x3 [|x4 l]]]]]; try (exfalso; exact (NO _ _ H)). reflexivity.
      * intros (_ & E). destruct (rows4 _ l E) as (x0 & x1 & x2 & x3 & ->). apply OK.
    + split.
      * intro H. right. split; [reflexivity|]. destruct l as [|x0 [|x1 [|x2 [|x3 [|x4 l]]]]]; try (exfalso; exact (NO _ _ H)). reflexivity.
      * intros [E|(_ & E)]; [discriminate|]. destruct (rows4 _ l E) as (x0 & x1 & x2 & x3 & ->). apply OK.
  - split; [split; [discriminate|intro; apply OK]|].
    split. { intro w. unfold weighted_mean_center_arr. destruct (Nat.eqb_spec (length w) (length rows)) as [E|E].
      - split; [intro; split; [discriminate|exact E]|intro; apply OK].
      - split; [intro H; exfalso; exact (NO _ _ H)|intros (_ & H); congruence]. }
    split; [split; [discriminate|intro; apply OK]|].
    split. { destruct rows as [|r rows].
      - split; [intro H; exfalso; exact (NO _ _ H)|intros (_ & H); exfalso; apply H; reflexivity].
      - cbn [minimum_bounding_rectangle_arr]. destruct (Nat.eqb_spec k 2) as [E|E].
        + split; [intro; split; [exact E|discriminate]|intro; apply OK].
        + split; [intro H; exfalso; exact (NO _ _ H)|intros (H & _); congruence]. }
    split. { destruct rows as [|r rows].
      - split; [intro H; exfalso; exact (NO _ _ H)|intros [(_ & H)|(H & _)]; [exfalso; apply H; reflexivity|discriminate]].
      - split; [left; split; [reflexivity|discriminate]|intro; apply OK]. }
    split.
    + split.
      * intro H. split; [discriminate|]. destruct rows as [|x0 [|x1 [|x2 [|x3 [|x4 l]]]]]; try (exfalso; exact (NO _ _ H)). reflexivity.
      * intros (_ & E). destruct (rows4 _ rows E) as (x0 & x1 & x2 & x3 & ->). apply OK.
    + split; [left; reflexivity|intro; apply OK].
Qed.
Print Assumptions C129_shapes.

(** The exceptions of the shapes that are not accepted. *)
Theorem C129_errors : forall (a : arr Q) e,
  (mean_center_arr a = Raise e -> e = ValueError) /\
  (forall w, weighted_mean_center_arr w a = Raise e -> e = if Nat.eqb (ndim a) 0 then TypeError else ValueError) /\
  (manhattan_median_arr a = Raise e -> e = TypeError) /\
  (minimum_bounding_rectangle_arr a = Raise e ->
     e = if Nat.eqb (ndim a) 0 || (Nat.eqb (ndim a) 1 && negb (Nat.eqb (nrows a) 0)) then TypeError else ValueError) /\
  (bbox_arr a = Raise e ->
     e = if Nat.eqb (ndim a) 0 || (Nat.eqb (ndim a) 1 && negb (Nat.eqb (nrows a) 0)) then TypeError else ValueError) /\
  (area_arr a = Raise e -> e = if Nat.eqb (ndim a) 0 then TypeError else AssertionError) /\
  (centroid_arr a = Raise e -> e = if Nat.eqb (ndim a) 0 then TypeError else AssertionError) /\
  (forall s x y, contains_seq s x y = Raise NotImplementedError) /\ (forall s, centroid_seq s = Raise AttributeError).
Proof.
  intros a e. destruct a as [x|l|k rows]; cbn [ndim nrows]; repeat split; intros; try reflexivity;
    try (cbn in *; congruence).
  - cbn in *. destruct (Nat.eqb _ _); congruence.
  - destruct l; cbn in *; congruence.
  - unfold bbox_arr in H. destruct (Nat.eqb _ 4); [discriminate|]. destruct l; cbn; congruence.
  - cbn in H. destruct l as [|x0 [|x1 [|x2 [|x3 [|x4 l]]]]]; cbn; congruence.
  - cbn in H. destruct l as [|x0 [|x1 [|x2 [|x3 [|x4 l]]]]]; cbn; congruence.
  - cbn in *. destruct (Nat.eqb _ _); congruence.
  - destruct rows; cbn in *; [congruence|]. destruct (Nat.eqb k 2); congruence.
  - destruct rows; cbn in *; congruence.
  - cbn in H. destruct rows as [|x0 [|x1 [|x2 [|x3 [|x4 l]]]]]; cbn; congruence.
Qed.
Print Assumptions C129_errors.

(** ** Columns *)
Lemma per_column_nth : forall A B (d : A) (f : list A -> B) k rows j e, (j < k)%nat ->
  nth j (per_column d f k rows) e = f (map (fun r => nth j r d) rows).
Proof.
  intros A B d f k rows j e H. unfold per_column.
  rewrite (nth_indep _ e (f (col d 0 rows))) by (rewrite map_length, seq_length; exact H).
  rewrite (map_nth (fun j => f (col d j rows)) (seq 0 k) 0%nat j), seq_nth by exact H. reflexivity.
Qed.
Lemma per_column_length : forall A B (d : A) (f : list A -> B) k rows, length (per_column d f k rows) = k.
Proof. intros. unfold per_column. rewrite map_length, seq_length. reflexivity. Qed.

(** Each coordinate of a centre is the centre of that coordinate alone (the
    column as an array of one dimension), whatever the number of columns. *)
Theorem C129_columns : forall k rows w j, (j < k)%nat -> length w = length rows ->
  let column := A1 (map (fun r => nth j r 0) rows) in
  (exists l, mean_center_arr (A2 k rows) = Ok (Row l) /\ length l = k /\ mean_center_arr column = Ok (Num (nth j l NaN))) /\
  (exists l, weighted_mean_center_arr w (A2 k rows) = Ok (Row l) /\ length l = k /\
     weighted_mean_center_arr w column = Ok (Num (nth j l NaN))) /\
  (exists b l, manhattan_median_arr (A2 k rows) = Ok (b, Row l) /\ length l = k /\
     manhattan_median_arr column = Ok (b, Num (nth j l NaN))).
Proof.
  intros k rows w j H L column. unfold column. split; [|split].
  - eexists. split; [reflexivity|]. split; [apply per_column_length|]. rewrite per_column_nth by exact H. reflexivity.
  - cbn [weighted_mean_center_arr]. rewrite map_length, L, Nat.eqb_refl. eexists. split; [reflexivity|].
    split; [apply per_column_length|]. rewrite per_column_nth by exact H. reflexivity.
  - cbn [manhattan_median_arr]. rewrite map_length. eexists. eexists. split; [reflexivity|].
    split; [apply per_column_length|]. rewrite per_column_nth by exact H. reflexivity.
Qed.
Print Assumptions C129_columns.

(** ** Two columns: the functions of the other models *)
Lemma col_points0 : forall (pts : list pt), col 0 0 (map (fun p => [fst p; snd p]) pts) = map fst pts.
Proof. intros. unfold col. rewrite map_map. reflexivity. Qed.
Lemma col_points1 : forall (pts : list pt), col 0 1 (map (fun p => [fst p; snd p]) pts) = map snd pts.
Proof. intros. unfold col. rewrite map_map. reflexivity. Qed.
Lemma per_column2 : forall B (f : list Q -> B) (pts : list pt),
  per_column 0 f 2 (map (fun p => [fst p; snd p]) pts) = [f (map fst pts); f (map snd pts)].
Proof. intros. unfold per_column. cbn [seq map]. rewrite col_points0, col_points1. reflexivity. Qed.
Lemma combine_mapr : forall A B C (f : B -> C) (w : list A) (l : list B),
  combine w (map f l) = map (fun x => (fst x, f (snd x))) (combine w l).
Proof. intros A B C f w. induction w as [|a w IH]; intros [|b l]; [reflexivity..|]. cbn [map combine]. rewrite IH. reflexivity. Qed.
Lemma combine_mapl : forall A B C (f : A -> C) (w : list A) (l : list B),
  combine (map f w) l = map (fun x => (f (fst x), snd x)) (combine w l).
Proof. intros A B C f w. induction w as [|a w IH]; intros [|b l]; [reflexivity..|]. cbn [map combine]. rewrite IH. reflexivity. Qed.

Definition box_vec (b : box) : arr Q := A1 [bxmin b; bymin b; bxmax b; bymax b].

Theorem C129_two_columns : forall (pts : list pt),
  mean_center_arr (of_points pts) = Ok (Row [fst (mean_center pts); snd (mean_center pts)]) /\
  manhattan_median_arr (of_points pts) =
    (let (b, m) := manhattan_median pts in Ok (b, Row [fst m; snd m])) /\
  (forall w, weighted_mean_center_arr w (of_points pts) =
     match weighted_mean_center pts w with
     | Ok (Some c) => Ok (Row [Fin (fst c); Fin (snd c)])
     | Ok None => Ok (Row [NaN; NaN])
     | Raise e => Raise e
     end) /\
  minimum_bounding_rectangle_arr (of_points pts) = minimum_bounding_rectangle pts /\
  bbox_arr (of_points pts) = (let! b := geo_bbox (Pts pts) in Ok (box_vec b)) /\
  (pts <> [] -> exists x y, centroid_arr (of_points pts) = Ok (Row [Fin x; Fin y]) /\
     exists x' y', geo_centroid (Pts pts) = Ok (x', y') /\ x == x' /\ y == y') /\
  (forall l, (let! a := area_arr (A1 l) in match a with A0 v => Ok v | _ => Raise TypeError end) = geo_area (Vec l)) /\
  (forall b x y, contains_vec [bxmin b; bymin b; bxmax b; bymax b] x y = Ok (box_contains b (x, y))).
Proof.
  intro pts. unfold of_points. split; [|split; [|split; [|split; [|split; [|split; [|split]]]]]].
  - cbn [mean_center_arr]. rewrite per_column2. unfold col_mean, mean_center, Qlen. rewrite !map_length. reflexivity.
  - cbn [manhattan_median_arr]. rewrite per_column2, map_length. reflexivity.
  - intro w. cbn [weighted_mean_center_arr]. rewrite per_column2, map_length. unfold weighted_mean_center. unfold pt in *.
    destruct (Nat.eqb (length w) (length pts)) eqn:E; [|reflexivity].
    destruct pts as [|p pts].
    + destruct w; [reflexivity|discriminate E].
    + set (q := p :: pts). unfold col_wmean. change (map fst q) with (fst p :: map fst pts). change (map snd q) with (snd p :: map snd pts).
      cbv iota beta. change (fst p :: map fst pts) with (map fst q). change (snd p :: map snd pts) with (map snd q).
      assert (D : forall T (x y : T), match q with [] => x | _ :: _ => y end = y) by reflexivity. rewrite ?D.
      destruct (Qeq_bool (Qsum w) 0); [reflexivity|].
      rewrite !combine_mapr, !combine_mapl, !map_map. reflexivity.
  - destruct pts as [|p pts]; [reflexivity|]. cbn [map minimum_bounding_rectangle_arr Nat.eqb].
    change ([fst p; snd p] :: map (fun q : Q * Q => [fst q; snd q]) pts) with (map (fun q : Q * Q => [fst q; snd q]) (p :: pts)).
    rewrite col_points0, col_points1. reflexivity.
  - destruct pts as [|p pts]; [reflexivity|]. cbn [map bbox_arr].
    change ([fst p; snd p] :: map (fun q : Q * Q => [fst q; snd q]) pts) with (map (fun q : Q * Q => [fst q; snd q]) (p :: pts)).
    rewrite !per_column2. reflexivity.
  - intro N. cbn [centroid_arr mean_center_arr bind]. rewrite per_column2. unfold col_mean.
    assert (L : ~ Qlen pts == 0).
    { unfold Qlen. destruct pts as [|p pts]; [congruence|]. cbn [length]. rewrite Nat2Z.inj_succ.
      unfold Qeq. cbn. lia. }
    assert (X : forall f : pt -> Q, exists v, xdiv (Qsum (map f pts)) (Qlen (map f pts)) = Fin v /\ v == Qmean (map f pts)).
    { intro f. unfold xdiv. replace (Qlen (map f pts)) with (Qlen pts) by (unfold Qlen; rewrite map_length; reflexivity).
      destruct (Qeq_bool (Qlen pts) 0) eqn:Z; [apply Qeq_bool_eq in Z; contradiction|].
      eexists. split; [reflexivity|]. unfold Qmean.
      replace (Qlen (map f pts)) with (Qlen pts) by (unfold Qlen; rewrite map_length; reflexivity). reflexivity. }
    destruct (X fst) as (x & EX & HX), (X snd) as (y & EY & HY). unfold pt in *. rewrite EX, EY.
    exists x, y. split; [reflexivity|]. do 2 eexists. split; [reflexivity|]. split; [exact HX|exact HY].
  - intros [|x0 [|x1 [|x2 [|x3 [|x4 l]]]]]; reflexivity.
  - intros b x y. reflexivity.
Qed.
Print Assumptions C129_two_columns.

(** ** Boxes of points with another number of columns *)
(** The box of points with [k] columns has 2k entries, the minimum and maximum of
    each column; its area is defined for k = 2 only (AssertionError otherwise),
    and so is its centroid. *)
Lemma fold_min_le : forall l x, fold_left Qmin l x <= x /\ forall y, In y l -> fold_left Qmin l x <= y.
Proof.
  induction l as [|a l IH]; intros x; cbn [fold_left]; [split; [apply Qle_refl|intros y []]|].
  destruct (IH (Qmin x a)) as (A & B). split; [eapply Qle_trans; [exact A|apply Q.le_min_l]|].
  intros y [<-|I]; [eapply Qle_trans; [exact A|apply Q.le_min_r]|exact (B y I)].
Qed.
Lemma fold_max_ge : forall l x, x <= fold_left Qmax l x /\ forall y, In y l -> y <= fold_left Qmax l x.
Proof.
  induction l as [|a l IH]; intros x; cbn [fold_left]; [split; [apply Qle_refl|intros y []]|].
  destruct (IH (Qmax x a)) as (A & B). split; [eapply Qle_trans; [apply Q.le_max_l|exact A]|].
  intros y [<-|I]; [eapply Qle_trans; [apply Q.le_max_r|exact A]|exact (B y I)].
Qed.
Lemma fold_min_in : forall l x, exists y, In y (x :: l) /\ fold_left Qmin l x == y.
Proof.
  induction l as [|a l IH]; intros x; cbn [fold_left]; [exists x; split; [left|]; reflexivity|].
  destruct (IH (Qmin x a)) as (y & [I|I] & E).
  - subst y. destruct (Q.min_spec x a) as [(_ & M)|(_ & M)]; [exists x|exists a]; (split; [cbn; tauto|eapply Qeq_trans; [exact E|exact M]]).
  - exists y. split; [cbn; tauto|exact E].
Qed.
Lemma fold_max_in : forall l x, exists y, In y (x :: l) /\ fold_left Qmax l x == y.
Proof.
  induction l as [|a l IH]; intros x; cbn [fold_left]; [exists x; split; [left|]; reflexivity|].
  destruct (IH (Qmax x a)) as (y & [I|I] & E).
  - subst y. destruct (Q.max_spec x a) as [(_ & M)|(_ & M)]; [exists a|exists x]; (split; [cbn; tauto|eapply Qeq_trans; [exact E|exact M]]).
  - exists y. split; [cbn; tauto|exact E].
Qed.

Theorem C129_bbox : forall k rows, (1 <= k)%nat -> rows <> [] ->
  exists l, bbox_arr (A2 k rows) = Ok (A1 l) /\ length l = (2 * k)%nat /\
    (forall j, (j < k)%nat ->
       (forall r, In r rows -> nth j l 0 <= nth j r 0 <= nth (k + j) l 0) /\
       (exists r, In r rows /\ nth j l 0 == nth j r 0) /\ (exists r, In r rows /\ nth (k + j) l 0 == nth j r 0)) /\
    (succeeds (area_arr (A1 l)) <-> k = 2%nat) /\ (succeeds (centroid_arr (A1 l)) <-> k = 2%nat) /\
    (k <> 2%nat -> area_arr (A1 l) = Raise AssertionError /\ centroid_arr (A1 l) = Raise AssertionError) /\
    (k = 1%nat -> forall x y, contains_vec l x y = Raise IndexError).
Proof.
  intros k rows K N.
  exists (per_column 0 lmin k rows ++ per_column 0 lmax k rows).
  assert (L : length (per_column 0 lmin k rows ++ per_column 0 lmax k rows) = (2 * k)%nat)
    by (rewrite app_length, !per_column_length; lia).
  split; [destruct rows; [congruence|reflexivity]|]. split; [exact L|].
  split.
  { intros j J. rewrite app_nth1, per_column_nth by (rewrite ?per_column_length; exact J).
    rewrite app_nth2 by (rewrite per_column_length; lia). rewrite per_column_length.
    replace (k + j - k)%nat with j by lia. rewrite per_column_nth by exact J.
    destruct rows as [|r0 rows]; [congruence|]. cbn [map lmin lmax]. unfold Qmin_list, Qmax_list.
    set (c := map (fun r => nth j r 0) rows).
    destruct (fold_min_le c (nth j r0 0)) as (M1 & M2), (fold_max_ge c (nth j r0 0)) as (X1 & X2).
    assert (IC : forall y, In y (nth j r0 0 :: c) -> exists r, In r (r0 :: rows) /\ y = nth j r 0).
    { intros y [<-|I]; [exists r0; split; [left|]; reflexivity|]. unfold c in I. apply in_map_iff in I.
      destruct I as (r & <- & I). exists r. split; [right; exact I|reflexivity]. }
    split; [|split].
    - intros r [<-|I]; [split; assumption|].
      assert (I' : In (nth j r 0) c) by (apply (in_map (fun r => nth j r 0)); exact I).
      split; [apply M2|apply X2]; exact I'.
    - destruct (fold_min_in c (nth j r0 0)) as (y & I & E). destruct (IC y I) as (r & I' & ->). exists r. auto.
    - destruct (fold_max_in c (nth j r0 0)) as (y & I & E). destruct (IC y I) as (r & I' & ->). exists r. auto. }
  set (l := per_column 0 lmin k rows ++ per_column 0 lmax k rows) in *. clearbody l.
  assert (D : k = 2%nat \/ k <> 2%nat) by lia.
  assert (F : k <> 2%nat -> area_arr (A1 l) = Raise AssertionError /\ centroid_arr (A1 l) = Raise AssertionError).
  { intro Q. destruct l as [|x0 [|x1 [|x2 [|x3 [|x4 l]]]]]; try (split; reflexivity). cbn in L. lia. }
  assert (T : k = 2%nat -> succeeds (area_arr (A1 l)) /\ succeeds (centroid_arr (A1 l))).
  { intro Q. subst k. destruct (rows4 _ l L) as (a & b & c & d & ->). split; eexists; reflexivity. }
  split; [|split; [|split]].
  - split; [|intro Q; exact (proj1 (T Q))]. intro S. destruct D as [D|D]; [exact D|]. destruct S as (v & S).
    rewrite (proj1 (F D)) in S. discriminate.
  - split; [|intro Q; exact (proj2 (T Q))]. intro S. destruct D as [D|D]; [exact D|]. destruct S as (v & S).
    rewrite (proj2 (F D)) in S. discriminate.
  - exact F.
  - intros Q x y. subst k. destruct l as [|a [|b [|c l]]]; try discriminate L. reflexivity.
Qed.
Print Assumptions C129_bbox.

(** A box of points with heights is read as if the third minimum were the largest
    x and the largest x were the largest y, so that points of the pattern are
    reported outside (and others, far away, inside). *)
Theorem C129_contains_refuted : forall x0 y0 z0 x1 y1 z1 x y,
  (contains_vec [x0; y0; z0; x1; y1; z1] x y = Ok true <-> (x0 <= x <= z0 /\ y0 <= y <= x1)) /\
  (exists rows l, bbox_arr (A2 3 rows) = Ok (A1 l) /\ Forall (fun r => length r = 3%nat) rows /\
     (exists r, In r rows /\ contains_vec l (nth 0 r 0) (nth 1 r 0) = Ok false) /\
     contains_vec l 2 9 = Ok true /\ (forall r, In r rows -> nth 1 r 0 <= 3)).
Proof.
  intros x0 y0 z0 x1 y1 z1 x y. split.
  - cbn [contains_vec]. split.
    + intro E. injection E as E. rewrite !andb_true_iff, !Qle_bool_iff in E. tauto.
    + intro E. f_equal. rewrite !andb_true_iff, !Qle_bool_iff. tauto.
  - exists [[1; 1; 5]; [10; 3; 6]], [1; 1; 5; 10; 3; 6]. split; [reflexivity|].
    split; [repeat constructor|]. split; [exists [10; 3; 6]; split; [right; left; reflexivity|reflexivity]|].
    split; [reflexivity|]. intros r [<-|[<-|[]]]; cbn; discriminate.
Qed.
Print Assumptions C129_contains_refuted.

(** [area] accepts an array of four points and returns one number per column. *)
Theorem C129_area_refuted : forall k r0 r1 r2 r3,
  exists l, area_arr (A2 k [r0; r1; r2; r3]) = Ok (A1 l) /\ length l = k /\
    forall j, (j < k)%nat -> nth j l 0 = Qabs ((nth j r2 0 - nth j r0 0) * (nth j r3 0 - nth j r1 0)).
Proof.
  intros k r0 r1 r2 r3. eexists. split; [reflexivity|]. split; [rewrite map_length, seq_length; reflexivity|].
  intros j J. rewrite (nth_indep _ 0 (rect_area (nth 0 r0 0) (nth 0 r1 0) (nth 0 r2 0) (nth 0 r3 0)))
    by (rewrite map_length, seq_length; exact J).
  rewrite (map_nth (fun j => rect_area (nth j r0 0) (nth j r1 0) (nth j r2 0) (nth j r3 0)) (seq 0 k) 0%nat j), seq_nth by exact J.
  reflexivity.
Qed.
Print Assumptions C129_area_refuted.

(** A centroid of points in one column is a number, otherwise one per column. *)
Theorem C129_centroid : forall k rows, (1 <= k)%nat ->
  (exists l, mean_center_arr (A2 k rows) = Ok (Row l) /\
    centroid_arr (A2 k rows) = Ok (if Nat.eqb k 1 then Num (nth 0 l NaN) else Row l)) /\
  (forall x0 y0 x1 y1, exists cx cy, centroid_arr (A1 [x0; y0; x1; y1]) = Ok (Row [Fin cx; Fin cy]) /\
    cx - x0 == x1 - cx /\ cy - y0 == y1 - cy).
Proof.
  intros k rows K. split; [|intros x0 y0 x1 y1; do 2 eexists; split; [reflexivity|]; unfold Qmean, Qlen; cbn [Qsum fold_right List.length]; split; field].
  eexists. split; [reflexivity|]. unfold centroid_arr. cbn [mean_center_arr bind].
  pose proof (per_column_length _ _ 0 col_mean k rows) as L.
  destruct (per_column 0 col_mean k rows) as [|v [|v' l]]; cbn in L; subst k; [lia|reflexivity|reflexivity].
Qed.
Print Assumptions C129_centroid.

Example C129_case :
  (exists x y z, mean_center_arr (A2 3 [[1; 1; 5]; [10; 3; 6]]) = Ok (Row [Fin x; Fin y; Fin z]) /\ x == 11 # 2 /\ y == 2 /\ z == 11 # 2) /\
  dispatch mean_center_arr (PSeq (SRows [[1; 2]; [3]])) = Raise ValueError /\
  minimum_bounding_rectangle_arr (A2 3 [[1; 1; 5]; [10; 3; 6]]) = Raise ValueError /\
  (let! b := bbox_arr (A2 3 [[1; 1; 5]; [10; 3; 6]]) in area_arr b) = Raise AssertionError /\
  area_seq (SRows [[0; 0]; [1; 0]; [4; 2]; [3; 3]]) = Ok (A1 [8; 6]) /\
  weighted_mean_center_arr [] (A2 2 []) = Ok (Row [Fin 0; Fin 0]) /\
  centroid_arr (A2 1 [[2]; [4]; [6]]) = Ok (Num (Fin (12 # 3))).
Proof.
  split; [do 3 eexists; split; [reflexivity|]; repeat split; reflexivity|]. repeat split; reflexivity.
Qed.
