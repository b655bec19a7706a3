(** Proofs about point patterns. *)
From Coq Require Import ZArith QArith Qabs Qminmax List Bool String Sorted Permutation Lia Lqa.
From Coq Require Import DecimalString DecimalNat.
From Verif Require Import Base BaseLemmas Quadrat_model Quadrat_spec Quadrat_proofs Pattern_model Pattern_spec.
Import ListNotations.
Local Open Scope Q_scope.

(** ** Boxes *)
Lemma mbb_tight_box : forall pts b, compute_mbb pts = Ok b -> tight_box b pts.
Proof.
  intros pts b H. destruct pts as [|p l]; [discriminate|]. simpl in H. inversion H; subst; clear H.
  assert (Mn : forall f : pt -> Q, exists q, In q (p :: l) /\ f q == Qmin_list (f p) (map f l)).
  { intros f. destruct (Qmin_list_in (map f l) (f p)) as [y [Hy E]].
    change (f p :: map f l) with (map f (p :: l)) in Hy. apply in_map_iff in Hy.
    destruct Hy as [q [Q1 Q2]]. subst. eauto. }
  assert (Mx : forall f : pt -> Q, exists q, In q (p :: l) /\ f q == Qmax_list (f p) (map f l)).
  { intros f. destruct (Qmax_list_in (map f l) (f p)) as [y [Hy E]].
    change (f p :: map f l) with (map f (p :: l)) in Hy. apply in_map_iff in Hy.
    destruct Hy as [q [Q1 Q2]]. subst. eauto. }
  unfold tight_box, covers; simpl bxmin; simpl bymin; simpl bxmax; simpl bymax.
  split; [|repeat split; auto].
  intros q Hq.
  destruct (Qmin_list_le (map fst l) (fst p)) as [A1 A2].
  destruct (Qmin_list_le (map snd l) (snd p)) as [B1 B2].
  destruct (Qmax_list_ge (map fst l) (fst p)) as [C1 C2].
  destruct (Qmax_list_ge (map snd l) (snd p)) as [D1 D2].
  destruct Hq as [<-|Hq]; [auto|].
  repeat split; [apply A2|apply C2|apply B2|apply D2]; apply in_map; auto.
Qed.

Lemma tight_box_least : forall b pts, tight_box b pts ->
  forall c, (forall p, In p pts -> covers c p) -> box_inside b c.
Proof.
  intros b pts [_ [[p1 [I1 E1]] [[p2 [I2 E2]] [[p3 [I3 E3]] [p4 [I4 E4]]]]]] c Hc.
  destruct (Hc p1 I1). destruct (Hc p2 I2). destruct (Hc p3 I3). destruct (Hc p4 I4).
  unfold box_inside. repeat split; lra.
Qed.

Lemma tight_box_sane : forall b pts, tight_box b pts -> bxmin b <= bxmax b /\ bymin b <= bymax b.
Proof.
  intros b pts [C [[p1 [I1 E1]] _]]. destruct (C p1 I1). lra.
Qed.

(** ** Rings *)
Lemma bbox_ring_area : forall b, bxmin b <= bxmax b -> bymin b <= bymax b ->
  Qsum (map ring_area [bbox_ring b]) == (bxmax b - bxmin b) * (bymax b - bymin b).
Proof.
  intros b Hx Hy.
  assert (E : shoelace (bbox_ring b) == - (2 * ((bxmax b - bxmin b) * (bymax b - bymin b)))).
  { unfold bbox_ring. simpl. ring. }
  assert (P : 0 <= (bxmax b - bxmin b) * (bymax b - bymin b)) by (apply Qmult_le_0_compat; lra).
  transitivity (ring_area (bbox_ring b)); [simpl; ring|].
  unfold ring_area. rewrite E, Qabs_opp, Qabs_pos; [field|lra].
Qed.

Lemma xdiv_same : forall a b c d, a == b -> c == d -> xsame (xdiv a c) (xdiv b d).
Proof.
  intros a b c d E1 E2. unfold xdiv.
  assert (EE : forall x y z, x == y -> Qeq_bool x z = Qeq_bool y z) by (intros x y z E; rewrite E; reflexivity).
  assert (EL : forall x y, x == y -> Qltb 0 x = Qltb 0 y).
  { intros x y E. destruct (Qltb 0 x) eqn:A; destruct (Qltb 0 y) eqn:B; qb; auto; exfalso; lra. }
  rewrite (EE c d 0 E2), (EE a b 0 E1), (EL a b E1).
  destruct (Qeq_bool d 0); [destruct (Qeq_bool b 0); [|destruct (Qltb 0 b)]; simpl; auto|].
  simpl. rewrite E1, E2. reflexivity.
Qed.

(** ** Memoised attributes *)
Section Cache.
Variable hullf : list pt -> list pt.

(** Every memoised value is the one an empty cache would give; the window
    intensity is treated apart. *)
Record coherent (s : pattern) : Prop := mkcoh {
  co_mbb : forall v, c_mbb (p_cache s) = Some v -> v = mbb_of (p_pts s);
  co_area : forall v, c_mbb_area (p_cache s) = Some v -> v = mbb_area_of (mbb_of (p_pts s));
  co_n : forall v, c_n (p_cache s) = Some v -> v = Z.of_nat (List.length (p_pts s));
  co_rot : forall v, c_rot (p_cache s) = Some v -> v = rot_of (mbb_of (p_pts s));
  co_lmbb : forall v, c_lambda_mbb (p_cache s) = Some v ->
    v = xdiv_area (Z.of_nat (List.length (p_pts s))) (mbb_area_of (mbb_of (p_pts s)));
  co_hull : forall v, c_hull (p_cache s) = Some v -> v = hullf (p_pts s);
  co_harea : forall v, c_hull_area (p_cache s) = Some v -> v = hull_area_of (hullf (p_pts s));
  co_lhull : forall v, c_lambda_hull (p_cache s) = Some v ->
    v = xdiv (inject_Z (Z.of_nat (List.length (p_pts s)))) (hull_area_of (hullf (p_pts s))) }.

(** Everything but the cache and an unset window. *)
Definition same_core (s s' : pattern) : Prop :=
  p_df s' = p_df s /\ p_nmarks s' = p_nmarks s /\ p_coord s' = p_coord s /\ p_x s' = p_x s /\
  p_y s' = p_y s /\ p_pts s' = p_pts s.

Lemma same_core_refl : forall s, same_core s s.
Proof. unfold same_core; intuition. Qed.
Lemma same_core_trans : forall a b c, same_core a b -> same_core b c -> same_core a c.
Proof. unfold same_core. intuition congruence. Qed.

Definition window_or_default (s : pattern) : window :=
  match p_win s with Some w => w | None => default_window (mbb_of (p_pts s)) end.

(** What a read may do: fill the memo, fix an unset window. *)
Definition read_ok {A : Type} (v : A) (s : pattern) (r : A * pattern) : Prop :=
  fst r = v /\ same_core s (snd r) /\ coherent (snd r) /\
  c_lambda_window (p_cache (snd r)) = c_lambda_window (p_cache s) /\
  (p_win (snd r) = p_win s \/ (p_win s = None /\ p_win (snd r) = Some (window_or_default s))).

Ltac memo_case s E :=
  intros C; pose proof C as [C1 C2 C3 C4 C5 C6 C7 C8].

Lemma read_mbb_ok : forall s, coherent s ->
  read_ok (mbb_of (p_pts s)) s (read_mbb s) /\ p_win (snd (read_mbb s)) = p_win s.
Proof.
  intros s C. unfold read_mbb. destruct (c_mbb (p_cache s)) as [v|] eqn:E.
  - split; [|reflexivity]. split; [apply (co_mbb _ C); auto|]. split; [apply same_core_refl|]. split; auto.
  - split; [|reflexivity]. split; [reflexivity|]. split; [repeat split|]. split; [|auto].
    destruct C as [C1 C2 C3 C4 C5 C6 C7 C8].
    constructor; simpl; auto. intros v H; inversion H; auto.
Qed.

Lemma read_n_ok : forall s, coherent s ->
  read_ok (Z.of_nat (List.length (p_pts s))) s (read_n s) /\ p_win (snd (read_n s)) = p_win s.
Proof.
  intros s C. unfold read_n. destruct (c_n (p_cache s)) as [v|] eqn:E.
  - split; [|reflexivity]. split; [apply (co_n _ C); auto|]. split; [apply same_core_refl|]. split; auto.
  - split; [|reflexivity]. split; [reflexivity|]. split; [repeat split|]. split; [|auto].
    destruct C as [C1 C2 C3 C4 C5 C6 C7 C8].
    constructor; simpl; auto. intros v H; inversion H; auto.
Qed.

Lemma read_mbb_area_ok : forall s, coherent s ->
  read_ok (mbb_area_of (mbb_of (p_pts s))) s (read_mbb_area s) /\ p_win (snd (read_mbb_area s)) = p_win s.
Proof.
  intros s C. unfold read_mbb_area. destruct (c_mbb_area (p_cache s)) as [v|] eqn:E.
  - split; [|reflexivity]. split; [apply (co_area _ C); auto|]. split; [apply same_core_refl|]. split; auto.
  - destruct (read_mbb_ok s C) as [[V [K [C' [L _]]]] W]. destruct (read_mbb s) as [b s1].
    cbn [fst snd] in *. subst b.
    destruct K as [K1 [K2 [K3 [K4 [K5 K6]]]]].
    split; [|simpl; auto]. split; [reflexivity|]. split; [repeat split; simpl; auto|].
    split; [|split; simpl; auto].
    destruct C' as [C1 C2 C3 C4 C5 C6 C7 C8].
    constructor; simpl; auto. intros v H; inversion H; subst. rewrite K6. auto.
Qed.

Lemma read_rot_ok : forall s, coherent s -> read_ok (rot_of (mbb_of (p_pts s))) s (read_rot s).
Proof.
  intros s C. unfold read_rot. destruct (c_rot (p_cache s)) as [v|] eqn:E.
  - split; [apply (co_rot _ C); auto|]. split; [apply same_core_refl|]. split; auto.
  - destruct (read_mbb_ok s C) as [[V [K [C' [L _]]]] W]. destruct (read_mbb s) as [b s1].
    cbn [fst snd] in *. subst b.
    destruct K as [K1 [K2 [K3 [K4 [K5 K6]]]]].
    split; [reflexivity|]. split; [repeat split; simpl; auto|].
    split; [|split; simpl; auto].
    destruct C' as [C1 C2 C3 C4 C5 C6 C7 C8].
    constructor; simpl; auto. intros v H; inversion H; subst. rewrite K6. auto.
Qed.

Lemma read_lambda_mbb_ok : forall s, coherent s ->
  read_ok (xdiv_area (Z.of_nat (List.length (p_pts s))) (mbb_area_of (mbb_of (p_pts s)))) s
    (read_lambda_mbb s).
Proof.
  intros s C. unfold read_lambda_mbb. destruct (c_lambda_mbb (p_cache s)) as [v|] eqn:E.
  - split; [apply (co_lmbb _ C); auto|]. split; [apply same_core_refl|]. split; auto.
  - destruct (read_n_ok s C) as [[V [K [C' [L _]]]] W]. destruct (read_n s) as [b s1].
    cbn [fst snd] in *. subst b.
    destruct (read_mbb_area_ok s1 C') as [[V2 [K2 [C2' [L2 _]]]] W2]. destruct (read_mbb_area s1) as [a s2].
    cbn [fst snd] in *. subst a.
    pose proof (same_core_trans _ _ _ K K2) as [H1 [H2 [H3 [H4 [H5 H6]]]]].
    assert (E1 : p_pts s1 = p_pts s) by apply K.
    split; [simpl; rewrite E1; reflexivity|]. split; [repeat split; simpl; auto|].
    split; [|split; simpl; auto; [congruence|left; congruence]].
    destruct C2' as [C1 C2 C3 C4 C5 C6 C7 C8].
    constructor; simpl; auto. intros v H; inversion H; subst. rewrite H6, E1. auto.
Qed.

Lemma read_hull_ok : forall s, coherent s ->
  read_ok (hullf (p_pts s)) s (read_hull hullf s) /\ p_win (snd (read_hull hullf s)) = p_win s.
Proof.
  intros s C. unfold read_hull. destruct (c_hull (p_cache s)) as [v|] eqn:E.
  - split; [|reflexivity]. split; [apply (co_hull _ C); auto|]. split; [apply same_core_refl|]. split; auto.
  - split; [|reflexivity]. split; [reflexivity|]. split; [repeat split|]. split; [|auto].
    destruct C as [C1 C2 C3 C4 C5 C6 C7 C8].
    constructor; simpl; auto. intros v H; inversion H; auto.
Qed.

Lemma read_hull_area_ok : forall s, coherent s ->
  read_ok (hull_area_of (hullf (p_pts s))) s (read_hull_area hullf s) /\
  p_win (snd (read_hull_area hullf s)) = p_win s.
Proof.
  intros s C. unfold read_hull_area. destruct (c_hull_area (p_cache s)) as [v|] eqn:E.
  - split; [|reflexivity]. split; [apply (co_harea _ C); auto|]. split; [apply same_core_refl|]. split; auto.
  - destruct (read_hull_ok s C) as [[V [K [C' [L _]]]] W]. destruct (read_hull hullf s) as [b s1].
    cbn [fst snd] in *. subst b.
    destruct K as [K1 [K2 [K3 [K4 [K5 K6]]]]].
    split; [|simpl; auto]. split; [reflexivity|]. split; [repeat split; simpl; auto|].
    split; [|split; simpl; auto].
    destruct C' as [C1 C2 C3 C4 C5 C6 C7 C8].
    constructor; simpl; auto. intros v H; inversion H; subst. rewrite K6. auto.
Qed.

Lemma read_lambda_hull_ok : forall s, coherent s ->
  read_ok (xdiv (inject_Z (Z.of_nat (List.length (p_pts s)))) (hull_area_of (hullf (p_pts s)))) s
    (read_lambda_hull hullf s).
Proof.
  intros s C. unfold read_lambda_hull. destruct (c_lambda_hull (p_cache s)) as [v|] eqn:E.
  - split; [apply (co_lhull _ C); auto|]. split; [apply same_core_refl|]. split; auto.
  - destruct (read_n_ok s C) as [[V [K [C' [L _]]]] W]. destruct (read_n s) as [b s1].
    cbn [fst snd] in *. subst b.
    destruct (read_hull_area_ok s1 C') as [[V2 [K2 [C2' [L2 _]]]] W2]. destruct (read_hull_area hullf s1) as [a s2].
    cbn [fst snd] in *. subst a.
    pose proof (same_core_trans _ _ _ K K2) as [H1 [H2 [H3 [H4 [H5 H6]]]]].
    assert (E1 : p_pts s1 = p_pts s) by apply K.
    split; [simpl; rewrite E1; reflexivity|]. split; [repeat split; simpl; auto|].
    split; [|split; simpl; auto; [congruence|left; congruence]].
    destruct C2' as [C1 C2 C3 C4 C5 C6 C7 C8].
    constructor; simpl; auto. intros v H; inversion H; subst. rewrite H6, E1. auto.
Qed.

Lemma get_window_ok : forall s, coherent s -> read_ok (window_or_default s) s (get_window s) /\
  p_win (snd (get_window s)) = Some (window_or_default s).
Proof.
  intros s C. unfold get_window, window_or_default. destruct (p_win s) as [w|] eqn:E.
  - split; [|auto]. split; [reflexivity|]. split; [apply same_core_refl|]. split; auto.
  - destruct (read_mbb_ok s C) as [[V [K [C' [L _]]]] W]. destruct (read_mbb s) as [b s1].
    cbn [fst snd] in *. subst b.
    destruct K as [K1 [K2 [K3 [K4 [K5 K6]]]]].
    split; [|reflexivity]. split; [reflexivity|]. split; [repeat split; simpl; auto|].
    split; [|split; simpl; auto].
    + destruct C' as [C1 C2 C3 C4 C5 C6 C7 C8]. constructor; simpl; auto.
    + right. split; auto. unfold window_or_default. rewrite E. reflexivity.
Qed.

(** The intensity for the window, when it is not memoised. *)
Definition lambda_of (s : pattern) : res xq :=
  match window_area (window_or_default s) with
  | Some a => Ok (xdiv (inject_Z (Z.of_nat (List.length (p_pts s)))) a)
  | None => Raise AttributeError
  end.

Lemma read_lambda_window_fresh : forall s, coherent s -> c_lambda_window (p_cache s) = None ->
  fst (read_lambda_window s) = lambda_of s /\
  same_core s (snd (read_lambda_window s)) /\ coherent (snd (read_lambda_window s)) /\
  p_win (snd (read_lambda_window s)) = Some (window_or_default s) /\
  c_lambda_window (p_cache (snd (read_lambda_window s))) =
    match lambda_of s with Ok v => Some v | Raise _ => None end.
Proof.
  intros s C E. unfold read_lambda_window. rewrite E.
  destruct (read_n_ok s C) as [[V [K [C' [L _]]]] W]. destruct (read_n s) as [b s1].
  cbn [fst snd] in *. subst b.
  destruct (get_window_ok s1 C') as [[V2 [K2 [C2' [L2 _]]]] W2]. destruct (get_window s1) as [w s2].
  cbn [fst snd] in *. subst w.
  pose proof (same_core_trans _ _ _ K K2) as [H1 [H2 [H3 [H4 [H5 H6]]]]].
  assert (E1 : p_pts s1 = p_pts s) by apply K.
  assert (E2 : window_or_default s1 = window_or_default s).
  { unfold window_or_default. rewrite W, E1. reflexivity. }
  rewrite E2 in *. unfold lambda_of.
  destruct (window_area (window_or_default s)) as [a|]; simpl.
  - split; [reflexivity|]. split; [repeat split; simpl; auto|]. split; [|auto].
    destruct C2' as [C1 C2 C3 C4 C5 C6 C7 C8]. constructor; simpl; auto.
  - split; [reflexivity|]. split; [repeat split; simpl; auto|]. split; [auto|]. split; auto. congruence.
Qed.

Lemma read_lambda_window_memo : forall s v, c_lambda_window (p_cache s) = Some v ->
  read_lambda_window s = (Ok v, s).
Proof. intros s v E. unfold read_lambda_window. rewrite E. reflexivity. Qed.

(** *** One step of a history *)
Lemma read_step : forall a s, coherent s ->
  coherent (snd (read hullf a s)) /\ same_core s (snd (read hullf a s)) /\
  (p_win (snd (read hullf a s)) = p_win s \/
   (p_win s = None /\ p_win (snd (read hullf a s)) = Some (window_or_default s))) /\
  (a <> ALambdaWindow ->
     c_lambda_window (p_cache (snd (read hullf a s))) = c_lambda_window (p_cache s)) /\
  (forall v, c_lambda_window (p_cache s) = Some v ->
     c_lambda_window (p_cache (snd (read hullf a s))) = Some v).
Proof.
  assert (G : forall A (f : A -> value) (v : A) s r, read_ok v s r ->
     let q := (let (x, s') := r in (f x, s')) in
     coherent (snd q) /\ same_core s (snd q) /\
     (p_win (snd q) = p_win s \/ (p_win s = None /\ p_win (snd q) = Some (window_or_default s))) /\
     c_lambda_window (p_cache (snd q)) = c_lambda_window (p_cache s)).
  { intros A f v s [x s'] [V [K [C [L W]]]]. simpl in *. auto. }
  assert (G2 : forall A (f : A -> value) (v : A) s r, read_ok v s r ->
     let q := (let (x, s') := r in (f x, s')) in
     coherent (snd q) /\ same_core s (snd q) /\
     (p_win (snd q) = p_win s \/ (p_win s = None /\ p_win (snd q) = Some (window_or_default s))) /\
     (c_lambda_window (p_cache (snd q)) = c_lambda_window (p_cache s)) /\
     (forall v, c_lambda_window (p_cache s) = Some v -> c_lambda_window (p_cache (snd q)) = Some v)).
  { intros A f v s r R. destruct (G A f v s r R) as [X1 [X2 [X3 X4]]]. cbv zeta.
    split; [exact X1|]. split; [exact X2|]. split; [exact X3|]. split; [exact X4|].
    intros v0 H. rewrite X4. auto. }
  intros a s C. destruct a.
  - pose proof (G2 _ VBox _ _ _ (proj1 (read_mbb_ok s C))) as [X1 [X2 [X3 [X4 X5]]]]. auto.
  - pose proof (G2 _ VX _ _ _ (proj1 (read_mbb_area_ok s C))) as [X1 [X2 [X3 [X4 X5]]]]. auto.
  - pose proof (G2 _ VZ _ _ _ (proj1 (read_n_ok s C))) as [X1 [X2 [X3 [X4 X5]]]]. auto.
  - pose proof (G2 _ VX _ _ _ (read_rot_ok s C)) as [X1 [X2 [X3 [X4 X5]]]]. auto.
  - pose proof (G2 _ VX _ _ _ (read_lambda_mbb_ok s C)) as [X1 [X2 [X3 [X4 X5]]]]. auto.
  - simpl. destruct (c_lambda_window (p_cache s)) as [v|] eqn:E.
    + rewrite (read_lambda_window_memo s v E). simpl. rewrite E.
      split; auto. split; [apply same_core_refl|]. auto.
    + destruct (read_lambda_window_fresh s C E) as [X1 [X2 [X3 [X4 X5]]]].
      destruct (read_lambda_window s) as [r s']. simpl in *.
      split; auto. split; auto. split.
      { destruct (p_win s) eqn:Ew; [left|right; auto]. rewrite X4. unfold window_or_default. rewrite Ew. auto. }
      split; [tauto|]. intros v H; discriminate.
  - pose proof (G2 _ VRing _ _ _ (proj1 (read_hull_ok s C))) as [X1 [X2 [X3 [X4 X5]]]]. auto.
  - pose proof (G2 _ VQ _ _ _ (proj1 (read_hull_area_ok s C))) as [X1 [X2 [X3 [X4 X5]]]]. auto.
  - pose proof (G2 _ VX _ _ _ (read_lambda_hull_ok s C)) as [X1 [X2 [X3 [X4 X5]]]]. auto.
  - pose proof (G2 _ VWin _ _ _ (proj1 (get_window_ok s C))) as [X1 [X2 [X3 [X4 X5]]]]. auto.
Qed.

Lemma store_marks_keeps : forall names marks s, 
  p_pts (fst (store_marks s names marks)) = p_pts s /\
  p_cache (fst (store_marks s names marks)) = p_cache s /\
  p_win (fst (store_marks s names marks)) = p_win s.
Proof.
  induction names; destruct marks; intros s; simpl; auto.
  destruct (set_column _ _ _) as [f|]; simpl; auto.
  destruct (IHnames marks (with_df s f (p_nmarks s + 1))) as [A [B C]]. auto.
Qed.

Lemma coherent_ext : forall s s', p_pts s' = p_pts s -> p_cache s' = p_cache s -> coherent s -> coherent s'.
Proof.
  intros s s' E1 E2 C. destruct C as [C1 C2 C3 C4 C5 C6 C7 C8].
  constructor; rewrite E1, E2; auto.
Qed.

Lemma step_ok : forall o s, coherent s ->
  coherent (step hullf o s) /\ p_pts (step hullf o s) = p_pts s /\
  (o <> ORead ALambdaWindow -> c_lambda_window (p_cache (step hullf o s)) = c_lambda_window (p_cache s)) /\
  (forall v, c_lambda_window (p_cache s) = Some v -> c_lambda_window (p_cache (step hullf o s)) = Some v).
Proof.
  intros o s C. destruct o; simpl.
  - destruct (read_step a s C) as [X1 [X2 [X3 [X4 X5]]]].
    split; [exact X1|]. split; [destruct X2 as [_ [_ [_ [_ [_ E]]]]]; exact E|].
    split; [|exact X5]. intros H. apply X4. congruence.
  - split; [apply (coherent_ext s); auto|]. auto.
  - split; [apply (coherent_ext s); auto|]. auto.
  - unfold add_marks.
    match goal with |- context[store_marks s ?n ?m] => destruct (store_marks_keeps n m s) as [A [B D]] end.
    rewrite A, B. split; [apply (coherent_ext s); auto|]. auto.
Qed.

Lemma history_ok : forall l s, coherent s ->
  coherent (history hullf l s) /\ p_pts (history hullf l s) = p_pts s /\
  (~ In (ORead ALambdaWindow) l -> c_lambda_window (p_cache (history hullf l s)) = c_lambda_window (p_cache s)) /\
  (forall v, c_lambda_window (p_cache s) = Some v -> c_lambda_window (p_cache (history hullf l s)) = Some v).
Proof.
  induction l as [|o l IH]; intros s C; simpl.
  - auto.
  - destruct (step_ok o s C) as [S1 [S2 [S3 S4]]].
    destruct (IH (step hullf o s) S1) as [H1 [H2 [H3 H4]]].
    split; auto. split; [congruence|]. split; auto.
    intros N. rewrite H3 by tauto. apply S3. intro; subst. tauto.
Qed.

Lemma init_ok : forall p rows w names cn s, fst (pattern_init p rows w names cn) = Ok s ->
  coherent s /\ c_lambda_window (p_cache s) = None /\
  p_win s = Some (match w with Some w => w | None => default_window (mbb_of (p_pts s)) end).
Proof.
  intros p rows w names cn s H. unfold pattern_init in H.
  destruct (match names with None => _ | Some n => _ end) as [[cols coord] caller].
  simpl in H. destruct coord as [|x [|y [|]]]; try discriminate.
  destruct (Nat.eqb _ _); try discriminate.
  apply bind_ok in H. destruct H as [pts [P1 P2]]. inversion P2; subst; clear P2.
  destruct w as [w|]; simpl.
  - split; [constructor; simpl; discriminate|]. auto.
  - split; [|auto]. constructor; simpl; try discriminate. intros v H; inversion H; auto.
Qed.

(** Read values depend only on points and window. *)
Lemma read_value : forall a s, coherent s -> (a = ALambdaWindow -> c_lambda_window (p_cache s) = None) ->
  fst (read hullf a s) = fst (read hullf a (forget s)).
Proof.
  assert (F : forall s, coherent (forget s)).
  { intros. constructor; simpl; discriminate. }
  intros a s C H. destruct a; simpl.
  - destruct (read_mbb_ok s C) as [[V _] _]. destruct (read_mbb_ok (forget s) (F s)) as [[V' _] _].
    destruct (read_mbb s), (read_mbb (forget s)); simpl in *. congruence.
  - destruct (read_mbb_area_ok s C) as [[V _] _]. destruct (read_mbb_area_ok (forget s) (F s)) as [[V' _] _].
    destruct (read_mbb_area s), (read_mbb_area (forget s)); simpl in *. congruence.
  - destruct (read_n_ok s C) as [[V _] _]. destruct (read_n_ok (forget s) (F s)) as [[V' _] _].
    destruct (read_n s), (read_n (forget s)); simpl in *. congruence.
  - destruct (read_rot_ok s C) as [V _]. destruct (read_rot_ok (forget s) (F s)) as [V' _].
    destruct (read_rot s), (read_rot (forget s)); simpl in *. congruence.
  - destruct (read_lambda_mbb_ok s C) as [V _]. destruct (read_lambda_mbb_ok (forget s) (F s)) as [V' _].
    destruct (read_lambda_mbb s), (read_lambda_mbb (forget s)); simpl in *. congruence.
  - destruct (read_lambda_window_fresh s C (H eq_refl)) as [V _].
    destruct (read_lambda_window_fresh (forget s) (F s) eq_refl) as [V' _].
    destruct (read_lambda_window s), (read_lambda_window (forget s)); simpl in *. subst.
    unfold lambda_of, window_or_default. simpl. reflexivity.
  - destruct (read_hull_ok s C) as [[V _] _]. destruct (read_hull_ok (forget s) (F s)) as [[V' _] _].
    destruct (read_hull hullf s), (read_hull hullf (forget s)); simpl in *. congruence.
  - destruct (read_hull_area_ok s C) as [[V _] _]. destruct (read_hull_area_ok (forget s) (F s)) as [[V' _] _].
    destruct (read_hull_area hullf s), (read_hull_area hullf (forget s)); simpl in *. congruence.
  - destruct (read_lambda_hull_ok s C) as [V _]. destruct (read_lambda_hull_ok (forget s) (F s)) as [V' _].
    destruct (read_lambda_hull hullf s), (read_lambda_hull hullf (forget s)); simpl in *. congruence.
  - destruct (get_window_ok s C) as [[V _] _]. destruct (get_window_ok (forget s) (F s)) as [[V' _] _].
    destruct (get_window s), (get_window (forget s)); simpl in *.
    rewrite V, V'. reflexivity.
Qed.

End Cache.
