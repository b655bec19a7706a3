(** Proofs on the symmetries of the quadrat counts. *)
From Coq Require Import ZArith QArith Qround Qabs List Bool Arith Lia Lqa Permutation.
From Verif Require Import Base BaseLemmas Spec Quadrat_model Quadrat_spec Quadrat_proofs Geometry_model Random_model
  DistStats_model Ripley_model QStat_model Symmetry_spec Symmetry_proofs QuadratSym_spec.
Import ListNotations.
Local Open Scope Q_scope.

(** ** Counting does not depend on the order *)
Lemma dincr_swap : forall d a b, bind (dincr d a) (fun d' => dincr d' b) = bind (dincr d b) (fun d' => dincr d' a).
Proof.
  induction d as [|[k v] d IH]; intros a b; [reflexivity|]. cbn [dincr].
  destruct (Z.eqb a k) eqn:A, (Z.eqb b k) eqn:B.
  - cbn [bind dincr]. rewrite A, B. reflexivity.
  - cbn [bind dincr]. rewrite B. destruct (dincr d b); cbn [bind dincr]; [rewrite A|]; reflexivity.
  - cbn [bind dincr]. rewrite A. destruct (dincr d a); cbn [bind dincr]; [rewrite B|]; reflexivity.
  - specialize (IH a b). destruct (dincr d a) as [x|e] eqn:X, (dincr d b) as [y|e'] eqn:Y; cbn [bind dincr] in *; rewrite ?A, ?B.
    + rewrite IH. reflexivity.
    + rewrite IH. reflexivity.
    + rewrite <- IH. reflexivity.
    + congruence.
Qed.
Lemma fold_perm : forall ks ks' d, Permutation ks ks' -> foldM dincr ks d = foldM dincr ks' d.
Proof.
  intros ks ks' d P. revert d. induction P; intros d; cbn [foldM].
  - reflexivity.
  - destruct (dincr d x); cbn [bind]; auto.
  - pose proof (dincr_swap d y x) as X. destruct (dincr d y), (dincr d x); cbn [bind] in *;
      first [rewrite X; reflexivity | rewrite <- X; reflexivity | congruence].
  - rewrite IHP1. apply IHP2.
Qed.
Lemma fold_keys : forall (l : list pt) (f : pt -> res Z) (g : pt -> Z) d, (forall p, In p l -> f p = Ok (g p)) ->
  foldM (fun d p => bind (f p) (fun k => dincr d k)) l d = foldM dincr (map g l) d.
Proof.
  induction l as [|p l IH]; intros f g d H; [reflexivity|]. cbn [foldM map]. rewrite (H p) by (left; auto). cbn [bind].
  destruct (dincr d (g p)); cbn [bind]; [|reflexivity]. apply IH. intros q Q. apply H. right. exact Q.
Qed.

(** ** Rectangles *)
Lemma Qfloor_eq : forall x y, x == y -> Qfloor x = Qfloor y.
Proof. intros x y H. rewrite H. reflexivity. Qed.
Lemma Qceil_eq : forall x y, x == y -> Qceiling x = Qceiling y.
Proof. intros x y H. rewrite H. reflexivity. Qed.
Lemma Qeqb_scale : forall c x y, 0 < c -> y == c * x -> Qeq_bool y 0 = Qeq_bool x 0.
Proof.
  intros c x y C E. apply eq_true_iff_eq. rewrite !Qeq_bool_iff, E. split; intro H; [|rewrite H; ring].
  apply Qmult_integral in H. destruct H; [lra|assumption].
Qed.
Lemma Qltb_scale : forall c x y, 0 < c -> y == c * x -> Qltb y 0 = Qltb x 0.
Proof.
  intros c x y C E. apply eq_true_iff_eq. rewrite !Qltb_lt, E. split; intro H; nra.
Qed.
Lemma Qltb_scale' : forall c x y, 0 < c -> y == c * x -> Qltb 0 y = Qltb 0 x.
Proof.
  intros c x y C E. apply eq_true_iff_eq. rewrite !Qltb_lt, E. split; intro H; nra.
Qed.
Lemma index_times : forall c x lo w x' lo' w' m, 0 < c -> x' - lo' == c * (x - lo) -> xtimes c w w' ->
  rect_index x' lo' w' m = rect_index x lo w m.
Proof.
  intros c x lo w x' lo' w' m C D W. unfold rect_index.
  assert (E : xfloordiv (x' - lo') w' = xfloordiv (x - lo) w).
  { destruct w as [w| | |], w' as [w'| | |]; simpl in W; try tauto; unfold xfloordiv.
    - unfold times in W. rewrite (Qeqb_scale c w w' C W). destruct (Qeq_bool w 0) eqn:Z.
      + unfold xdiv. simpl (Qeq_bool 0 0). cbv iota. rewrite (Qeqb_scale c (x - lo) (x' - lo') C D), (Qltb_scale' c (x - lo) (x' - lo') C D). reflexivity.
      + f_equal. f_equal. apply Qfloor_eq. rewrite D, W. field. split; [|lra]. apply Qeq_bool_neq. exact Z.
    - rewrite (Qltb_scale c (x - lo) (x' - lo') C D). reflexivity.
    - rewrite (Qltb_scale' c (x - lo) (x' - lo') C D). reflexivity. }
  rewrite E. reflexivity.
Qed.

Lemma rescaled_in : forall cx cy a b l l', rescaled_pattern cx cy a b l l' ->
  (forall p, In p l -> exists p', In p' l' /\ rescaled cx cy a b p p') /\ (forall p', In p' l' -> exists p, In p l /\ rescaled cx cy a b p p').
Proof.
  intros cx cy a b l l' [k [P F]].
  assert (I : (forall p, In p k -> exists p', In p' l' /\ rescaled cx cy a b p p') /\ (forall p', In p' l' -> exists p, In p k /\ rescaled cx cy a b p p')).
  { clear P. induction F as [|u v k l' U F [I1 I2]]; split; intros p [].
    - subst. exists v. split; [left|]; auto.
    - destruct (I1 p H) as [q [Q1 Q2]]. exists q. split; [right|]; auto.
    - subst. exists u. split; [left|]; auto.
    - destruct (I2 p H) as [q [Q1 Q2]]. exists q. split; [right|]; auto. }
  destruct I as [I1 I2]. split; intros p H.
  - apply I1. apply (Permutation_in p P H).
  - destruct (I2 p H) as [q [Q1 Q2]]. exists q. split; [apply (Permutation_in q (Permutation_sym P) Q1)|exact Q2].
Qed.

Definition rescaled_box (cx cy a b : Q) (x y : box) : Prop :=
  rescaled cx cy a b (bxmin x, bymin x) (bxmin y, bymin y) /\ rescaled cx cy a b (bxmax x, bymax x) (bxmax y, bymax y).
Lemma mbb_rescaled : forall cx cy a b l l', 0 < cx -> 0 < cy -> rescaled_pattern cx cy a b l l' ->
  same_res (rescaled_box cx cy a b) (compute_mbb l) (compute_mbb l').
Proof.
  intros cx cy a b l l' CX CY H. destruct (rescaled_in _ _ _ _ _ _ H) as [I1 I2].
  destruct (compute_mbb l) as [x|e] eqn:E; destruct (compute_mbb l') as [y|e'] eqn:E'.
  - apply compute_mbb_tight in E. apply compute_mbb_tight in E'. destruct E as [_ [TX TY]], E' as [_ [TX' TY']].
    assert (X : bxmin y == cx * bxmin x + a /\ bxmax y == cx * bxmax x + a).
    { apply (tight_times cx fst a l l'); auto; intros p P.
      - destruct (I1 p P) as [q [Q1 Q2]]. exists q. split; [exact Q1|apply Q2].
      - destruct (I2 p P) as [q [Q1 Q2]]. exists q. split; [exact Q1|apply Q2]. }
    assert (Y : bymin y == cy * bymin x + b /\ bymax y == cy * bymax x + b).
    { apply (tight_times cy snd b l l'); auto; intros p P.
      - destruct (I1 p P) as [q [Q1 Q2]]. exists q. split; [exact Q1|apply Q2].
      - destruct (I2 p P) as [q [Q1 Q2]]. exists q. split; [exact Q1|apply Q2]. }
    simpl. unfold rescaled_box, rescaled. simpl. tauto.
  - destruct l'; [|discriminate]. destruct l as [|p l]; [discriminate|]. destruct (I1 p (or_introl eq_refl)) as [q [[] _]].
  - destruct l; [|discriminate]. destruct l' as [|p l']; [discriminate|]. destruct (I2 p (or_introl eq_refl)) as [q [[] _]].
  - destruct l; [|discriminate]. destruct l'; [|discriminate]. simpl in *. congruence.
Qed.

Definition same_rect (cx cy a b : Q) (r r' : rectM) : Prop :=
  rm_cols r' = rm_cols r /\ rm_rows r' = rm_rows r /\ rm_num r' = rm_num r /\ xtimes cx (rm_w r) (rm_w r') /\ xtimes cy (rm_h r) (rm_h r') /\
  rescaled_box cx cy a b (rm_mbb r) (rm_mbb r').

Lemma xdiv_times : forall c x y n, 0 < c -> y == c * x -> xtimes c (xdiv x n) (xdiv y n).
Proof.
  intros c x y n C E. unfold xdiv. destruct (Qeq_bool n 0) eqn:N.
  - rewrite (Qeqb_scale c x y C E), (Qltb_scale' c x y C E). destruct (Qeq_bool x 0); [exact I|]. destruct (Qltb 0 x); exact I.
  - simpl. unfold times. rewrite E. field. apply Qeq_bool_neq. exact N.
Qed.

Lemma rect_init_times : forall cx cy a b pts pts' nx ny rw rh rw' rh', 0 < cx -> 0 < cy -> rescaled_pattern cx cy a b pts pts' ->
  rw' == cx * rw -> rh' == cy * rh ->
  same_res (fun r r' => same_rect cx cy a b r r' /\ rm_points r = pts /\ rm_points r' = pts') (rect_init pts nx ny rw rh) (rect_init pts' nx ny rw' rh').
Proof.
  intros cx cy a b pts pts' nx ny rw rh rw' rh' CX CY H W1 W2. pose proof (mbb_rescaled cx cy a b pts pts' CX CY H) as M. unfold rect_init.
  destruct (compute_mbb pts) as [x|e], (compute_mbb pts') as [y|e']; simpl in M; try tauto; cbn [bind].
  rewrite (Qeqb_scale cx rw rw' CX W1), (Qeqb_scale cy rh rh' CY W2). pose proof M as [[A1 A2] [B1 B2]]. simpl in A1, A2, B1, B2.
  assert (DX : bxmax y - bxmin y == cx * (bxmax x - bxmin x)) by (rewrite A1, B1; ring).
  assert (DY : bymax y - bymin y == cy * (bymax x - bymin x)) by (rewrite A2, B2; ring).
  destruct (Qeq_bool rw 0) eqn:E1; [|destruct (Qeq_bool rh 0) eqn:E2]; cbn [negb andb].
  - simpl. split; [|auto]. unfold same_rect. cbn [rm_cols rm_rows rm_w rm_h rm_mbb rm_num]. repeat split; auto using xdiv_times.
  - simpl. split; [|auto]. unfold same_rect. cbn [rm_cols rm_rows rm_w rm_h rm_mbb rm_num]. repeat split; auto using xdiv_times.
  - apply Qeq_bool_neq in E1. apply Qeq_bool_neq in E2.
    assert (F1 : Qceiling ((bxmax y - bxmin y) / rw') = Qceiling ((bxmax x - bxmin x) / rw)) by (apply Qceil_eq; rewrite DX, W1; field; split; lra).
    assert (F2 : Qceiling ((bymax y - bymin y) / rh') = Qceiling ((bymax x - bymin x) / rh)) by (apply Qceil_eq; rewrite DY, W2; field; split; lra).
    simpl. split; [|auto]. unfold same_rect. cbn [rm_cols rm_rows rm_w rm_h rm_mbb rm_num]. rewrite F1, F2. repeat split; auto.
Qed.
Lemma cell_times : forall cx cy a b r r' p p', 0 < cx -> 0 < cy -> same_rect cx cy a b r r' -> rescaled cx cy a b p p' ->
  rect_cell_id r' p' = rect_cell_id r p.
Proof.
  intros cx cy a b r r' p p' CX CY (C & Rr & _ & W & H & [A1 A2] & [B1 B2]) [P1 P2]. simpl in A1, A2, B1, B2. unfold rect_cell_id. rewrite C, Rr.
  rewrite (index_times cx (fst p) (bxmin (rm_mbb r)) (rm_w r) (fst p') (bxmin (rm_mbb r')) (rm_w r')); auto; [|rewrite P1, A1; ring].
  rewrite (index_times cy (snd p) (bymin (rm_mbb r)) (rm_h r) (snd p') (bymin (rm_mbb r')) (rm_h r')); auto. rewrite P2, A2. ring.
Qed.

(** Either every point of a pattern has a cell number, or none has one. *)
Lemma axis_uniform : forall (f : pt -> Q) pts lo hi w m, tight f pts lo hi ->
  (match w with Fin w => w == 0 -> hi == lo | _ => True end) ->
  (forall p, In p pts -> exists k, xint (rect_index (f p) lo w m) = Ok k) \/
  (forall p, In p pts -> xint (rect_index (f p) lo w m) = Raise ValueError).
Proof.
  intros f pts lo hi w m [T _] W. unfold rect_index. destruct w as [w| | |].
  - cbn [xfloordiv]. destruct (Qeq_bool w 0) eqn:E.
    + right. intros p P. apply Qeq_bool_iff in E. pose proof (T p P). assert (D : Qeq_bool (f p - lo) 0 = true) by (apply Qeq_bool_iff; specialize (W E); lra).
      unfold xdiv. cbn [Qeq_bool]. simpl (Qeq_bool 0 0). cbv iota. rewrite D. reflexivity.
    + left. intros p P. match goal with |- context [if xeqz ?a ?b then _ else _] => destruct (xeqz a b) end; cbn [xpred xint]; eexists; reflexivity.
  - left. intros p P. cbn [xfloordiv]. destruct (Qltb (f p - lo) 0); cbn [xeqz]; destruct (Qeq_bool _ _); cbn [xpred xint]; eauto.
  - left. intros p P. cbn [xfloordiv]. destruct (Qltb 0 (f p - lo)); cbn [xeqz]; destruct (Qeq_bool _ _); cbn [xpred xint]; eauto.
  - right. intros p P. reflexivity.
Qed.
Lemma cells_uniform : forall pts nx ny rw rh r, rect_init pts nx ny rw rh = Ok r ->
  (forall p, In p pts -> exists k, rect_cell_id r p = Ok k) \/ (forall p, In p pts -> rect_cell_id r p = Raise ValueError).
Proof.
  intros pts nx ny rw rh r H. unfold rect_init in H. apply bind_ok in H. destruct H as [bb [M H]].
  destruct (compute_mbb_tight _ _ M) as [_ [TX TY]].
  assert (D : rm_mbb r = bb /\ (match rm_w r with Fin w => w == 0 -> bxmax bb == bxmin bb | _ => True end) /\
    (match rm_h r with Fin w => w == 0 -> bymax bb == bymin bb | _ => True end)).
  { assert (Q0 : forall x y n, match xdiv (x - y) (inject_Z n) with Fin w => w == 0 -> x == y | _ => True end).
    { intros x y n. unfold xdiv. destruct (Qeq_bool (inject_Z n) 0) eqn:N.
      - destruct (Qeq_bool (x - y) 0); [exact I|]. destruct (Qltb 0 (x - y)); exact I.
      - intro Z. apply Qeq_bool_neq in N. assert (Y : x - y == (x - y) / inject_Z n * inject_Z n) by (field; exact N). rewrite Z in Y. lra. }
    destruct (Qeq_bool rw 0) eqn:E1; [|destruct (Qeq_bool rh 0) eqn:E2]; cbn [negb andb] in H; injection H as <-; cbn [rm_mbb rm_w rm_h].
    - split; [reflexivity|]. split; apply Q0.
    - split; [reflexivity|]. split; apply Q0.
    - apply Qeq_bool_neq in E1. apply Qeq_bool_neq in E2. split; [reflexivity|]. split; intro; contradiction. }
  destruct D as (D1 & D2 & D3). subst bb.
  destruct (axis_uniform fst pts _ _ _ (rm_cols r) TX D2) as [X|X], (axis_uniform snd pts _ _ _ (rm_rows r) TY D3) as [Y|Y].
  - left. intros p P. destruct (X p P) as [i I1], (Y p P) as [j J1]. unfold rect_cell_id. rewrite I1, J1. cbn [bind]. eauto.
  - right. intros p P. unfold rect_cell_id. rewrite (Y p P). reflexivity.
  - right. intros p P. destruct (Y p P) as [j J1]. unfold rect_cell_id. rewrite J1, (X p P). reflexivity.
  - right. intros p P. unfold rect_cell_id. rewrite (Y p P). reflexivity.
Qed.

Definition key_or0 (r : res Z) : Z := match r with Ok k => k | Raise _ => 0%Z end.
Lemma sta_times : forall cx cy a b pts pts' nx ny rw rh rw' rh' r r', 0 < cx -> 0 < cy -> rescaled_pattern cx cy a b pts pts' ->
  rect_init pts nx ny rw rh = Ok r -> rect_init pts' nx ny rw' rh' = Ok r' -> rm_points r = pts -> rm_points r' = pts' -> same_rect cx cy a b r r' ->
  rect_location_sta r' = rect_location_sta r.
Proof.
  intros cx cy a b pts pts' nx ny rw rh rw' rh' r r' CX CY H E E' P1 P2 SR. unfold rect_location_sta. rewrite P1, P2.
  assert (K : rect_keys r' = rect_keys r) by (unfold rect_keys; destruct SR as (-> & -> & _); reflexivity). rewrite K.
  destruct H as [l [P F]].
  assert (CE : forall p p', rescaled cx cy a b p p' -> rect_cell_id r' p' = rect_cell_id r p) by (intros p p' PP; exact (cell_times cx cy a b r r' p p' CX CY SR PP)).
  destruct (cells_uniform _ _ _ _ _ _ E) as [U|U].
  - rewrite (fold_keys pts (rect_cell_id r) (fun p => key_or0 (rect_cell_id r p))).
    2: { intros p Hp. destruct (U p Hp) as [k ->]. reflexivity. }
    assert (U' : forall p', In p' pts' -> rect_cell_id r' p' = Ok (key_or0 (rect_cell_id r' p'))).
    { intros p' Hp. destruct (rescaled_in cx cy a b pts pts') as [_ I2]; [exists l; auto|]. destruct (I2 p' Hp) as [p [X Y]].
      rewrite (CE p p' Y). destruct (U p X) as [k ->]. reflexivity. }
    rewrite (fold_keys pts' (rect_cell_id r') (fun p => key_or0 (rect_cell_id r' p)) _ U').
    transitivity (foldM dincr (map (fun p => key_or0 (rect_cell_id r p)) l) (map (fun k => (k, 0%Z)) (rect_keys r))).
    + f_equal. clear - F CE. induction F; [reflexivity|]. cbn [map]. rewrite IHF, (CE _ _ H). reflexivity.
    + apply fold_perm. apply Permutation_sym. apply Permutation_map. exact P.
  - destruct F as [|u v k l' UV F].
    + apply Permutation_sym, Permutation_nil in P. rewrite P. reflexivity.
    + destruct pts as [|q pts]; [apply Permutation_nil in P; discriminate|]. cbn [foldM].
      rewrite (CE _ _ UV), (U u) by (apply (Permutation_in u (Permutation_sym P)); left; auto). rewrite (U q) by (left; auto). reflexivity.
Qed.

(** ** Hexagons *)
Definition same_hex (c a b : Q) (h h' : hexM) : Prop :=
  hx_cols h' = hx_cols h /\ hx_even h' = hx_even h /\ hx_odd h' = hx_odd h /\ hx_num h' = hx_num h /\
  times c (hx_l h) (hx_l h') /\ times c (hx_sh h) (hx_sh h') /\ moved_box c a b (hx_mbb h) (hx_mbb h').
Lemma Qltb_times : forall c x y x' y', 0 < c -> x' == c * x -> y' == c * y -> Qltb x' y' = Qltb x y.
Proof. intros c x y x' y' C E1 E2. apply eq_true_iff_eq. rewrite !Qltb_lt, E1, E2. split; intro H; nra. Qed.
Lemma hex_init_times : forall c a b pts pts' lh sh lh' sh', 0 < c -> same_pattern c a b pts pts' -> 0 < lh -> 0 < sh -> lh' == c * lh -> sh' == c * sh ->
  same_res (fun h h' => same_hex c a b h h' /\ hx_points h = pts /\ hx_points h' = pts' /\ 0 < hx_l h /\ 0 < hx_sh h) (hex_init pts lh sh) (hex_init pts' lh' sh').
Proof.
  intros c a b pts pts' lh sh lh' sh' C H L S L' S'. pose proof (mbb_times c a b pts pts' C H) as M. unfold hex_init.
  destruct (compute_mbb pts) as [x|e], (compute_mbb pts') as [y|e']; simpl in M; try tauto; cbn [bind].
  pose proof M as [[A1 A2] [B1 B2]]. simpl in A1, A2, B1, B2.
  assert (DX : bxmax y - bxmin y == c * (bxmax x - bxmin x)) by (rewrite A1, B1; ring).
  assert (DY : bymax y - bymin y == c * (bymax x - bymin x)) by (rewrite A2, B2; ring).
  rewrite (Qltb_times c (lh / 2) (bxmax x - bxmin x) (lh' / 2) (bxmax y - bxmin y) C); [|rewrite L'; field|exact DX].
  rewrite (Qltb_times c sh (bymax x - bymin x) sh' (bymax y - bymin y) C); [|exact S'|exact DY].
  assert (F1 : Qceiling ((bxmax y - bxmin y - lh' / 2) / ((3 # 2) * lh')) = Qceiling ((bxmax x - bxmin x - lh / 2) / ((3 # 2) * lh)))
    by (apply Qceil_eq; rewrite DX, L'; field; split; lra).
  assert (F2 : Qceiling ((bymax y - bymin y - sh') / (2 * sh')) = Qceiling ((bymax x - bymin x - sh) / (2 * sh)))
    by (apply Qceil_eq; rewrite DY, S'; field; split; lra).
  assert (F3 : Qceiling ((bymax y - bymin y) / (2 * sh')) = Qceiling ((bymax x - bymin x) / (2 * sh)))
    by (apply Qceil_eq; rewrite DY, S'; field; split; lra).
  rewrite F1, F2, F3. simpl. split; [|auto]. unfold same_hex. cbn [hx_cols hx_even hx_odd hx_num hx_l hx_sh hx_mbb]. repeat split; auto.
Qed.

Lemma line_times : forall c a b x0 y0 x1 y1 px py x0' y0' x1' y1' px' py', 0 < c -> ~ x0 - x1 == 0 ->
  x0' == c * x0 + a -> y0' == c * y0 + b -> x1' == c * x1 + a -> y1' == c * y1 + b -> px' == c * px + a -> py' == c * py + b ->
  py' - ((y0' - y1') / (x0' - x1') * px' + (x0' * y1' - x1' * y0') / (x0' - x1')) ==
  c * (py - ((y0 - y1) / (x0 - x1) * px + (x0 * y1 - x1 * y0) / (x0 - x1))).
Proof.
  intros c a b x0 y0 x1 y1 px py x0' y0' x1' y1' px' py' C N E1 E2 E3 E4 E5 E6. rewrite E1, E2, E3, E4, E5, E6. field. split; [exact N|].
  intro X. apply N. assert (Y : c * (x0 - x1) == 0) by lra. apply Qmult_integral in Y. destruct Y; [lra|assumption].
Qed.
Lemma Qtrunc_eq : forall x y, x == y -> Qtrunc x = Qtrunc y.
Proof. intros x y H. rewrite H. reflexivity. Qed.
Lemma hex_cell_times : forall c a b h h' p p', 0 < c -> 0 < hx_l h -> 0 < hx_sh h -> same_hex c a b h h' -> moved c a b p p' ->
  hex_cell h' p' = hex_cell h p.
Proof.
  intros c a b h h' p p' C L S (_ & _ & _ & _ & TL & TS & [A1 A2] & _) [P1 P2]. simpl in A1, A2. unfold times in TL, TS. unfold hex_cell.
  assert (D : Qfloor ((fst p' - bxmin (hx_mbb h')) / (hx_l h' / 2)) = Qfloor ((fst p - bxmin (hx_mbb h)) / (hx_l h / 2))).
  { apply Qfloor_eq. rewrite P1, A1, TL. field. split; lra. }
  assert (YE : Qtrunc ((snd p' + hx_sh h' - bymin (hx_mbb h')) / (2 * hx_sh h')) = Qtrunc ((snd p + hx_sh h - bymin (hx_mbb h)) / (2 * hx_sh h))).
  { apply Qtrunc_eq. rewrite P2, A2, TS. field. split; lra. }
  assert (YO : Qtrunc ((snd p' - bymin (hx_mbb h')) / (2 * hx_sh h')) = Qtrunc ((snd p - bymin (hx_mbb h)) / (2 * hx_sh h))).
  { apply Qtrunc_eq. rewrite P2, A2, TS. field. split; lra. }
  rewrite D, YE, YO.
  set (deg := Qfloor ((fst p - bxmin (hx_mbb h)) / (hx_l h / 2))). set (ye := Qtrunc ((snd p + hx_sh h - bymin (hx_mbb h)) / (2 * hx_sh h))).
  set (yo := Qtrunc ((snd p - bymin (hx_mbb h)) / (2 * hx_sh h))).
  destruct (negb (deg mod 3 =? 1)%Z); [reflexivity|].
  set (cx := (deg / 3)%Z). set (cy := if (cx mod 2 =? 0)%Z then ye else yo).
  set (X := inject_Z cx * (hx_l h / 2) * 3 + bxmin (hx_mbb h)).
  set (Y := if (cx mod 2 =? 0)%Z then inject_Z cy * 2 * hx_sh h + bymin (hx_mbb h) else (inject_Z cy * 2 + 1) * hx_sh h + bymin (hx_mbb h)).
  set (X' := inject_Z cx * (hx_l h' / 2) * 3 + bxmin (hx_mbb h')).
  set (Y' := if (cx mod 2 =? 0)%Z then inject_Z cy * 2 * hx_sh h' + bymin (hx_mbb h') else (inject_Z cy * 2 + 1) * hx_sh h' + bymin (hx_mbb h')).
  assert (EX : X' == c * X + a) by (unfold X, X'; rewrite TL, A1; field).
  assert (EY : Y' == c * Y + b) by (unfold Y, Y'; destruct (cx mod 2 =? 0)%Z; rewrite TS, A2; ring).
  assert (B : Qltb Y' (snd p') = Qltb Y (snd p)).
  { apply eq_true_iff_eq. rewrite !Qltb_lt, EY, P2. split; intro Z; nra. }
  rewrite B. clearbody X X' Y Y'.
  assert (K : forall u v, v == c * u -> Qle_bool v 0 = Qle_bool u 0).
  { intros u v E. apply eq_true_iff_eq. rewrite !Qleb_le, E. split; intro Z; nra. }
  assert (HF : hx_l h / 2 == (1 # 2) * hx_l h) by field.
  destruct (Qltb Y (snd p)).
  - rewrite (K (- (snd p - ((Y - (Y + hx_sh h)) / (X + hx_l h - (X + hx_l h / 2)) * fst p +
      ((X + hx_l h) * (Y + hx_sh h) - (X + hx_l h / 2) * Y) / (X + hx_l h - (X + hx_l h / 2)))))); [reflexivity|].
    rewrite (line_times c a b (X + hx_l h) Y (X + hx_l h / 2) (Y + hx_sh h) (fst p) (snd p)); [ring|exact C|intro Z0; rewrite HF in Z0; lra| | | | |exact P1|exact P2].
    + rewrite EX, TL. ring. + exact EY. + rewrite EX, TL. field. + rewrite EY, TS. ring.
  - rewrite (K (snd p - ((Y - hx_sh h - Y) / (X + hx_l h / 2 - (X + hx_l h)) * fst p +
      ((X + hx_l h / 2) * Y - (X + hx_l h) * (Y - hx_sh h)) / (X + hx_l h / 2 - (X + hx_l h))))); [reflexivity|].
    rewrite (line_times c a b (X + hx_l h / 2) (Y - hx_sh h) (X + hx_l h) Y (fst p) (snd p)); [reflexivity|exact C|intro Z0; rewrite HF in Z0; lra| | | | |exact P1|exact P2].
    + rewrite EX, TL. field. + rewrite EY, TS. ring. + rewrite EX, TL. ring. + exact EY.
Qed.
Lemma hex_sta_times : forall c a b pts pts' h h', 0 < c -> 0 < hx_l h -> 0 < hx_sh h -> same_pattern c a b pts pts' ->
  hx_points h = pts -> hx_points h' = pts' -> same_hex c a b h h' -> hex_location_sta h' = hex_location_sta h.
Proof.
  intros c a b pts pts' h h' C L S H P1 P2 SH. unfold hex_location_sta. rewrite P1, P2. pose proof SH as (S1 & S2 & S3 & _).
  assert (K : hex_keys h' = hex_keys h) by (unfold hex_keys; rewrite S1, S2, S3; reflexivity). rewrite K.
  assert (F0 : forall (l : list pt) (g : pt -> Z) d, foldM (fun d p => dincr d (g p)) l d = foldM dincr (map g l) d).
  { clear. induction l as [|p l IH]; intros g d; [reflexivity|]. cbn [foldM map]. destruct (dincr d (g p)); cbn [bind]; [apply IH|reflexivity]. }
  rewrite !F0. clear P1 P2. destruct H as [l [P F]]. transitivity (foldM dincr (map (hex_cell_id h) l) (map (fun k => (k, 0%Z)) (hex_keys h))).
  - f_equal. clear P. induction F as [|u v l l' UV F IH]; [reflexivity|]. cbn [map]. rewrite IH. f_equal. unfold hex_cell_id.
    rewrite (hex_cell_times c a b h h' u v), S1; auto.
  - apply fold_perm. apply Permutation_sym. apply Permutation_map. exact P.
Qed.

(** ** QStatistic *)
Lemma moved_rescaled : forall c a b l l', Forall2 (moved c a b) l l' -> Forall2 (rescaled c c a b) l l'.
Proof. intros c a b l l' F. exact F. Qed.
Lemma pattern_rescaled : forall c a b l l', same_pattern c a b l l' -> rescaled_pattern c c a b l l'.
Proof. intros c a b l l' F. exact F. Qed.

Definition same_manager (c a b : Q) (m m' : manager) : Prop :=
  match m, m' with
  | MRect r, MRect r' => same_rect c c a b r r'
  | MHex h, MHex h' => same_hex c a b h h' /\ 0 < hx_l h /\ 0 < hx_sh h
  | _, _ => False
  end.
Lemma manager_times : forall c a b pts pts' shape nx ny rw rh lh sh rw' rh' lh' sh', 0 < c -> same_pattern c a b pts pts' ->
  (shape = ShHex -> 0 < lh /\ 0 < sh) -> rw' == c * rw -> rh' == c * rh -> lh' == c * lh -> sh' == c * sh ->
  same_res (fun m m' => same_manager c a b m m' /\ manager_sta m' = manager_sta m)
    (make_manager pts shape nx ny rw rh lh sh) (make_manager pts' shape nx ny rw' rh' lh' sh').
Proof.
  intros c a b pts pts' shape nx ny rw rh lh sh rw' rh' lh' sh' C H PS E1 E2 E3 E4. unfold make_manager. destruct shape.
  - pose proof (rect_init_times c c a b pts pts' nx ny rw rh rw' rh' C C (pattern_rescaled _ _ _ _ _ H) E1 E2) as X.
    destruct (rect_init pts nx ny rw rh) as [r|e] eqn:R1, (rect_init pts' nx ny rw' rh') as [r'|e'] eqn:R2; simpl in X; try tauto; cbn [bind]; simpl.
    destruct X as (X1 & X2 & X3). split; [exact X1|]. exact (sta_times c c a b pts pts' nx ny rw rh rw' rh' r r' C C (pattern_rescaled _ _ _ _ _ H) R1 R2 X2 X3 X1).
  - destruct (PS eq_refl) as [L S0]. pose proof (hex_init_times c a b pts pts' lh sh lh' sh' C H L S0 E3 E4) as X.
    destruct (hex_init pts lh sh) as [h|e] eqn:R1, (hex_init pts' lh' sh') as [h'|e'] eqn:R2; simpl in X; try tauto; cbn [bind]; simpl.
    destruct X as (X1 & X2 & X3 & X4 & X5). split; [auto|]. exact (hex_sta_times c a b pts pts' h h' C X4 X5 H X2 X3 X1).
  - reflexivity.
Qed.
Lemma sim_times : forall c a b m m' x y i, 0 < c -> same_manager c a b m m' -> moved_arr c a b x y -> sim_chi2 m' y i = sim_chi2 m x i.
Proof.
  intros c a b m m' x y i C SM M. unfold sim_chi2.
  assert (SP : same_res (Forall2 (moved c a b)) (sub_pattern x i) (sub_pattern y i)).
  { destruct x as [p|l|s n d], y as [p'|l'|s' n' d']; simpl in M; try tauto; unfold sub_pattern.
    - destruct (Nat.ltb i 2); reflexivity.
    - revert i. induction M; intros [|i]; simpl; auto.
    - destruct M as (_ & _ & M). revert i. induction M as [|u v d d' U M IH]; intros [|i]; simpl; auto. destruct U; simpl; auto. }
  destruct (sub_pattern x i) as [l|e], (sub_pattern y i) as [l'|e']; simpl in SP; try tauto; cbn [bind]; [|congruence].
  assert (SG : same_res (fun u v => manager_sta v = manager_sta u) (sim_manager m l) (sim_manager m' l')).
  { destruct m as [r|h], m' as [r'|h']; simpl in SM; try tauto; unfold sim_manager.
    - destruct SM as (X1 & X2 & _). rewrite X1, X2.
      pose proof (manager_times c a b l l' ShRect (rm_cols r) (rm_rows r) 0 0 1 1 0 0 (c * 1) (c * 1) C (ordered_pattern _ _ _ _ _ SP)) as X. unfold make_manager in X.
      destruct (rect_init l (rm_cols r) (rm_rows r) 0 0), (rect_init l' (rm_cols r) (rm_rows r) 0 0); cbn [bind] in *; simpl in X |- *; apply X; (discriminate || ring || reflexivity).
    - destruct SM as ((_ & _ & _ & _ & X1 & X2 & _) & X3 & X4).
      pose proof (manager_times c a b l l' ShHex 1 1 1 1 (hx_l h) (hx_sh h) (c * 1) (c * 1) (hx_l h') (hx_sh h') C (ordered_pattern _ _ _ _ _ SP)) as X. unfold make_manager in X.
      destruct (hex_init l (hx_l h) (hx_sh h)), (hex_init l' (hx_l h') (hx_sh h')); cbn [bind] in *; simpl in X |- *; apply X; auto; reflexivity. }
  destruct (sim_manager m l) as [u|e], (sim_manager m' l') as [v|e']; simpl in SG; try tauto; cbn [bind]; [|congruence]. rewrite SG. reflexivity.
Qed.
Lemma poisson_times_intensity : forall c a b h h' i i' z us, moved_hull c a b h h' -> i' * h_area h' == i * h_area h ->
  same_run (moved_arr c a b) (poisson h (Some i) (SInt z) us) (poisson h' (Some i') (SInt z) us).
Proof.
  intros c a b h h' i i' z us H I. unfold poisson. cbn [parse_size_and_intensity lift rbind].
  rewrite (Qtrunc_eq _ _ I).
  eapply same_bind with (P := eq); [apply same_lift; destruct (alloc _ z); simpl; reflexivity|].
  intros [k r] ? us2 <-. eapply same_bind.
  - apply replicate_times. intros us3. apply reject_times with (n := List.length us3); [| |lia].
    + intros u v. apply candidate_times. apply H.
    + apply H.
  - intros d d' us3 F. simpl. split; [|reflexivity]. apply squeeze_times. exact F.
Qed.
Lemma qstat_times : forall c a b pts pts' shape nx ny rw rh lh sh rw' rh' lh' sh' n w w' us, 0 < c -> same_pattern c a b pts pts' ->
  (shape = ShHex -> 0 < lh /\ 0 < sh) -> rw' == c * rw -> rh' == c * rh -> lh' == c * lh -> sh' == c * sh ->
  moved_hull c a b w w' -> h_area w' == c * c * h_area w ->
  qstatistic pts' shape nx ny rw' rh' lh' sh' n w' us = qstatistic pts shape nx ny rw rh lh sh n w us.
Proof.
  intros c a b pts pts' shape nx ny rw rh lh sh rw' rh' lh' sh' n w w' us C H PS E1 E2 E3 E4 MH AR. unfold qstatistic.
  pose proof (manager_times c a b pts pts' shape nx ny rw rh lh sh rw' rh' lh' sh' C H PS E1 E2 E3 E4) as X.
  destruct (make_manager pts shape nx ny rw rh lh sh) as [m|e], (make_manager pts' shape nx ny rw' rh' lh' sh') as [m'|e']; simpl in X; try tauto;
    cbn [lift rbind]; [|congruence].
  destruct X as [SM ->]. destruct (manager_sta m) as [d|e]; cbn [lift rbind]; [|reflexivity].
  destruct (0 <? n)%Z; [|reflexivity].
  rewrite (Qeqb_scale (c * c) (h_area w) (h_area w')); [|nra|exact AR]. destruct (Qeq_bool (h_area w) 0) eqn:Z; [reflexivity|].
  apply Qeq_bool_neq in Z.
  assert (LN : Qlen pts' == Qlen pts).
  { destruct H as [l [P F]]. unfold Qlen. rewrite (Permutation_length P). assert (Y : List.length l = List.length pts') by (clear - F; induction F; cbn; auto).
    rewrite Y. reflexivity. }
  pose proof (poisson_times_intensity c a b w w' (Qlen pts / h_area w) (Qlen pts' / h_area w') n us MH) as PP.
  destruct (poisson w (Some (Qlen pts / h_area w)) (SInt n) us) as [x us1|e|], (poisson w' (Some (Qlen pts' / h_area w')) (SInt n) us) as [y us2|e'|];
    simpl in PP; cbn [rbind];
    (assert (PQ : Qlen pts' / h_area w' * h_area w' == Qlen pts / h_area w * h_area w);
      [rewrite LN; field; split; [exact Z|]; rewrite AR; intro Q0; apply Qmult_integral in Q0; destruct Q0; [nra|contradiction]|]; specialize (PP PQ)); try tauto; [|congruence].
  destruct PP as [PP <-].
  assert (MM : forall l, mapM (sim_chi2 m' y) l = mapM (sim_chi2 m x) l).
  { induction l as [|i l IH]; [reflexivity|]. cbn [mapM]. rewrite (sim_times c a b m m' x y i C SM PP), IH. reflexivity. }
  rewrite MM. reflexivity.
Qed.

(** ** Exchanged axes and mirror images of rectangular grids *)
Lemma flat_map_swap : forall (X Y Z : Type) (f : X -> Y -> Z) (l : list X) (k : list Y),
  Permutation (flat_map (fun x => map (f x) k) l) (flat_map (fun y => map (fun x => f x y) l) k).
Proof.
  intros X Y Z f l k. induction l as [|x l IH]; cbn [flat_map map].
  - induction k; cbn; auto.
  - eapply Permutation_trans; [apply Permutation_app_head; exact IH|]. clear IH. induction k as [|y k IH]; cbn [flat_map map app]; [constructor|].
    constructor. eapply Permutation_trans; [|apply Permutation_app_head; exact IH]. rewrite !app_assoc. apply Permutation_app_tail. apply Permutation_app_comm.
Qed.
Definition value_at (d : zdict) (k : Z) : Z := match dget d k with Some v => v | None => 0%Z end.
Lemma dvals_keys : forall d, NoDup (dkeys d) -> dvals d = map (value_at d) (dkeys d).
Proof.
  induction d as [|[k v] d IH]; intros N; [reflexivity|]. cbn [dkeys map fst] in N. inversion N; subst. cbn [dvals dkeys map fst snd]. f_equal.
  - unfold value_at. cbn [dget]. rewrite Z.eqb_refl. reflexivity.
  - change (map snd d) with (dvals d). rewrite IH by assumption. apply map_ext_in. intros j J. unfold value_at. cbn [dget].
    destruct (Z.eqb_spec j k); [subst; contradiction|reflexivity].
Qed.
Lemma grid_values : forall d cols rows, (0 <= cols)%Z -> (0 <= rows)%Z -> dkeys d = zrange (cols * rows) ->
  dvals d = flat_map (fun iy => map (fun ix => value_at d (ix + iy * cols)%Z) (zrange cols)) (zrange rows).
Proof.
  intros d cols rows C Rr K. rewrite dvals_keys, K by (rewrite K; apply zrange_nodup). rewrite <- (grid_keys cols rows C Rr).
  generalize (zrange rows). induction l as [|i l IH]; [reflexivity|]. cbn [flat_map]. rewrite map_app, IH, map_map. reflexivity.
Qed.
Lemma flat_map_same : forall (X Y : Type) (f g : X -> list Y) l, (forall x, In x l -> Permutation (f x) (g x)) -> Permutation (flat_map f l) (flat_map g l).
Proof.
  intros X Y f g l. induction l as [|x l IH]; intros H; cbn [flat_map]; [constructor|]. apply Permutation_app; [apply H; left; auto|]. apply IH. intros; apply H; right; auto.
Qed.
Lemma zrange_mirror : forall n, Permutation (map (fun i => (n - 1 - i)%Z) (zrange n)) (zrange n).
Proof.
  intros n. apply NoDup_Permutation.
  - apply FinFun.Injective_map_NoDup; [intros x y E; lia|apply zrange_nodup].
  - apply zrange_nodup.
  - intro x. rewrite in_map_iff, in_zrange. split.
    + intros [i [<- I]]. apply in_zrange in I. lia.
    + intro H. exists (n - 1 - x)%Z. split; [lia|]. apply in_zrange. lia.
Qed.

Lemma mbb_swapped : forall pts x, compute_mbb pts = Ok x -> compute_mbb (map swapped pts) = Ok (mkbox (bymin x) (bxmin x) (bymax x) (bxmax x)).
Proof.
  intros [|p l] x H; [discriminate|]. cbn [compute_mbb map] in *. injection H as <-. cbn [bxmin bymin bxmax bymax]. rewrite !map_map. reflexivity.
Qed.
Lemma init_swapped : forall pts nx ny rw rh r, rect_init pts nx ny rw rh = Ok r ->
  exists r', rect_init (map swapped pts) ny nx rh rw = Ok r' /\ rm_points r' = map swapped pts /\ rm_cols r' = rm_rows r /\ rm_rows r' = rm_cols r /\
    rm_w r' = rm_h r /\ rm_h r' = rm_w r /\ bxmin (rm_mbb r') = bymin (rm_mbb r) /\ bxmax (rm_mbb r') = bymax (rm_mbb r) /\
    bymin (rm_mbb r') = bxmin (rm_mbb r) /\ bymax (rm_mbb r') = bxmax (rm_mbb r).
Proof.
  intros pts nx ny rw rh r H. unfold rect_init in *. apply bind_ok in H. destruct H as [x [M H]]. rewrite (mbb_swapped _ _ M). cbn [bind].
  cbn [bxmin bymin bxmax bymax]. rewrite andb_comm. destruct (negb (Qeq_bool rw 0) && negb (Qeq_bool rh 0)); injection H as <-; eexists; split; try reflexivity;
    cbn [rm_points rm_mbb rm_cols rm_rows rm_w rm_h bxmin bymin bxmax bymax]; repeat split.
Qed.
Lemma swap_counts : forall pts nx ny rw rh, spread fst pts -> spread snd pts -> valid_grid nx ny rw rh ->
  exists r r' d d', rect_init pts nx ny rw rh = Ok r /\ rect_init (map swapped pts) ny nx rh rw = Ok r' /\
    rect_location_sta r = Ok d /\ rect_location_sta r' = Ok d' /\ rm_cols r' = rm_rows r /\ rm_rows r' = rm_cols r /\
    (forall ix iy, (0 <= ix < rm_cols r)%Z -> (0 <= iy < rm_rows r)%Z -> dget d' (iy + ix * rm_rows r)%Z = dget d (ix + iy * rm_cols r)%Z) /\
    Permutation (dvals d) (dvals d').
Proof.
  intros pts nx ny rw rh SX SY V. destruct (rect_init_fits pts nx ny rw rh SX SY V) as (r & w & h & E & E0 & _ & _ & TX & TY & W & H & FX & FY & _).
  destruct (init_swapped _ _ _ _ _ _ E) as (r' & E' & P' & C' & R' & W' & H' & B1 & B2 & B3 & B4).
  rewrite <- E0 in TX, TY. destruct (rect_count_main r w h W H FX FY TX TY) as (d & D1 & D2 & _ & D4).
  assert (SM : forall f pts lo hi, tight f pts lo hi -> tight (fun p => f (swapped p)) (map swapped pts) lo hi).
  { intros f l lo hi [T1 [[p [P1 P2]] [q [Q1 Q2]]]]. split; [|split].
    - intros u U. apply in_map_iff in U. destruct U as [v [<- V0]]. unfold swapped. cbn [fst snd]. destruct v. apply (T1 _ V0).
    - exists (swapped p). split; [apply in_map; exact P1|]. destruct p. exact P2.
    - exists (swapped q). split; [apply in_map; exact Q1|]. destruct q. exact Q2. }
  destruct (rect_count_main r' h w) as (d' & D1' & D2' & _ & D4').
  { rewrite W'; exact H. } { rewrite H'; exact W. }
  { rewrite B1, B2, C'; exact FY. } { rewrite B3, B4, R'; exact FX. }
  { rewrite B1, B2, P'. rewrite E0 in TY. exact (SM snd pts _ _ TY). }
  { rewrite B3, B4, P'. rewrite E0 in TX. exact (SM fst pts _ _ TX). }
  exists r, r', d, d'. do 6 (split; [assumption|]).
  assert (K : forall ix iy, (0 <= ix < rm_cols r)%Z -> (0 <= iy < rm_rows r)%Z -> dget d' (iy + ix * rm_rows r)%Z = dget d (ix + iy * rm_cols r)%Z).
  { intros ix iy I J. rewrite (D4 ix iy I J). specialize (D4' iy ix). rewrite C', R' in D4'. rewrite (D4' J I). do 2 f_equal.
    rewrite P', count_map, E0. apply count_ext. intros p _. unfold swapped. cbn [fst snd]. rewrite B1, B3. apply andb_comm. }
  split; [exact K|]. destruct FX as [CX _], FY as [CY _].
  rewrite (grid_values d (rm_cols r) (rm_rows r)) by (auto; lia). rewrite (grid_values d' (rm_rows r) (rm_cols r)) by (try lia; rewrite D2', C', R'; reflexivity).
  eapply Permutation_trans; [apply flat_map_swap|]. apply flat_map_same. intros ix I. apply in_zrange in I.
  rewrite (map_ext_in _ (fun iy => value_at d' (iy + ix * rm_rows r)%Z) (zrange (rm_rows r))); [apply Permutation_refl|].
  intros iy J. apply in_zrange in J. unfold value_at. rewrite (K ix iy I J). reflexivity.
Qed.

Lemma slot_mirror : forall lo hi w m lo' w' k i x, (0 < m)%Z -> 0 < w -> hi == lo + inject_Z m * w -> w' == w -> lo' == k - hi -> lo <= x <= hi ->
  ~ on_line lo hi m x -> (0 <= i < m)%Z -> in_slot lo' w' m (m - 1 - i) (k - x) <-> in_slot lo w m i x.
Proof.
  intros lo hi w m lo' w' k i x M W HI WE LE XB NL I. unfold in_slot.
  assert (EQ : inject_Z (m - 1 - i) == inject_Z m - 1 - inject_Z i).
  { replace (m - 1 - i)%Z with (m + (- (1)) + (- i))%Z by lia. rewrite !inject_Z_plus, !inject_Z_opp. change (inject_Z 1) with 1. ring. }
  assert (MP : 0 < inject_Z m) by (apply inject_Z_pos; lia).
  assert (WD : (hi - lo) / inject_Z m == w) by (rewrite HI; field; lra).
  assert (NL' : forall j, (0 < j < m)%Z -> ~ x == lo + inject_Z j * w).
  { intros j J E. apply NL. exists j. split; [exact J|]. rewrite WD. exact E. }
  assert (NE : (0 < i)%Z -> ~ x == lo + inject_Z i * w) by (intro; apply NL'; lia).
  assert (NF : (i < m - 1)%Z -> ~ x == lo + (inject_Z i + 1) * w).
  { intros J E. apply (NL' (i + 1)%Z); [lia|]. rewrite inject_Z_plus. exact E. }
  rewrite EQ, LE, HI, WE.
  split.
  - intros (_ & A & B). split; [exact I|]. split; [|].
    + destruct B as [B|[B1 B2]]; [lra|]. assert (i = 0)%Z by lia. subst i. change (inject_Z 0) with 0 in *. lra.
    + destruct (Z.eq_dec i (m - 1)) as [->|D].
      * assert (inject_Z (m - 1) == inject_Z m - 1) by (unfold Zminus; rewrite inject_Z_plus, inject_Z_opp; change (inject_Z 1) with 1; ring).
        rewrite H in A |- *. destruct (Qlt_le_dec x (lo + (inject_Z m - 1 + 1) * w)); [left; assumption|right]. split; [reflexivity|]. lra.
      * left. specialize (NF ltac:(lia)). destruct (Qlt_le_dec x (lo + (inject_Z i + 1) * w)) as [|G]; [assumption|]. exfalso. apply NF. lra.
  - intros (_ & A & B). split; [lia|]. split.
    + destruct B as [B|[-> B2]]; [lra|].
      assert (inject_Z (m - 1) == inject_Z m - 1) by (unfold Zminus; rewrite inject_Z_plus, inject_Z_opp; change (inject_Z 1) with 1; ring).
      rewrite H. lra.
    + destruct (Z.eq_dec i 0) as [->|D].
      * change (inject_Z 0) with 0 in *. destruct (Qlt_le_dec lo x); [left; lra|right]. split; [lia|lra].
      * left. specialize (NE ltac:(lia)). assert (lo + inject_Z i * w < x). { destruct (Qlt_le_dec (lo + inject_Z i * w) x); [assumption|]. exfalso. apply NE. lra. } lra.
Qed.
Lemma mirror_counts : forall pts nx ny rw rh k, spread fst pts -> spread snd pts -> rw == 0 \/ rh == 0 -> (1 <= nx)%Z -> (1 <= ny)%Z ->
  exists r r' d d', rect_init pts nx ny rw rh = Ok r /\ rect_init (map (mirrored k) pts) nx ny rw rh = Ok r' /\
    rect_location_sta r = Ok d /\ rect_location_sta r' = Ok d' /\
    ((forall p, In p pts -> ~ on_line (bxmin (rm_mbb r)) (bxmax (rm_mbb r)) nx (fst p)) ->
     (forall ix iy, (0 <= ix < nx)%Z -> (0 <= iy < ny)%Z -> dget d' (nx - 1 - ix + iy * nx)%Z = dget d (ix + iy * nx)%Z) /\
     Permutation (dvals d) (dvals d')).
Proof.
  intros pts nx ny rw rh k SX SY WH NX NY. assert (V : valid_grid nx ny rw rh) by (right; auto).
  destruct (rect_init_fits pts nx ny rw rh SX SY V) as (r & w & h & E & E0 & _ & _ & TX & TY & W & H & FX & FY & CC).
  assert (SX' : spread fst (map (mirrored k) pts)).
  { destruct SX as (p & q & P & Q0 & L). exists (mirrored k q), (mirrored k p). do 2 (split; [apply in_map; assumption|]). cbn. lra. }
  assert (SY' : spread snd (map (mirrored k) pts)).
  { destruct SY as (p & q & P & Q0 & L). exists (mirrored k p), (mirrored k q). do 2 (split; [apply in_map; assumption|]). cbn. exact L. }
  destruct (rect_init_fits (map (mirrored k) pts) nx ny rw rh SX' SY' V) as (r' & w' & h' & E' & E0' & _ & _ & TX' & TY' & W' & H' & FX' & FY' & CC').
  assert (CC1 : rm_cols r = nx /\ rm_rows r = ny) by (destruct CC as [(A & B & _)|(_ & A & B)]; [exfalso; lra|auto]).
  assert (CC2 : rm_cols r' = nx /\ rm_rows r' = ny) by (destruct CC' as [(A & B & _)|(_ & A & B)]; [exfalso; lra|auto]).
  destruct CC1 as [C1 C2], CC2 as [C1' C2'].
  assert (ZB : negb (Qeq_bool rw 0) && negb (Qeq_bool rh 0) = false).
  { destruct WH as [Z|Z]; apply Qeq_bool_iff in Z; rewrite Z; [reflexivity|apply andb_false_r]. }
  assert (WF : forall l q v, rect_init l nx ny rw rh = Ok q -> rm_w q = Fin v -> v == (bxmax (rm_mbb q) - bxmin (rm_mbb q)) / inject_Z nx).
  { intros l q v I J. unfold rect_init in I. rewrite ZB in I. apply bind_ok in I. destruct I as [x [_ I]]. injection I as <-. cbn [rm_w rm_mbb] in *.
    unfold xdiv in J. destruct (Qeq_bool (inject_Z nx) 0); [destruct (Qeq_bool (bxmax x - bxmin x) 0); [discriminate|destruct (Qltb 0 (bxmax x - bxmin x)); discriminate]|]. injection J as <-. reflexivity. }
  assert (HF : forall l q v, rect_init l nx ny rw rh = Ok q -> rm_h q = Fin v -> v == (bymax (rm_mbb q) - bymin (rm_mbb q)) / inject_Z ny).
  { intros l q v I J. unfold rect_init in I. rewrite ZB in I. apply bind_ok in I. destruct I as [x [_ I]]. injection I as <-. cbn [rm_h rm_mbb] in *.
    unfold xdiv in J. destruct (Qeq_bool (inject_Z ny) 0); [destruct (Qeq_bool (bymax x - bymin x) 0); [discriminate|destruct (Qltb 0 (bymax x - bymin x)); discriminate]|]. injection J as <-. reflexivity. }
  assert (BX : bxmin (rm_mbb r') == k - bxmax (rm_mbb r) /\ bxmax (rm_mbb r') == k - bxmin (rm_mbb r)).
  { destruct TX as [T1 [[p [P1 P2]] [q [Q1 Q2]]]], TX' as [T1' [[p' [P1' P2']] [q' [Q1' Q2']]]].
    apply in_map_iff in P1'. destruct P1' as [p0 [<- P1']]. apply in_map_iff in Q1'. destruct Q1' as [q0 [<- Q1']]. cbn [mirrored fst] in *.
    pose proof (T1 _ P1'). pose proof (T1 _ Q1'). pose proof (T1' _ (in_map (mirrored k) _ _ P1)) as Y1. pose proof (T1' _ (in_map (mirrored k) _ _ Q1)) as Y2.
    cbn [mirrored fst] in *. split; lra. }
  assert (BY : bymin (rm_mbb r') == bymin (rm_mbb r) /\ bymax (rm_mbb r') == bymax (rm_mbb r)).
  { destruct TY as [T1 [[p [P1 P2]] [q [Q1 Q2]]]], TY' as [T1' [[p' [P1' P2']] [q' [Q1' Q2']]]].
    apply in_map_iff in P1'. destruct P1' as [p0 [<- P1']]. apply in_map_iff in Q1'. destruct Q1' as [q0 [<- Q1']]. cbn [mirrored snd] in *.
    pose proof (T1 _ P1'). pose proof (T1 _ Q1'). pose proof (T1' _ (in_map (mirrored k) _ _ P1)) as Y1. pose proof (T1' _ (in_map (mirrored k) _ _ Q1)) as Y2.
    cbn [mirrored snd] in *. split; lra. }
  destruct BX as [BX1 BX2], BY as [BY1 BY2].
  pose proof TX as TX0. pose proof TY as TY0. rewrite <- E0 in TX, TY. rewrite <- E0' in TX', TY'.
  destruct (rect_count_main r w h W H FX FY TX TY) as (d & D1 & D2 & _ & D4).
  destruct (rect_count_main r' w' h' W' H' FX' FY' TX' TY') as (d' & D1' & D2' & _ & D4').
  exists r, r', d, d'. do 4 (split; [assumption|]). intro NL.
  assert (NP : 0 < inject_Z nx) by (apply inject_Z_pos; lia). assert (NQ : 0 < inject_Z ny) by (apply inject_Z_pos; lia).
  pose proof (WF _ _ _ E W) as W1. pose proof (WF _ _ _ E' W') as W2. pose proof (HF _ _ _ E H) as H1. pose proof (HF _ _ _ E' H') as H2.
  assert (WE : w' == w) by (rewrite W1, W2, BX1, BX2; field; lra).
  assert (HE : h' == h) by (rewrite H1, H2, BY1, BY2; reflexivity).
  assert (K : forall ix iy, (0 <= ix < nx)%Z -> (0 <= iy < ny)%Z -> dget d' (nx - 1 - ix + iy * nx)%Z = dget d (ix + iy * nx)%Z).
  { intros ix iy I J. specialize (D4 ix iy). specialize (D4' (nx - 1 - ix)%Z iy). rewrite C1, C2 in D4. rewrite C1', C2' in D4'.
    rewrite D4, D4' by lia. do 2 f_equal. rewrite E0', count_map, E0. apply count_ext. intros p P. cbn [mirrored fst snd]. f_equal.
    - apply eq_true_iff_eq. rewrite !in_slotb_iff. apply (slot_mirror _ (bxmax (rm_mbb r))); auto; try lia.
      + destruct FX as (_ & X & _). exact X.
      + rewrite W1. field. lra.
      + apply (proj1 TX0 p P).
    - apply eq_true_iff_eq. rewrite !in_slotb_iff. unfold in_slot. rewrite BY1, HE. reflexivity. }
  split; [exact K|].
  rewrite (grid_values d nx ny) by (try lia; rewrite D2, C1, C2; reflexivity). rewrite (grid_values d' nx ny) by (try lia; rewrite D2', C1', C2'; reflexivity).
  apply flat_map_same. intros iy J. apply in_zrange in J.
  apply Permutation_trans with (map (fun ix => value_at d' (ix + iy * nx)%Z) (map (fun i => (nx - 1 - i)%Z) (zrange nx))).
  - rewrite map_map. rewrite (map_ext_in _ (fun ix => value_at d' (nx - 1 - ix + iy * nx)%Z) (zrange nx)); [apply Permutation_refl|].
    intros ix I. apply in_zrange in I. unfold value_at. rewrite (K ix iy I J). reflexivity.
  - apply Permutation_map. apply zrange_mirror.
Qed.
