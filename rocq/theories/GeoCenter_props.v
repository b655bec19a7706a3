(** Theorems about centrography for GeoPandas objects. *)
From Coq Require Import ZArith QArith Reals List Bool Arith Lia Lqa String Permutation.
From Verif Require Import Base BaseLemmas Centrography_model Center_model Center_proofs Pattern_props CenterR_model Circle_model GeoCenter_model.
Import ListNotations.
Local Open Scope Q_scope.

(** The rows of a layer of points: located points, missing geometries and empty points. *)
Inductive Layer {P} : list (option (geom P)) -> list P -> Prop :=
| layer_nil : Layer [] []
| layer_point : forall p gs pts, Layer gs pts -> Layer (Some (GPoint (Some p)) :: gs) (p :: pts)
| layer_missing : forall gs pts, Layer gs pts -> Layer (None :: gs) pts
| layer_empty : forall gs pts, Layer gs pts -> Layer (Some (GPoint None) :: gs) pts.

Lemma layer_coords : forall P (gs : list (option (geom P))) pts, Layer gs pts -> get_coordinates gs = pts.
Proof. intros P gs pts H. unfold get_coordinates. induction H; cbn; congruence. Qed.
Lemma layer_length : forall P (gs : list (option (geom P))) pts, Layer gs pts -> (List.length pts <= List.length gs)%nat.
Proof. intros P gs pts H. induction H; cbn; lia. Qed.
Lemma layer_full : forall P (gs : list (option (geom P))) pts, Layer gs pts ->
  (List.length pts = List.length gs <-> gs = map (fun p => Some (GPoint (Some p))) pts).
Proof.
  intros P gs pts H. induction H; cbn [List.length map].
  - tauto.
  - split; [intro X; f_equal; apply IHLayer; lia|intro X; injection X as X; f_equal; apply IHLayer, X].
  - apply layer_length in H. split; [lia|]. intro X. destruct pts; discriminate.
  - apply layer_length in H. split; [lia|]. intro X. destruct pts; discriminate.
Qed.

(** ** C108 *)
(** For a layer of points the GeoPandas versions are the array versions on the located
    points in their order; missing and empty geometries are passed over. *)
Theorem C108_points : forall gs pts, Layer gs pts ->
  mean_center_geo gs = mean_center pts /\ manhattan_median_geo gs = manhattan_median pts /\
  (forall w, weighted_mean_center_geo gs w = weighted_mean_center pts w) /\
  multipoints gs = multipoints (filter (fun g => match g with Some _ => true | None => false end) gs) /\
  (exists m, multipoints gs = Ok m /\ flat_map (fun p => match p with Some p => [p] | None => [] end) m = pts /\
     forall A (convex_hull : list (option pt) -> A), hull_geo convex_hull gs = Ok (convex_hull m)) /\
  bounding_rectangle_geo gs = envelope pts.
Proof.
  intros gs pts H. pose proof (layer_coords _ _ _ H) as C.
  unfold mean_center_geo, manhattan_median_geo, weighted_mean_center_geo. rewrite C. do 3 (split; [reflexivity|]).
  split; [|split].
  - clear C. induction H as [|p gs pts H IH|gs pts H IH|gs pts H IH]; cbn [multipoints filter]; [reflexivity|rewrite IH; reflexivity|exact IH|rewrite IH; reflexivity].
  - clear C. assert (X : exists m, multipoints gs = Ok m /\ flat_map (fun p => match p with Some p => [p] | None => [] end) m = pts).
    2:{ destruct X as [m [M1 M2]]. exists m. split; [auto|]. split; [auto|]. intros A ch. unfold hull_geo. rewrite M1. reflexivity. }
    induction H as [|p gs pts H IH|gs pts H IH|gs pts H IH].
    + exists []. auto.
    + destruct IH as [m [M1 M2]]. exists (Some p :: m). cbn [multipoints flat_map]. rewrite M1, M2. auto.
    + exact IH.
    + destruct IH as [m [M1 M2]]. exists (None :: m). cbn [multipoints flat_map]. rewrite M1, M2. auto.
  - unfold bounding_rectangle_geo. f_equal. clear C. induction H; cbn; congruence.
Qed.
Print Assumptions C108_points.
(** The same for the functions over the reals. *)
Theorem C108_points_real : forall gs pts, Layer gs pts ->
  std_distance_geo gs = std_distance pts /\ (forall A (median : list rpt -> A), euclidean_median_geo median gs = median pts) /\
  (forall numba hull q, minimum_bounding_circle_geo numba hull q gs =
     match minimum_bounding_circle numba hull pts with
     | Some (Ok (c, r)) => Some (Ok (buffer c r q))
     | Some (Raise e) => Some (Raise e)
     | None => None
     end) /\
  forall c, dtot_any (CPoint c) (PLayer gs) = dtot_any (CArr c) (PArr pts).
Proof.
  intros gs pts H. pose proof (layer_coords _ _ _ H) as C.
  unfold std_distance_geo, euclidean_median_geo, minimum_bounding_circle_geo, dtot_any. rewrite C. repeat split.
Qed.
Print Assumptions C108_points_real.
(** The envelope of located points has the corners that the array version returns. *)
Theorem C108_rectangle : forall gs pts, Layer gs pts ->
  (bounding_rectangle_geo gs = EEmpty <-> pts = []) /\
  (forall x0 y0 x1 y1, minimum_bounding_rectangle pts = Ok (x0, y0, x1, y1) ->
     bounding_rectangle_geo gs = EPoint (x0, y0) /\ x0 == x1 /\ y0 == y1 \/
     bounding_rectangle_geo gs = ESegment (x0, y0) (x1, y1) /\ (x0 == x1 /\ ~ y0 == y1 \/ ~ x0 == x1 /\ y0 == y1) \/
     bounding_rectangle_geo gs = ERect x0 y0 x1 y1 /\ ~ x0 == x1 /\ ~ y0 == y1).
Proof.
  intros gs pts H. destruct (C108_points gs pts H) as (_ & _ & _ & _ & _ & B). rewrite B. unfold envelope. split.
  - destruct pts as [|p l]; [split; reflexivity|]. split; [|discriminate]. unfold minimum_bounding_rectangle.
    destruct (_ && _); [discriminate|]. destruct (_ || _); discriminate.
  - intros x0 y0 x1 y1 E. rewrite E.
    destruct (Qeq_bool x0 x1) eqn:X; destruct (Qeq_bool y0 y1) eqn:Y; cbn [andb orb];
    first [apply Qeq_bool_iff in X|apply Qeq_bool_neq in X]; first [apply Qeq_bool_iff in Y|apply Qeq_bool_neq in Y].
    + left. auto.
    + right. left. auto.
    + right. left. auto.
    + right. right. auto.
Qed.
Print Assumptions C108_rectangle.
(** One weight per row works exactly if every row has a location. *)
Theorem C108_weights : forall gs pts w, Layer gs pts -> List.length w = List.length gs ->
  (weighted_mean_center_geo gs w = Raise ValueError <-> exists g, In g gs /\ (g = None \/ g = Some (GPoint None))).
Proof.
  intros gs pts w H L. destruct (C108_points gs pts H) as (_ & _ & W & _). rewrite W. unfold weighted_mean_center.
  assert (E : List.length pts = List.length gs <-> ~ exists g, In g gs /\ (g = None \/ g = Some (GPoint None))).
  { clear W L. induction H as [|p gs pts H IH|gs pts H IH|gs pts H IH]; cbn [List.length In].
    - split; [intros _ [g [[] _]]|reflexivity].
    - split.
      + intros X [g [[<-|G] D]]; [destruct D; discriminate|]. apply IH; [lia|]. exists g. auto.
      + intro X. f_equal. apply IH. intros [g [G D]]. apply X. exists g. auto.
    - apply layer_length in H. split; [lia|]. intro X. exfalso. apply X. exists None. auto.
    - apply layer_length in H. split; [lia|]. intro X. exfalso. apply X. exists (Some (GPoint None)). auto. }
  destruct (Nat.eqb (List.length w) (List.length pts)) eqn:Q.
  - apply Nat.eqb_eq in Q. split; [destruct (Qeq_bool (Qsum w) 0); [destruct pts|]; discriminate|]. intro X. exfalso. apply E; [lia|exact X].
  - apply Nat.eqb_neq in Q. split; [intros _|reflexivity].
    destruct (Exists_dec (fun g => g = None \/ g = Some (GPoint None)) gs) as [X|X].
    + intros [[[p|]|l|r|m]|]; first [left; auto; fail|right; intros [Z|Z]; discriminate].
    + apply Exists_exists in X. exact X.
    + exfalso. apply Q. rewrite L. symmetry. apply E. intro Z. apply X, Exists_exists, Z.
Qed.
Print Assumptions C108_weights.
(** dtot needs both arguments in the same form; otherwise it fails with other errors than
    NotImplementedError. *)
Theorem C108_dtot_forms_refuted : forall c l gs,
  dtot_any (CPoint c) (PArr l) = Some (Raise AttributeError) /\ dtot_any (CSeq c) (PLayer gs) = Some (Raise IndexError) /\
  dtot_any (CArr c) (PSeq l) = Some (Raise TypeError) /\ dtot_any (CSeq c) (PSeq l) = dtot_any (CArr c) (PArr l).
Proof. repeat split. Qed.
Print Assumptions C108_dtot_forms_refuted.
(** A layer with a missing row: unweighted and equally weighted centre disagree. *)
Example C108_case : let gs := [Some (GPoint (Some (0, 0))); None; Some (GPoint (Some (2, 4))); Some (GPoint None)] in
  Layer gs [(0, 0); (2, 4)] /\ (exists x y, mean_center_geo gs = (Fin x, Fin y) /\ x == 1 /\ y == 2) /\
  weighted_mean_center_geo gs [1; 1; 1; 1] = Raise ValueError /\
  (exists c, weighted_mean_center_geo gs [1; 3] = Ok (Some c) /\ fst c == 3 # 2 /\ snd c == 3) /\
  bounding_rectangle_geo gs = ERect 0 0 2 4.
Proof.
  cbv zeta. split; [repeat constructor|]. split; [do 2 eexists; split; [reflexivity|split; reflexivity]|]. split; [reflexivity|].
  split; [eexists; split; [reflexivity|split; reflexivity]|]. reflexivity.
Qed.

(** ** C109 *)
(** Splitting multi-part geometries and collections into rows changes nothing. *)
Theorem C109_parts : forall P before parts after,
  get_coordinates (before ++ Some (GMulti parts) :: after) = get_coordinates (before ++ map (@Some (geom P)) parts ++ after).
Proof.
  intros P before parts after. unfold get_coordinates. rewrite !flat_map_app. f_equal. cbn [flat_map coords]. f_equal.
  induction parts as [|g parts IH]; [reflexivity|]. cbn [flat_map map]. rewrite IH. reflexivity.
Qed.
Print Assumptions C109_parts.

Lemma Qdiv_mult_l_r : forall a b, ~ b == 0 -> a / b * b == a.
Proof. intros. field. auto. Qed.
(** The first vertex of the ring counts twice: [(n + 1) * centre = sum of the n vertices + first vertex]. *)
Theorem C109_polygon : forall v l, exists cx cy, mean_center_geo [Some (GPoly [v :: l])] = (Fin cx, Fin cy) /\
  cx * (Qlen (v :: l) + 1) == Qsum (map fst (v :: l)) + fst v /\ cy * (Qlen (v :: l) + 1) == Qsum (map snd (v :: l)) + snd v.
Proof.
  intros v l.
  assert (C : get_coordinates [Some (GPoly [v :: l])] = (v :: l) ++ [v]) by (cbn; rewrite !app_nil_r; reflexivity).
  assert (LP : Qlen ((v :: l) ++ [v]) == Qlen (v :: l) + 1).
  { unfold Qlen. rewrite app_length. cbn [List.length]. rewrite Nat2Z.inj_add, inject_Z_plus. reflexivity. }
  assert (P : 0 < Qlen (v :: l)).
  { unfold Qlen. change 0 with (inject_Z 0). rewrite <- Zlt_Qlt. cbn [List.length]. lia. }
  assert (X : forall f : pt -> Q, Qsum (map f ((v :: l) ++ [v])) == Qsum (map f (v :: l)) + f v).
  { intro f. rewrite map_app, Qsum_app. cbn [map Qsum fold_right]. ring. }
  unfold mean_center_geo. rewrite C. unfold mean_center, xdiv.
  assert (Z : Qeq_bool (Qlen ((v :: l) ++ [v])) 0 = false).
  { destruct (Qeq_bool _ 0) eqn:E; [|reflexivity]. apply Qeq_bool_iff in E. lra. }
  rewrite Z. do 2 eexists. split; [reflexivity|].
  assert (NZ : ~ Qlen (v :: l) + 1 == 0) by lra.
  split; rewrite X, LP; apply Qdiv_mult_l_r; exact NZ.
Qed.
Print Assumptions C109_polygon.
(** So the centre is that of the vertices only if the ring starts there, and two starting
    points of one ring give the same centre only if they are the same point. *)
Theorem C109_start_refuted : forall v l v' l' cx cy cx' cy', Permutation (v :: l) (v' :: l') ->
  mean_center_geo [Some (GPoly [v :: l])] = (Fin cx, Fin cy) -> mean_center_geo [Some (GPoly [v' :: l'])] = (Fin cx', Fin cy') ->
  ((cx == cx' /\ cy == cy') <-> (fst v == fst v' /\ snd v == snd v')) /\
  ((cx == Qmean (map fst (v :: l)) /\ cy == Qmean (map snd (v :: l))) <->
   (fst v == Qmean (map fst (v :: l)) /\ snd v == Qmean (map snd (v :: l)))).
Proof.
  intros v l v' l' cx cy cx' cy' P H H'.
  destruct (C109_polygon v l) as [a [b [E [A B]]]]. rewrite E in H. injection H as <- <-.
  destruct (C109_polygon v' l') as [a' [b' [E' [A' B']]]]. rewrite E' in H'. injection H' as <- <-.
  assert (LL : Qlen (v' :: l') = Qlen (v :: l)) by (unfold Qlen; rewrite (Permutation_length P); reflexivity).
  assert (SX : Qsum (map fst (v' :: l')) == Qsum (map fst (v :: l))) by (apply Qsum_perm, Permutation_map, Permutation_sym, P).
  assert (SY : Qsum (map snd (v' :: l')) == Qsum (map snd (v :: l))) by (apply Qsum_perm, Permutation_map, Permutation_sym, P).
  rewrite LL in A', B'. rewrite SX in A'. rewrite SY in B'.
  assert (PN : 0 < Qlen (v :: l)).
  { unfold Qlen. change 0 with (inject_Z 0). rewrite <- Zlt_Qlt. cbn [List.length]. lia. }
  set (n := Qlen (v :: l)) in *.
  assert (MX : Qmean (map fst (v :: l)) * n == Qsum (map fst (v :: l))).
  { unfold Qmean. assert (Q : Qlen (map fst (v :: l)) = n) by (unfold n, Qlen; rewrite map_length; reflexivity). rewrite Q. field. lra. }
  assert (MY : Qmean (map snd (v :: l)) * n == Qsum (map snd (v :: l))).
  { unfold Qmean. assert (Q : Qlen (map snd (v :: l)) = n) by (unfold n, Qlen; rewrite map_length; reflexivity). rewrite Q. field. lra. }
  set (mx := Qmean (map fst (v :: l))) in *. set (my := Qmean (map snd (v :: l))) in *.
  set (sx := Qsum (map fst (v :: l))) in *. set (sy := Qsum (map snd (v :: l))) in *.
  assert (cancel : forall p q, p * (n + 1) == q * (n + 1) -> p == q).
  { intros p q X. apply (Qmult_inj_r _ _ (n + 1)); [lra|exact X]. }
  split; split; intros [U V]; split.
  - rewrite U in A. lra.
  - rewrite V in B. lra.
  - apply cancel. rewrite A, A', U. reflexivity.
  - apply cancel. rewrite B, B', V. reflexivity.
  - rewrite U in A. assert (mx * (n + 1) == sx + mx) by (rewrite <- MX; ring). lra.
  - rewrite V in B. assert (my * (n + 1) == sy + my) by (rewrite <- MY; ring). lra.
  - apply cancel. rewrite A, U, <- MX. ring.
  - apply cancel. rewrite B, V, <- MY. ring.
Qed.
Print Assumptions C109_start_refuted.
(** hull and minimum_rotated_rectangle instead reject everything but points. *)
Theorem C109_types : forall P (gs : list (option (geom P))),
  (multipoints gs = Raise TypeError <-> exists g, In (Some g) gs /\ forall p, g <> GPoint p) /\
  ((exists m, multipoints gs = Ok m) <-> exists pts, Layer gs pts).
Proof.
  intros P gs.
  assert (D : (exists m, multipoints gs = Ok m) /\ (exists pts, Layer gs pts) /\ (forall g, In (Some g) gs -> exists p, g = GPoint p) \/
              multipoints gs = Raise TypeError /\ (~ exists pts, Layer gs pts) /\ exists g, In (Some g) gs /\ forall p, g <> GPoint p).
  { induction gs as [|[g|] gs IH].
    - left. split; [exists []; reflexivity|]. split; [exists []; constructor|]. intros g [].
    - assert (N : (forall p, g <> GPoint p) -> multipoints (Some g :: gs) = Raise TypeError /\ ~ exists pts, Layer (Some g :: gs) pts).
      { intro X. split; [destruct g; [exfalso; eapply X; reflexivity|reflexivity..]|]. intros [pts L]. inversion L; subst; eapply X; reflexivity. }
      destruct g as [p|l|r|m].
      2,3,4: right; destruct N as [N1 N2]; [intro p; discriminate|]; (split; [exact N1|]); (split; [exact N2|]); eexists; (split; [left; reflexivity|intro p; discriminate]).
      destruct IH as [[[m M] [[pts L] G]]|[M [L [g [I G]]]]].
      + left. cbn [multipoints]. rewrite M. split; [eexists; reflexivity|]. split; [destruct p; eexists; constructor; exact L|].
        intros g [X|X]; [injection X as <-; eauto|apply G, X].
      + right. cbn [multipoints]. rewrite M. split; [reflexivity|]. split; [|exists g; split; [right; exact I|exact G]].
        intros [pts L']. apply L. inversion L'; eauto.
    - destruct IH as [[[m M] [[pts L] G]]|[M [L [g [I G]]]]].
      + left. split; [exists m; exact M|]. split; [eexists; apply layer_missing, L|]. intros g [X|X]; [discriminate|apply G, X].
      + right. split; [exact M|]. split; [|exists g; split; [right; exact I|exact G]]. intros [pts L']. apply L. inversion L'; eauto. }
  destruct D as [[[m M] [L G]]|[M [L G]]]; rewrite M.
  - split; [split; [discriminate|]|split; eauto]. intros [g [I N]]. destruct (G g I) as [p X]. exfalso. eapply N, X.
  - split; [split; auto|]. split; [intros [m X]; discriminate|]. intro X. contradiction.
Qed.
Print Assumptions C109_types.
(** A square whose ring starts at the origin: (2/5, 2/5) instead of (1/2, 1/2). *)
Example C109_case : exists x y, mean_center_geo [Some (GPoly [[(0, 0); (1, 0); (1, 1); (0, 1)]])] = (Fin x, Fin y) /\ x == 2 # 5 /\ y == 2 # 5 /\
  multipoints [Some (GPoint (Some (0, 0))); Some (GPoly [[(0, 0); (1, 0); (1, 1); (0, 1)]])] = Raise TypeError.
Proof. do 2 eexists. split; [reflexivity|]. repeat split; reflexivity. Qed.
(** The rings of a polygon can be split into polygons of their own: holes count like shells. *)
Theorem C109_holes : forall P before (r1 r2 : list (list P)) after,
  get_coordinates (before ++ Some (GPoly (r1 ++ r2)) :: after) = get_coordinates (before ++ Some (GPoly r1) :: Some (GPoly r2) :: after).
Proof.
  intros. unfold get_coordinates. rewrite !flat_map_app. f_equal. cbn [flat_map coords]. rewrite flat_map_app, app_assoc. reflexivity.
Qed.
Print Assumptions C109_holes.

(** The vertices the envelope has to cover. *)
Inductive Outer {P} : geom P -> P -> Prop :=
| Outer_point : forall p, Outer (GPoint (Some p)) p
| Outer_line : forall l p, In p l -> Outer (GLine l) p
| Outer_shell : forall s hs p, In p s -> Outer (GPoly (s :: hs)) p
| Outer_part : forall parts g p, In g parts -> Outer g p -> Outer (GMulti parts) p.
Lemma outer_iff : forall P (g : geom P) p, In p (outer_coords g) <-> Outer g p.
Proof.
  intros P. fix IH 1. intros [[q|]|l|[|s hs]|parts] p; cbn [outer_coords coords].
  - split; [intros [<-|[]]; constructor|]. inversion 1; subst. left. reflexivity.
  - split; [intros []|inversion 1].
  - split; [constructor; auto|]. inversion 1; subst. auto.
  - split; [intros []|inversion 1].
  - split; [constructor; auto|]. inversion 1; subst. auto.
  - assert (A : Forall (fun g => forall p, In p (outer_coords g) <-> Outer g p) parts).
    { induction parts as [|h parts IHp]; constructor; [intro; apply IH|exact IHp]. }
    rewrite Forall_forall in A. rewrite in_flat_map. split.
    + intros [g [G X]]. apply (Outer_part parts g p G). apply A; auto.
    + intro X. inversion X as [| | |ps g q G O]; subst. exists g. split; [exact G|]. apply A; auto.
Qed.
(** Every vertex lies between the corners and every side touches a vertex, whatever the
    geometries; holes do not matter. *)
Theorem C109_envelope : forall gs x0 y0 x1 y1,
  bounding_rectangle_geo gs = EPoint (x0, y0) /\ x0 = x1 /\ y0 = y1 \/ bounding_rectangle_geo gs = ESegment (x0, y0) (x1, y1) \/
  bounding_rectangle_geo gs = ERect x0 y0 x1 y1 ->
  let V := fun p => exists g, In (Some g) gs /\ Outer g p in
  (forall p, V p -> x0 <= fst p <= x1 /\ y0 <= snd p <= y1) /\
  (exists p, V p /\ fst p == x0) /\ (exists p, V p /\ fst p == x1) /\
  (exists p, V p /\ snd p == y0) /\ (exists p, V p /\ snd p == y1).
Proof.
  intros gs x0 y0 x1 y1 H V.
  assert (VI : forall p, In p (flat_map (fun g => match g with Some g => outer_coords g | None => [] end) gs) <-> V p).
  { intro p. rewrite in_flat_map. unfold V. split.
    - intros [[g|] [G X]]; [|destruct X]. exists g. split; auto. apply outer_iff; auto.
    - intros [g [G X]]. exists (Some g). split; auto. apply outer_iff; auto. }
  unfold bounding_rectangle_geo in H. set (l := flat_map _ gs) in *. unfold envelope in H. destruct l as [|p l].
  { cbn in H. destruct H as [[H _]|[H|H]]; discriminate. }
  unfold minimum_bounding_rectangle in H.
  set (a0 := py_min (fst p) (map fst l)) in *. set (b0 := py_min (snd p) (map snd l)) in *.
  set (a1 := py_max (fst p) (map fst l)) in *. set (b1 := py_max (snd p) (map snd l)) in *.
  assert (E : x0 == a0 /\ y0 == b0 /\ x1 == a1 /\ y1 == b1).
  { destruct (Qeq_bool a0 a1) eqn:X; destruct (Qeq_bool b0 b1) eqn:Y; cbn [andb orb] in H;
    destruct H as [[H [-> ->]]|[H|H]]; try discriminate;
    first [apply Qeq_bool_iff in X|idtac]; first [apply Qeq_bool_iff in Y|idtac]; injection H; intros; subst; repeat split; auto; reflexivity. }
  destruct E as (E1 & E2 & E3 & E4). unfold a0, b0, a1, b1 in *. clear a0 b0 a1 b1 H.
  rewrite py_min_spec in E1, E2. rewrite py_max_spec in E3, E4.
  destruct (Qmin_list_le (map fst l) (fst p)) as [A1 A2]. destruct (Qmin_list_le (map snd l) (snd p)) as [B1 B2].
  destruct (Qmax_list_ge (map fst l) (fst p)) as [C1 C2]. destruct (Qmax_list_ge (map snd l) (snd p)) as [D1 D2].
  split.
  - intros q X. apply VI in X. rewrite E1, E2, E3, E4. destruct X as [<-|X]; [split; split; assumption|].
    split; split; [apply A2|apply C2|apply B2|apply D2]; apply in_map; auto.
  - assert (T : forall (f : pt -> Q) v, In v (f p :: map f l) -> exists q, V q /\ f q = v).
    { intros f v X. change (f p :: map f l) with (map f (p :: l)) in X. apply in_map_iff in X. destruct X as [q [F X]]. exists q. split; auto. apply VI. exact X. }
    repeat split.
    + destruct (Qmin_list_in (map fst l) (fst p)) as [v [X Y]]. destruct (T fst v X) as [q [Q1 Q2]]. exists q. rewrite Q2. split; [exact Q1|lra].
    + destruct (Qmax_list_in (map fst l) (fst p)) as [v [X Y]]. destruct (T fst v X) as [q [Q1 Q2]]. exists q. rewrite Q2. split; [exact Q1|lra].
    + destruct (Qmin_list_in (map snd l) (snd p)) as [v [X Y]]. destruct (T snd v X) as [q [Q1 Q2]]. exists q. rewrite Q2. split; [exact Q1|lra].
    + destruct (Qmax_list_in (map snd l) (snd p)) as [v [X Y]]. destruct (T snd v X) as [q [Q1 Q2]]. exists q. rewrite Q2. split; [exact Q1|lra].
Qed.
Print Assumptions C109_envelope.
(** A square with a square hole: the hole moves the centre, not the envelope. *)
Example C109_holes_case : let sq := [(0, 0); (4, 0); (4, 4); (0, 4)] in let hole := [(1, 1); (2, 1); (2, 2); (1, 2)] in
  (exists x y, mean_center_geo [Some (GPoly [sq; hole])] = (Fin x, Fin y) /\ x == 3 # 2 /\ y == 3 # 2) /\
  (exists x y, mean_center_geo [Some (GPoly [sq])] = (Fin x, Fin y) /\ x == 8 # 5 /\ y == 8 # 5) /\
  bounding_rectangle_geo [Some (GPoly [sq; hole])] = ERect 0 0 4 4.
Proof.
  cbv zeta. split; [do 2 eexists; split; [reflexivity|split; reflexivity]|].
  split; [do 2 eexists; split; [reflexivity|split; reflexivity]|]. reflexivity.
Qed.
