(** Property C95: geometry of convex hulls. *)
From Coq Require Import ZArith QArith Qfield List Bool Lia Lqa.
From Verif Require Import Base Quadrat_model Geometry_model Pattern_spec Pattern_proofs Geometry_proofs Hull_model.
Import ListNotations.
Local Open Scope Q_scope.

(** The convex hull of a list of points: the intersection of all half-planes that
    contain them. *)
Definition in_hull (l : list pt) (p : pt) : Prop :=
  forall a b c, (forall q, In q l -> a * fst q + b * snd q <= c) -> a * fst p + b * snd p <= c.

(** What is assumed of scipy's ConvexHull: the vertices are some of the points, and
    all points lie in the hull of the vertices. *)
Definition correct_hull (h : chull) : Prop :=
  ch_vertices h <> [] /\ (forall i, In i (ch_vertices h) -> (i < List.length (ch_points h))%nat) /\
  (forall p, In p (ch_points h) -> in_hull (ch_exterior h) p).

(** What is assumed of scipy's Delaunay: the simplices cover the convex hull of its
    points and nothing else. *)
Definition correct_delaunay (find_simplex : list pt -> pt -> Z) : Prop :=
  forall ext p, (0 <= find_simplex ext p)%Z <-> in_hull ext p.

Lemma hull_member : forall l p, In p l -> in_hull l p.
Proof. intros l p H a b c L. auto. Qed.
Lemma hull_trans : forall l l' p, (forall q, In q l -> in_hull l' q) -> in_hull l p -> in_hull l' p.
Proof. intros l l' p S H a b c L. apply H. intros q Q. apply S; auto. Qed.
Lemma exterior_in : forall h q, correct_hull h -> In q (ch_exterior h) -> In q (ch_points h).
Proof.
  intros h q (_ & I & _) H. unfold ch_exterior in H. apply in_map_iff in H. destruct H as (i & <- & Hi). apply nth_In. auto.
Qed.
Lemma exterior_nonempty : forall h, correct_hull h -> ch_exterior h <> [].
Proof. intros h (N & _) E. apply N. unfold ch_exterior in E. destruct (ch_vertices h); [reflexivity|discriminate]. Qed.
Lemma hull_exterior : forall h p, correct_hull h -> (in_hull (ch_exterior h) p <-> in_hull (ch_points h) p).
Proof.
  intros h p C. split; apply hull_trans; intros q Q.
  - apply hull_member, exterior_in; auto.
  - destruct C as (_ & _ & A). auto.
Qed.
Lemma hull_in_box : forall l b p, (forall q, In q l -> covers b q) -> in_hull l p -> covers b p.
Proof.
  intros l b p C H. unfold covers in *. repeat split.
  - assert (X : (- 1) * fst p + 0 * snd p <= - bxmin b) by (apply H; intros q Q; specialize (C q Q); lra). lra.
  - assert (X : 1 * fst p + 0 * snd p <= bxmax b) by (apply H; intros q Q; specialize (C q Q); lra). lra.
  - assert (X : 0 * fst p + (- 1) * snd p <= - bymin b) by (apply H; intros q Q; specialize (C q Q); lra). lra.
  - assert (X : 0 * fst p + 1 * snd p <= bymax b) by (apply H; intros q Q; specialize (C q Q); lra). lra.
Qed.

(** The bounding box of the hull is that of all the points. *)
Theorem C95_bbox : forall h, correct_hull h ->
  exists b, ch_bbox h = Ok b /\ tight_box b (ch_points h).
Proof.
  intros h C. pose proof (exterior_nonempty h C) as N. unfold ch_bbox. cbn [geo_bbox].
  destruct (compute_mbb (ch_exterior h)) as [b|e] eqn:E.
  2:{ destruct (ch_exterior h); [contradiction|discriminate]. }
  exists b. split; [reflexivity|]. pose proof (mbb_tight_box _ _ E) as [T1 T2].
  split.
  - intros p Hp. apply (hull_in_box (ch_exterior h)); auto. destruct C as (_ & _ & A). auto.
  - destruct T2 as (A & B & D & F). repeat split.
    + destruct A as (q & Q & X). exists q. split; auto using exterior_in.
    + destruct B as (q & Q & X). exists q. split; auto using exterior_in.
    + destruct D as (q & Q & X). exists q. split; auto using exterior_in.
    + destruct F as (q & Q & X). exists q. split; auto using exterior_in.
Qed.
Print Assumptions C95_bbox.

(** A point is contained exactly when it lies in the convex hull of all the points;
    so the points themselves are contained, and a contained point lies in the
    bounding box. *)
Theorem C95_contains : forall find_simplex h, correct_delaunay find_simplex -> correct_hull h ->
  (forall p, ch_contains find_simplex h p = true <-> in_hull (ch_points h) p) /\
  (forall p, In p (ch_points h) -> ch_contains find_simplex h p = true) /\
  (forall p b, ch_contains find_simplex h p = true -> ch_bbox h = Ok b -> box_contains b p = true).
Proof.
  intros fs h D C.
  assert (A : forall p, ch_contains fs h p = true <-> in_hull (ch_points h) p).
  { intro p. unfold ch_contains. rewrite Z.leb_le. rewrite (D (ch_exterior h) p). apply hull_exterior; auto. }
  split; [exact A|]. split.
  - intros p Hp. apply A, hull_member; auto.
  - intros p b Hc Hb. destruct (C95_bbox h C) as (b' & Hb' & T & _). rewrite Hb in Hb'. injection Hb' as <-.
    apply box_contains_spec. apply (hull_in_box (ch_points h)); auto. apply A; auto.
Qed.
Print Assumptions C95_contains.

(** ** The centroid *)
Lemma Qlen_pos' : forall (A : Type) (l : list A), l <> [] -> 0 < Qlen l.
Proof. intros A l H. destruct l; [contradiction|]. unfold Qlen, Qlt. simpl. lia. Qed.
Lemma sum_bound : forall a b c (l : list pt), (forall q, In q l -> a * fst q + b * snd q <= c) ->
  a * Qsum (map fst l) + b * Qsum (map snd l) <= c * Qlen l.
Proof.
  intros a b c l. induction l as [|q l IH]; intro H.
  - unfold Qlen, Qsum. cbn [map fold_right List.length]. change (inject_Z (Z.of_nat 0)) with 0. lra.
  - assert (E : Qlen (q :: l) == Qlen l + 1).
    { unfold Qlen. cbn [List.length]. rewrite Nat2Z.inj_succ. unfold Z.succ. rewrite inject_Z_plus. reflexivity. }
    rewrite E. unfold Qsum in *. cbn [map fold_right]. specialize (IH (fun q Q => H q (or_intror Q))).
    specialize (H q (or_introl eq_refl)). lra.
Qed.
Lemma mean_in_hull : forall l, l <> [] -> in_hull l (Qmean (map fst l), Qmean (map snd l)).
Proof.
  intros l N a b c H. pose proof (sum_bound a b c l H) as S. pose proof (Qlen_pos' _ l N) as P.
  cbn [fst snd]. unfold Qmean. assert (L1 : Qlen (map fst l) = Qlen l) by (unfold Qlen; rewrite map_length; reflexivity).
  assert (L2 : Qlen (map snd l) = Qlen l) by (unfold Qlen; rewrite map_length; reflexivity). rewrite L1, L2.
  setoid_replace (a * (Qsum (map fst l) / Qlen l) + b * (Qsum (map snd l) / Qlen l))
    with ((a * Qsum (map fst l) + b * Qsum (map snd l)) / Qlen l) by (field; lra).
  apply Qle_shift_div_r; auto.
Qed.

(** The centroid of a polygon as a region: the first moments of its area. *)
Definition crossq (p q : pt) : Q := fst p * snd q - fst q * snd p.
Fixpoint edges_from (first : pt) (l : list pt) : list (pt * pt) :=
  match l with
  | [] => []
  | [p] => [(p, first)]
  | p :: ((q :: _) as t) => (p, q) :: edges_from first t
  end.
Definition ring_edges (l : list pt) : list (pt * pt) := match l with [] => [] | p :: _ => edges_from p l end.
Definition twice_area (l : list pt) : Q := Qsum (map (fun e => crossq (fst e) (snd e)) (ring_edges l)).
Definition area_centroid (l : list pt) : pt :=
  (Qsum (map (fun e => (fst (fst e) + fst (snd e)) * crossq (fst e) (snd e)) (ring_edges l)) / (3 * twice_area l),
   Qsum (map (fun e => (snd (fst e) + snd (snd e)) * crossq (fst e) (snd e)) (ring_edges l)) / (3 * twice_area l)).

(** [centroid] is the mean of the vertices of the hull. It lies in the hull. *)
Theorem C95_centroid_inside : forall h, correct_hull h ->
  exists c, ch_centroid h = Ok c /\ in_hull (ch_points h) c.
Proof.
  intros h C. eexists. split; [reflexivity|]. apply hull_exterior; auto. apply mean_in_hull. apply exterior_nonempty; auto.
Qed.
Print Assumptions C95_centroid_inside.

(** For triangles it is the centroid of the region. *)
Theorem C95_centroid_triangle : forall h p q r, ch_exterior h = [p; q; r] -> ~ twice_area (ch_exterior h) == 0 ->
  exists c, ch_centroid h = Ok c /\ fst c == fst (area_centroid (ch_exterior h)) /\ snd c == snd (area_centroid (ch_exterior h)).
Proof.
  intros h p q r E N. unfold ch_centroid. cbn [geo_centroid]. eexists. split; [reflexivity|]. rewrite E in *. cbn [fst snd].
  destruct p as [x0 y0], q as [x1 y1], r as [x2 y2].
  unfold area_centroid, twice_area, Qmean, Qsum, Qlen, crossq in *. cbn [ring_edges edges_from map fold_right fst snd List.length] in *.
  change (inject_Z (Z.of_nat 3)) with 3.
  split; field; intro X; apply N; lra.
Qed.
Print Assumptions C95_centroid_triangle.

(** But not in general: the vertices of a trapezium are not spread evenly over its
    area. (The shapely polygon with the same vertices gives the centroid of the
    region.) *)
Definition trapezium : chull := mkch [(0, 0); (3, 3); (2, 1); (4, 0); (1, 3)] [0; 3; 1; 4]%nat 9.
Lemma trapezium_hull : correct_hull trapezium.
Proof.
  split; [discriminate|]. split.
  - intros i H. cbn in *. intuition lia.
  - intros p H. cbn [ch_points trapezium In] in H.
    assert (E : ch_exterior trapezium = [(0, 0); (4, 0); (3, 3); (1, 3)]) by reflexivity. rewrite E.
    destruct H as [<-|[<-|[<-|[<-|[<-|[]]]]]]; try (apply hull_member; cbn; tauto).
    intros a b c L. pose proof (L (0, 0) ltac:(cbn; tauto)) as A. pose proof (L (4, 0) ltac:(cbn; tauto)) as B.
    pose proof (L (3, 3) ltac:(cbn; tauto)) as C. pose proof (L (1, 3) ltac:(cbn; tauto)) as D. cbn [fst snd] in *. lra.
Qed.
Theorem C95_centroid_refuted : correct_hull trapezium /\
  exists c, ch_centroid trapezium = Ok c /\ snd c == 3 # 2 /\
    twice_area (ch_exterior trapezium) == 2 * ch_area trapezium /\ snd (area_centroid (ch_exterior trapezium)) == 4 # 3.
Proof. split; [apply trapezium_hull|]. eexists. split; [reflexivity|]. split; [reflexivity|]. split; reflexivity. Qed.
Print Assumptions C95_centroid_refuted.

(** The case of the trapezium with an interior point: its box, and a point on an
    edge of the hull is contained, for every correct triangulation. *)
Example C95_case : ch_bbox trapezium = Ok (mkbox 0 0 4 3) /\
  forall fs, correct_delaunay fs -> ch_contains fs trapezium (2, 0) = true /\ ch_contains fs trapezium (0, 3) = false.
Proof.
  split; [reflexivity|]. intros fs D. destruct (C95_contains fs trapezium D trapezium_hull) as [A _]. split.
  - apply A. intros a b c L. pose proof (L (0, 0) ltac:(cbn; tauto)) as X. pose proof (L (4, 0) ltac:(cbn; tauto)) as Y. cbn [fst snd] in *. lra.
  - destruct (ch_contains fs trapezium (0, 3)) eqn:E; auto. apply A in E. exfalso.
    assert (X : (- 3) * 0 + 1 * 3 <= 0); [|lra]. apply (E (- 3) 1 0). intros q H. cbn in H.
    destruct H as [<-|[<-|[<-|[<-|[<-|[]]]]]]; cbn [fst snd]; lra.
Qed.
