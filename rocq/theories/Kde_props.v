(** Theorems about the density grid. *)
From Coq Require Import ZArith QArith Qminmax List Bool String Arith Lia Lqa Sorting.Sorted.
From Verif Require Import Base BaseLemmas Geometry_model DistStats_model DistStats_spec DistStats_props Kde_model.
Import ListNotations.
Local Open Scope Q_scope.

Definition entry {V : Type} (d : V) (m : list (list V)) (j i : nat) : V := nth i (nth j m []) d.
Definition Shape {V : Type} (m : list (list V)) (rows cols : nat) : Prop :=
  List.length m = rows /\ Forall (fun r => List.length r = cols) m.
Definition IsMin (m : Q) (l : list Q) : Prop := (exists x, In x l /\ x == m) /\ forall x, In x l -> m <= x.
Definition IsMax (m : Q) (l : list Q) : Prop := (exists x, In x l /\ x == m) /\ forall x, In x l -> x <= m.
(** The coordinates the data argument stands for. *)
Definition Xs (d : data_arg) : list Q :=
  match d with DArray _ rows => map (fun r => nth 0 r 0) rows | DGeo gs => map fst (flat_map snd gs) end.
Definition Ys (d : data_arg) : list Q :=
  match d with DArray _ rows => map (fun r => nth 1 r 0) rows | DGeo gs => map snd (flat_map snd gs) end.

Lemma firstn_app_len : forall A (a b : list A) k, List.length a = k -> firstn k (a ++ b) = a /\ skipn k (a ++ b) = b.
Proof. intros A a b k <-. induction a as [|x a [IH1 IH2]]; cbn; [split; auto|]. rewrite IH1. auto. Qed.
Lemma chunks_concat : forall A k (m : list (list A)), Forall (fun r => List.length r = k) m -> chunks (List.length m) k (List.concat m) = m.
Proof.
  intros A k m F. induction F as [|r m H F IH]; [reflexivity|]. cbn [List.length List.concat chunks].
  destruct (firstn_app_len _ r (List.concat m) k H) as [-> ->]. rewrite IH. reflexivity.
Qed.
Lemma combine_app : forall A B (a a' : list A) (b b' : list B), List.length a = List.length b ->
  combine (a ++ a') (b ++ b') = combine a b ++ combine a' b'.
Proof. intros A B a. induction a as [|x a IH]; intros a' [|y b] b' L; cbn in *; try discriminate; auto. rewrite IH; auto. Qed.
Lemma mesh_pred : forall V (f : Q * Q -> V) gx gy,
  map f (combine (List.concat (map (fun _ : Q => gx) gy)) (List.concat (map (fun y => map (fun _ : Q => y) gx) gy))) =
  List.concat (map (fun y => map (fun x => f (x, y)) gx) gy).
Proof.
  intros V f gx gy. induction gy as [|y gy IH]; [reflexivity|]. cbn [map List.concat].
  rewrite combine_app by (rewrite map_length; reflexivity). rewrite map_app, IH. f_equal.
  clear. induction gx as [|x gx IH]; cbn; [reflexivity|]. rewrite IH. reflexivity.
Qed.
Lemma nth_map' : forall A B (f : A -> B) l i (d : B) (d' : A), (i < List.length l)%nat -> nth i (map f l) d = f (nth i l d').
Proof. intros A B f l i d d' H. rewrite (nth_indep _ d (f d')) by (rewrite map_length; auto). apply map_nth. Qed.
Lemma extent_ok : forall l e, extent l = Ok e -> IsMin (fst e) l /\ IsMax (snd e) l.
Proof.
  intros [|x l] e H; cbn in H; [discriminate|]. injection H as <-. cbn [fst snd].
  destruct (Qmin_list_le l x) as [A1 A2]. destruct (Qmax_list_ge l x) as [B1 B2]. split; split.
  - destruct (Qmin_list_in l x) as [y [Y1 Y2]]. eauto.
  - intros y [<-|Y]; auto.
  - destruct (Qmax_list_in l x) as [y [Y1 Y2]]. eauto.
  - intros y [<-|Y]; auto.
Qed.
Lemma isminmax_unique : forall l a b, (IsMin a l -> IsMin b l -> a == b) /\ (IsMax a l -> IsMax b l -> a == b).
Proof.
  intros l a b. split; intros [[x [X1 X2]] X3] [[y [Y1 Y2]] Y3]; specialize (X3 _ Y1); specialize (Y3 _ X1); lra.
Qed.
Definition NodeCount (s : size) (n : nat) : Prop := exists z, s = SInt z /\ (0 <= z)%Z /\ n = Z.to_nat z.
(** What a resolution argument asks for. *)
Definition Requested (r : resolution) (nx ny : nat) : Prop :=
  match r with
  | RTuple l => exists a b, l = [a; b] /\ NodeCount a nx /\ NodeCount b ny
  | RInt z => (0 <= z)%Z /\ nx = Z.to_nat z /\ ny = Z.to_nat z
  | RNone => nx = 100%nat /\ ny = 100%nat
  | _ => False
  end.
Lemma requested : forall r nx ny, Requested r nx ny <->
  exists a b, parse_resolution r = Ok (a, b) /\ NodeCount a nx /\ NodeCount b ny.
Proof.
  assert (NC : forall z n, NodeCount (SInt z) n <-> (0 <= z)%Z /\ n = Z.to_nat z).
  { intros z n. unfold NodeCount. split.
    - intros [z' [E H]]. injection E as <-. auto.
    - intro H. exists z. auto. }
  intros [l|z|q| |] nx ny; cbn [Requested parse_resolution]; split.
  - intros [a [b [-> H]]]. exists a, b. auto.
  - destruct l as [|a [|b [|c l]]]; intros [a' [b' [H H']]]; try discriminate. injection H as <- <-. exists a, b. auto.
  - intros [H [-> ->]]. exists (SInt z), (SInt z). split; auto. rewrite !NC. auto.
  - intros [a [b [H [H1 H2]]]]. injection H as <- <-. apply NC in H1, H2. tauto.
  - tauto.
  - intros [a [b [H [[z [H1 _]] H2]]]]. injection H as <- <-. discriminate.
  - intros [-> ->]. exists (SInt 100), (SInt 100). split; auto. rewrite !NC. split; split; try reflexivity; lia.
  - intros [a [b [H [H1 H2]]]]. injection H as <- <-. apply NC in H1, H2. destruct H1 as [_ ->], H2 as [_ ->]. split; reflexivity.
  - tauto.
  - intros [a [b [H _]]]. discriminate.
Qed.
Lemma linspace_size_ok : forall a b s, (exists g, linspace_size a b s = Ok g) <-> exists n, NodeCount s n.
Proof.
  intros a b s. unfold NodeCount. destruct s as [z|q|]; cbn [linspace_size]; split.
  - intros [g H]. exists (Z.to_nat z), z. destruct (C61_linspace _ _ _ _ H) as [_ [_ [_ [_ N]]]]. auto.
  - intros [n [z' [E [N _]]]]. injection E as <-. unfold linspace. destruct (Z.ltb_spec z 0); [lia|]. destruct (Z.eqb z 1); eauto.
  - intros [g H]. discriminate.
  - intros [n [z [E _]]]. discriminate.
  - intros [g H]. discriminate.
  - intros [n [z [E _]]]. discriminate.
Qed.
Lemma linspace_size_count : forall a b s g n, linspace_size a b s = Ok g -> NodeCount s n ->
  List.length g = n /\ evenly a b g /\ ((2 <= n)%nat -> nth 0 g 0 == a /\ nth (n - 1) g 0 == b).
Proof.
  intros a b s g n H [z [-> [N ->]]]. cbn in H. destruct (C61_linspace _ _ _ _ H) as [L [E [A [B _]]]].
  split; auto. split; auto. intro N2. rewrite L in B. split; [apply A|apply B]; lia.
Qed.

(** Whether the data argument can be used at all. *)
Definition Usable (d : data_arg) : Prop :=
  match d with
  | DArray c rows => (2 <= c)%nat /\ rows <> []
  | DGeo gs => (forall g, In g gs -> contains_point (fst g) = true) /\ exists g, In g gs /\ snd g <> []
  end.
Lemma columns : forall d rows xs ys, data_rows d = Ok rows -> column 0 rows = Ok xs -> column 1 rows = Ok ys -> xs = Xs d /\ ys = Ys d.
Proof.
  intros [c rw|gs] rows xs ys D X Y; cbn in D.
  - injection D as <-. unfold column in X, Y. cbn [fst snd] in X, Y. destruct (Nat.ltb 0 c), (Nat.ltb 1 c); try discriminate.
    injection X as <-. injection Y as <-. auto.
  - destruct (forallb _ gs); [|discriminate]. injection D as <-. cbn in X, Y. injection X as <-. injection Y as <-. cbn. rewrite !map_map. auto.
Qed.

(** ** C79 *)
(** When the grid is built, and what it looks like. *)
Theorem C79_defined : forall V (f : Q * Q -> V) d r margin,
  (exists out, density_sm (map f) d r margin = Ok out) <-> Usable d /\ exists nx ny, Requested r nx ny.
Proof.
  intros V f d r margin. unfold density_sm. split.
  - intros [out H]. apply bind_ok in H. destruct H as [rows [D H]]. apply bind_ok in H. destruct H as [xs [X H]].
    apply bind_ok in H. destruct H as [ys [Y H]]. apply bind_ok in H. destruct H as [ex [EX H]]. apply bind_ok in H. destruct H as [ey [EY H]].
    cbv zeta in H. apply bind_ok in H. destruct H as [[a b] [S H]]. cbn [fst snd] in H. apply bind_ok in H. destruct H as [gx [GX H]]. apply bind_ok in H. destruct H as [gy [GY H]].
    split.
    + destruct (columns _ _ _ _ D X Y) as [Ex Ey]. destruct d as [c rw|gs]; cbn [Usable].
      * cbn in D. injection D as <-. unfold column in Y. cbn [fst] in Y. destruct (Nat.ltb_spec 1 c); [|discriminate].
        split; [lia|]. intros ->. subst xs. cbn in EX. discriminate.
      * cbn in D. destruct (forallb _ gs) eqn:F; [|discriminate]. rewrite forallb_forall in F. split; auto.
        cbn [Xs] in Ex. destruct (flat_map snd gs) as [|p l] eqn:FM; [subst xs; cbn in EX; discriminate|].
        assert (I : In p (flat_map snd gs)) by (rewrite FM; left; auto). apply in_flat_map in I. destruct I as [g [G1 G2]]. exists g. split; auto.
        intro E. rewrite E in G2. destruct G2.
    + assert (A : exists n, NodeCount a n) by (eapply linspace_size_ok; eauto). assert (B : exists n, NodeCount b n) by (eapply linspace_size_ok; eauto).
      destruct A as [nx A], B as [ny B]. exists nx, ny. apply requested. eauto.
  - intros [U [nx [ny R]]]. apply requested in R. destruct R as [a [b [P [NA NB]]]].
    assert (D : exists c rw, data_rows d = Ok (c, rw) /\ (2 <= c)%nat /\ rw <> []).
    { destruct d as [c rw|gs]; cbn in *; [exists c, rw; tauto|]. destruct U as [U1 [g [U2 U3]]].
      assert (F : forallb (fun g => contains_point (fst g)) gs = true) by (apply forallb_forall; auto). rewrite F. do 2 eexists. split; [reflexivity|]. split; [lia|].
      destruct (snd g) as [|p l] eqn:G; [contradiction|]. assert (I : In p (flat_map snd gs)) by (apply in_flat_map; exists g; rewrite G; split; [auto|left; auto]).
      intro E. apply map_eq_nil in E. rewrite E in I. destruct I. }
    destruct D as [c [rw [D [C N]]]]. rewrite D. cbn [bind]. unfold column. cbn [fst snd].
    destruct (Nat.ltb_spec 0 c); [|lia]. destruct (Nat.ltb_spec 1 c); [|lia]. cbn [bind].
    destruct rw as [|w rw]; [contradiction|]. cbn [map extent bind fst snd]. rewrite P. cbn [bind fst snd].
    match goal with |- context [linspace_size ?u ?v a] => destruct (proj2 (linspace_size_ok u v a) (ex_intro _ nx NA)) as [gx GX] end.
    match goal with |- context [linspace_size ?u ?v b] => destruct (proj2 (linspace_size_ok u v b) (ex_intro _ ny NB)) as [gy GY] end.
    rewrite GX. cbn [bind]. rewrite GY. cbn [bind]. eauto.
Qed.
Print Assumptions C79_defined.

Theorem C79_mesh : forall V (dv : V) (f : Q * Q -> V) d r margin X Y Z nx ny xmin xmax ymin ymax,
  density_sm (map f) d r margin = Ok (X, Y, Z) -> Requested r nx ny ->
  IsMin xmin (Xs d) -> IsMax xmax (Xs d) -> IsMin ymin (Ys d) -> IsMax ymax (Ys d) ->
  let x0 := xmin - margin * (xmax - xmin) in let x1 := xmax + margin * (xmax - xmin) in
  let y0 := ymin - margin * (ymax - ymin) in let y1 := ymax + margin * (ymax - ymin) in
  Shape X ny nx /\ Shape Y ny nx /\ Shape Z ny nx /\
  (forall i j, (i < nx)%nat -> (j < ny)%nat ->
     entry 0 X j i * inject_Z (Z.of_nat nx - 1) == x0 * inject_Z (Z.of_nat nx - 1 - Z.of_nat i) + x1 * inject_Z (Z.of_nat i) /\
     entry 0 Y j i * inject_Z (Z.of_nat ny - 1) == y0 * inject_Z (Z.of_nat ny - 1 - Z.of_nat j) + y1 * inject_Z (Z.of_nat j) /\
     entry dv Z j i = f (entry 0 X j i, entry 0 Y j i)) /\
  ((2 <= nx)%nat -> (2 <= ny)%nat -> forall i j, (i < nx)%nat -> (j < ny)%nat ->
     entry 0 X j 0 == x0 /\ entry 0 X j (nx - 1) == x1 /\ entry 0 Y 0 i == y0 /\ entry 0 Y (ny - 1) i == y1 /\
     (0 <= margin -> (forall x, In x (Xs d) -> entry 0 X j 0 <= x <= entry 0 X j (nx - 1)) /\
                     (forall y, In y (Ys d) -> entry 0 Y 0 i <= y <= entry 0 Y (ny - 1) i))).
Proof.
  intros V dv f d r margin X Y Z nx ny xmin xmax ymin ymax H R Ix0 Ix1 Iy0 Iy1 x0 x1 y0 y1.
  apply requested in R. destruct R as [a [b [P [NA NB]]]]. unfold density_sm in H.
  apply bind_ok in H. destruct H as [rows [D H]]. apply bind_ok in H. destruct H as [xs [HX H]].
  apply bind_ok in H. destruct H as [ys [HY H]]. apply bind_ok in H. destruct H as [ex [EX H]]. apply bind_ok in H. destruct H as [ey [EY H]].
  cbv zeta in H. rewrite P in H. cbn [bind fst snd] in H. apply bind_ok in H. destruct H as [gx [GX H]]. apply bind_ok in H. destruct H as [gy [GY H]].
  destruct (columns _ _ _ _ D HX HY) as [-> ->].
  apply extent_ok in EX, EY. destruct EX as [EX0 EX1], EY as [EY0 EY1].
  pose proof (proj1 (isminmax_unique _ _ _) EX0 Ix0) as Q1. pose proof (proj2 (isminmax_unique _ _ _) EX1 Ix1) as Q2.
  pose proof (proj1 (isminmax_unique _ _ _) EY0 Iy0) as Q3. pose proof (proj2 (isminmax_unique _ _ _) EY1 Iy1) as Q4.
  assert (A0 : fst ex - (snd ex - fst ex) * margin == x0) by (unfold x0; rewrite Q1, Q2; ring).
  assert (A1 : snd ex + (snd ex - fst ex) * margin == x1) by (unfold x1; rewrite Q1, Q2; ring).
  assert (B0 : fst ey - (snd ey - fst ey) * margin == y0) by (unfold y0; rewrite Q3, Q4; ring).
  assert (B1 : snd ey + (snd ey - fst ey) * margin == y1) by (unfold y1; rewrite Q3, Q4; ring).
  destruct (linspace_size_count _ _ _ _ _ GX NA) as [LX [VX WX]]. destruct (linspace_size_count _ _ _ _ _ GY NB) as [LY [VY WY]].
  rewrite mesh_pred in H.
  assert (CH : chunks (List.length gy) (List.length gx) (List.concat (map (fun y => map (fun x => f (x, y)) gx) gy)) = map (fun y => map (fun x => f (x, y)) gx) gy).
  { rewrite <- (map_length (fun y => map (fun x => f (x, y)) gx) gy) at 1. apply chunks_concat. apply Forall_forall. intros l L.
    apply in_map_iff in L. destruct L as [y [<- _]]. apply map_length. }
  rewrite CH in H. injection H as <- <- <-.
  assert (EX : forall j i, (j < ny)%nat -> entry 0 (map (fun _ : Q => gx) gy) j i = nth i gx 0).
  { intros j i J. unfold entry. rewrite (nth_map' _ _ _ _ _ _ 0) by lia. reflexivity. }
  assert (EY : forall j i, (j < ny)%nat -> (i < nx)%nat -> entry 0 (map (fun y => map (fun _ : Q => y) gx) gy) j i = nth j gy 0).
  { intros j i J I. unfold entry. rewrite (nth_map' _ _ _ _ _ _ 0) by lia. rewrite (nth_map' _ _ _ _ _ _ 0) by lia. reflexivity. }
  assert (EZ : forall j i, (j < ny)%nat -> (i < nx)%nat -> entry dv (map (fun y => map (fun x => f (x, y)) gx) gy) j i = f (nth i gx 0, nth j gy 0)).
  { intros j i J I. unfold entry. rewrite (nth_map' _ _ _ _ _ _ 0) by lia. rewrite (nth_map' _ _ _ _ _ _ 0) by lia. reflexivity. }
  unfold Shape. rewrite !map_length. split; [split; auto; apply Forall_forall; intros l L; apply in_map_iff in L; destruct L as [y [<- _]]; auto|].
  split; [split; auto; apply Forall_forall; intros l L; apply in_map_iff in L; destruct L as [y [<- _]]; rewrite map_length; auto|].
  split; [split; auto; apply Forall_forall; intros l L; apply in_map_iff in L; destruct L as [y [<- _]]; rewrite map_length; auto|].
  split.
  - intros i j I J. rewrite EX, EY, EZ by auto. rewrite <- LX in I. rewrite <- LY in J. specialize (VX i I). specialize (VY j J).
    rewrite LX in VX. rewrite LY in VY. rewrite VX, VY, A0, A1, B0, B1. repeat split; reflexivity.
  - intros N2 M2 i j I J. rewrite !EX, !EY by lia. destruct (WX N2) as [WX0 WX1]. destruct (WY M2) as [WY0 WY1].
    rewrite A0 in WX0. rewrite A1 in WX1. rewrite B0 in WY0. rewrite B1 in WY1.
    split; [auto|]. split; [auto|]. split; [auto|]. split; [auto|]. intro M.
    destruct Ix0 as [[u [U1 U2]] Ix0], Ix1 as [_ Ix1], Iy0 as [[v [V1 V2]] Iy0], Iy1 as [_ Iy1].
    assert (0 <= margin * (xmax - xmin)). { apply Qmult_le_0_compat; auto. specialize (Ix1 _ U1). lra. }
    assert (0 <= margin * (ymax - ymin)). { apply Qmult_le_0_compat; auto. specialize (Iy1 _ V1). lra. }
    unfold x0, x1, y0, y1 in WX0, WX1, WY0, WY1. split; intros w W; [specialize (Ix0 _ W); specialize (Ix1 _ W)|specialize (Iy0 _ W); specialize (Iy1 _ W)]; lra.
Qed.
Print Assumptions C79_mesh.

(** GeoPandas data: rejected iff some geometry is neither a Point nor a MultiPoint. *)
Definition type_names : list string :=
  ["Point"; "MultiPoint"; "LineString"; "LinearRing"; "MultiLineString"; "Polygon"; "MultiPolygon"; "GeometryCollection"]%string.
Theorem C79_geometries : forall gs, (forall g, In g gs -> In (fst g) type_names) ->
  (data_rows (DGeo gs) = Raise ValueError <-> exists g, In g gs /\ fst g <> "Point"%string /\ fst g <> "MultiPoint"%string) /\
  (data_rows (DGeo gs) <> Raise ValueError -> data_rows (DGeo gs) = Ok (2%nat, map (fun p => [fst p; snd p]) (flat_map snd gs))).
Proof.
  intros gs T. assert (C : forall g, In g gs -> (contains_point (fst g) = true <-> (fst g = "Point" \/ fst g = "MultiPoint")%string)).
  { intros g G. specialize (T _ G). destruct g as [s l]. cbn [fst] in *. cbn in T.
    decompose [or] T; try contradiction; subst s; vm_compute; split; intro X; try discriminate; auto; destruct X; discriminate. }
  cbn. destruct (forallb (fun g => contains_point (fst g)) gs) eqn:F.
  - rewrite forallb_forall in F. split; [split; [discriminate|]|auto]. intros [g [G [N1 N2]]]. specialize (F _ G). apply C in F; auto. tauto.
  - split; [split; [|auto]|intro X; contradiction]. intros _. 
    assert (E : existsb (fun g => negb (contains_point (fst g))) gs = true).
    { clear T C. induction gs as [|g gs IH]; cbn in *; [discriminate|]. destruct (contains_point (fst g)); cbn in *; auto. }
    apply existsb_exists in E. destruct E as [g [G E]]. exists g. split; auto. specialize (C g G). rewrite negb_true_iff in E. rewrite E in C.
    split; intro X; assert (Y : false = true) by (apply C; auto); discriminate.
Qed.
Print Assumptions C79_geometries.

(** A float resolution passes the type check and then fails; other types give ValueError. *)
Theorem C79_float_resolution_refuted : forall V (f : Q * Q -> V) d q margin, Usable d ->
  density_sm (map f) d (RFloat q) margin = Raise TypeError /\ density_sm (map f) d ROther margin = Raise ValueError.
Proof.
  intros V f d q margin U.
  assert (E : exists k, (forall r, density_sm (map f) d r margin = bind (parse_resolution r) k) /\ k (SFloat q, SFloat q) = Raise TypeError).
  2: { destruct E as [k [K1 K2]]. rewrite !K1. cbn [parse_resolution bind]. auto. }
  unfold density_sm.
  assert (D : exists c w rw, data_rows d = Ok (c, w :: rw) /\ (2 <= c)%nat).
  { destruct d as [c rw|gs]; cbn in *; [destruct rw as [|w rw]; [tauto|]; exists c, w, rw; tauto|]. destruct U as [U1 [g [U2 U3]]].
    assert (F : forallb (fun g => contains_point (fst g)) gs = true) by (apply forallb_forall; auto). rewrite F.
    destruct (snd g) as [|p l] eqn:G; [contradiction|]. assert (I : In p (flat_map snd gs)) by (apply in_flat_map; exists g; rewrite G; split; [auto|left; auto]).
    destruct (flat_map snd gs) as [|p' l']; [destruct I|]. do 3 eexists. split; [reflexivity|lia]. }
  destruct D as [c [w [rw [D C]]]]. rewrite D. unfold column. cbn [bind fst snd].
  destruct (Nat.ltb_spec 0 c); [|lia]. destruct (Nat.ltb_spec 1 c); [|lia]. cbn [bind map extent fst snd].
  eexists. split; [intro; reflexivity|]. reflexivity.
Qed.
Print Assumptions C79_float_resolution_refuted.

(** The documented layout (2, n) is not the one used: the points (0,0), (10,0), (20,5)
    given as two rows of three are read as the two points (0,10) and (0,0). *)
Theorem C79_documented_shape_refuted : exists X Y Z,
  density_sm (map (fun p => p)) (DArray 3 [[0; 10; 20]; [0; 0; 5]]) (RInt 2) (1#10) = Ok (X, Y, Z) /\
  Forall (Forall (fun x => x == 0)) X /\ Forall (Forall (fun y => -1 <= y <= 11)) Y.
Proof.
  do 3 eexists. split; [vm_compute; reflexivity|]. split; repeat constructor; vm_compute; discriminate.
Qed.
Print Assumptions C79_documented_shape_refuted.
Example C79_case : exists X Y Z,
  density_sm (map (fun p => fst p + snd p)) (DArray 2 [[0; 0]; [10; 4]; [2; 8]]) (RTuple [SInt 3; SInt 2]) (1#2) = Ok (X, Y, Z) /\
  Shape X 2 3 /\ entry 0 X 0 0 == -5 /\ entry 0 X 1 1 == 5 /\ entry 0 X 1 2 == 15 /\ entry 0 Y 0 2 == -4 /\ entry 0 Y 1 0 == 12 /\ entry 0 Z 1 2 == 27.
Proof. do 3 eexists. split; [vm_compute; reflexivity|]. repeat split; repeat constructor; vm_compute; reflexivity. Qed.

(** ** C89: the KDEpy engine *)
Lemma insert_q_in : forall z l x, In x (insert_q z l) -> x = z \/ In x l.
Proof.
  intros z l x. induction l as [|a l IH]; cbn [insert_q In]; [intuition|]. destruct (Qltb z a); cbn [In]; [intuition|].
  destruct (Qeq_bool z a); cbn [In]; intuition.
Qed.
Lemma insert_q_has : forall z l, (exists y, In y (insert_q z l) /\ y == z) /\ (forall x, In x l -> In x (insert_q z l)).
Proof.
  intros z l. induction l as [|a l [IH1 IH2]]; cbn [insert_q].
  - split; [exists z; split; [left; auto|reflexivity]|intros x []].
  - destruct (Qltb z a); [split; [exists z; split; [left; auto|reflexivity]|right; auto]|].
    destruct (Qeq_bool z a) eqn:E.
    + apply Qeqb_eq in E. split; [exists a; split; [left; auto|symmetry; auto]|auto].
    + destruct IH1 as [y [Y1 Y2]]. split; [exists y; split; [right; auto|auto]|]. intros x [<-|X]; [left; auto|right; auto].
Qed.
Lemma insert_q_sorted : forall z l, StronglySorted Qlt l -> StronglySorted Qlt (insert_q z l).
Proof.
  intros z l. induction l as [|a l IH]; intros S; cbn [insert_q]; [repeat constructor|]. inversion S; subst.
  destruct (Qltb z a) eqn:Lt.
  - apply Qltb_lt in Lt. constructor; auto. constructor; auto. eapply Forall_impl; [|eassumption]. cbn. intros; lra.
  - apply Qltb_ge in Lt. destruct (Qeq_bool z a) eqn:E; auto. apply Qeqb_neq in E. constructor; auto.
    apply Forall_forall. intros x X. apply insert_q_in in X. rewrite Forall_forall in H2. destruct X as [->|X]; [|auto].
    destruct (Qlt_le_dec a z); auto. exfalso. apply E. lra.
Qed.
Lemma unique_facts : forall l, StronglySorted Qlt (unique l) /\ (forall x, In x (unique l) -> In x l) /\ (forall x, In x l -> exists y, In y (unique l) /\ y == x).
Proof.
  induction l as [|a l [S [I1 I2]]]; cbn [unique fold_right]; [split; [constructor|split; intros x []]|]. fold (unique l).
  split; [apply insert_q_sorted; auto|]. split.
  - intros x X. apply insert_q_in in X. destruct X as [->|X]; [left; auto|right; auto].
  - destruct (insert_q_has a (unique l)) as [H1 H2]. intros x [<-|X]; auto. destruct (I2 _ X) as [y [Y1 Y2]]. eauto.
Qed.
Lemma sorted_inj : forall l x y, StronglySorted Qlt l -> In x l -> In y l -> x == y -> x = y.
Proof.
  induction 1 as [|a l S IH F]; intros X Y E; [destruct X|]. rewrite Forall_forall in F.
  destruct X as [<-|X], Y as [<-|Y]; auto; [specialize (F _ Y)|specialize (F _ X)]; lra.
Qed.
Lemma sorted_ext : forall l m, StronglySorted Qlt l -> StronglySorted Qlt m -> (forall x, In x l <-> In x m) -> l = m.
Proof.
  intros l m Sl. revert m. induction Sl as [|a l Sl IH Fl]; intros m Sm E.
  - destruct m as [|b m]; auto. destruct (proj2 (E b) (or_introl eq_refl)).
  - inversion Sm as [|b m' Sm' Fm]; subst; [destruct (proj1 (E a) (or_introl eq_refl))|]. rewrite Forall_forall in Fl, Fm.
    assert (a = b).
    { destruct (proj1 (E a) (or_introl eq_refl)) as [|A]; auto. destruct (proj2 (E b) (or_introl eq_refl)) as [|B]; auto.
      specialize (Fm _ A). specialize (Fl _ B). lra. }
    subst b. f_equal. apply IH; auto. intro x. specialize (E x). cbn in E. split; intro X.
    + destruct E as [E _]. destruct (E (or_intror X)) as [<-|]; auto. specialize (Fl _ X). lra.
    + destruct E as [_ E]. destruct (E (or_intror X)) as [<-|]; auto. specialize (Fm _ X). lra.
Qed.
Lemma unique_axis : forall ax l, StronglySorted Qlt ax -> (forall x, In x l <-> In x ax) -> unique l = ax.
Proof.
  intros ax l S E. destruct (unique_facts l) as [U1 [U2 U3]]. apply sorted_ext; auto. intro x. split; intro X.
  - apply E. auto.
  - apply E in X. destruct (U3 _ X) as [y [Y1 Y2]]. apply E in X. assert (In y ax) by (apply E; auto).
    rewrite <- (sorted_inj ax y x); auto.
Qed.
Lemma prod_rows : forall V (f : Q * Q -> V) ax ay, map f (list_prod ax ay) = List.concat (map (fun x => map (fun y => f (x, y)) ay) ax).
Proof.
  intros V f ax ay. induction ax as [|x ax IH]; [reflexivity|]. cbn [list_prod map List.concat]. rewrite map_app, map_map, IH. reflexivity.
Qed.
(** KDEpy evaluates on the product of two increasing axes with n nodes each, the
    first coordinate changing slowest.  z[j][i] is then the density at the i-th
    abscissa and the j-th ordinate. *)
Theorem C89_aligned : forall V (dv : V) (f : Q * Q -> V) evaluate n ax ay,
  StronglySorted Qlt ax -> StronglySorted Qlt ay -> (1 <= n)%nat -> List.length ax = n -> List.length ay = n ->
  evaluate (RInt (Z.of_nat n)) = Ok (list_prod ax ay, map f (list_prod ax ay)) ->
  exists Z, density_kdepy dv evaluate (RInt (Z.of_nat n)) = Ok (ax, ay, Z) /\ Shape Z n n /\
    forall i j, (i < n)%nat -> (j < n)%nat -> entry dv Z j i = f (nth i ax 0, nth j ay 0).
Proof.
  intros V dv f evaluate n ax ay Sx Sy N Lx Ly H. unfold density_kdepy. rewrite H. cbn [bind fst snd]. rewrite Nat2Z.id.
  destruct (Z.ltb_spec (Z.of_nat n) 0); [lia|]. rewrite map_length, prod_length, Lx, Ly, Nat.eqb_refl.
  assert (Ux : unique (map fst (list_prod ax ay)) = ax).
  { apply unique_axis; auto. intro x. rewrite in_map_iff. split.
    - intros [[a b] [<- X]]. apply in_prod_iff in X. tauto.
    - intro X. destruct ay as [|y ay]; [cbn in Ly; lia|]. exists (x, y). split; auto. apply in_prod_iff. split; [auto|left; auto]. }
  assert (Uy : unique (map snd (list_prod ax ay)) = ay).
  { apply unique_axis; auto. intro y. rewrite in_map_iff. split.
    - intros [[a b] [<- X]]. apply in_prod_iff in X. tauto.
    - intro X. destruct ax as [|x ax]; [cbn in Lx; lia|]. exists (x, y). split; auto. apply in_prod_iff. split; [left; auto|auto]. }
  rewrite Ux, Uy, prod_rows.
  assert (CH : chunks n n (List.concat (map (fun x => map (fun y => f (x, y)) ay) ax)) = map (fun x => map (fun y => f (x, y)) ay) ax).
  { rewrite <- Lx at 1. rewrite <- (map_length (fun x => map (fun y => f (x, y)) ay) ax) at 1. apply chunks_concat.
    apply Forall_forall. intros l L. apply in_map_iff in L. destruct L as [x [<- _]]. rewrite map_length; auto. }
  rewrite CH. eexists. split; [reflexivity|]. split.
  - unfold Shape, transpose. rewrite map_length, seq_length. split; auto. apply Forall_forall. intros l L. apply in_map_iff in L.
    destruct L as [j [<- _]]. rewrite !map_length. auto.
  - intros i j I J. unfold entry, transpose. rewrite (nth_map' _ _ _ _ _ _ 0%nat) by (rewrite seq_length; auto). rewrite seq_nth by auto.
    rewrite (nth_map' _ _ _ _ _ _ []) by (rewrite map_length; lia). rewrite (nth_map' _ _ _ _ _ _ 0) by lia. cbn [Nat.add].
    rewrite (nth_map' _ _ _ _ _ _ 0) by lia. reflexivity.
Qed.
Print Assumptions C89_aligned.
(** The documented pair of resolutions, and None, never work with a kernel. *)
Theorem C89_tuple_resolution_refuted : forall V (dv : V) evaluate l,
  (exists e, density_kdepy dv evaluate (RTuple l) = Raise e) /\ (exists e, density_kdepy dv evaluate RNone = Raise e) /\
  (forall gp, evaluate (RTuple l) = Ok gp -> density_kdepy dv evaluate (RTuple l) = Raise TypeError).
Proof.
  intros V dv evaluate l. unfold density_kdepy. split; [|split].
  - destruct (evaluate (RTuple l)); cbn; eauto.
  - destruct (evaluate RNone); cbn; eauto.
  - intros gp ->. reflexivity.
Qed.
Print Assumptions C89_tuple_resolution_refuted.
Example C89_case : exists Z, density_kdepy 0 (fun _ => Ok (list_prod [1; 2] [5; 7], map (fun p => fst p * snd p) (list_prod [1; 2] [5; 7]))) (RInt 2) =
  Ok ([1; 2], [5; 7], Z) /\ entry 0 Z 0 1 == 10 /\ entry 0 Z 1 0 == 7.
Proof. eexists. split; [vm_compute; reflexivity|]. split; vm_compute; reflexivity. Qed.
