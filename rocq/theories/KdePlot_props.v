(** Theorems about plot_density as a whole. *)
From Coq Require Import ZArith QArith List Bool String Arith Lia Sorting.Sorted.
From Verif Require Import Base BaseLemmas Geometry_model DistStats_model DistStats_spec DistStats_props Kde_model Kde_props KdePlot_model KdePlot_spec.
Import ListNotations.
Local Open Scope Q_scope.

Section C119.
Context {V : Type}.
Variables (dv : V) (fit : Q -> list Q -> list Q -> res unit) (pdf : Q -> nat * list (list Q) -> list (Q * Q) -> list V)
  (evaluate : Q -> string -> nat * list (list Q) -> resolution -> res (list (Q * Q) * list V))
  (contour : style -> field V -> nat -> res nat) (fresh : nat).
Let plot := plot_density dv fit pdf evaluate contour fresh.

Lemma imports_needed : forall l k, imports l k = true <-> needed l k.
Proof.
  clear. intros l [k|]; unfold imports, needed; rewrite andb_true_iff; split.
  - intros [A B]. split; [exact B|]. split; [discriminate|auto].
  - intros [A [_ B]]. split; [|exact A]. apply B. discriminate.
  - intros [A B]. split; [exact B|]. split; [auto|]. intro X. contradiction X. reflexivity.
  - intros [A [B _]]. split; auto.
Qed.

(** ** C119 *)
(** Without the libraries nothing happens; with them the axes are always prepared. *)
Theorem C119_imports : forall l a,
  (~ needed l (a_kernel a) <-> plot l a = ([], Raise ImportError)) /\
  (fst (plot l a) = [] <-> ~ needed l (a_kernel a)).
Proof.
  intros l a. unfold plot, plot_density. rewrite <- imports_needed.
  assert (N : forall (t : list (act V)) ax (r : res returned), t ++ [EqualAspect ax] <> []) by (intros [|] ? ? X; discriminate).
  destruct (imports l (a_kernel a)); cbn [negb].
  2: { repeat split; intros; congruence. }
  destruct (arrays dv fit pdf evaluate a) as [f|e]; [destruct (contour _ f _) as [cs|e]|]; cbn [fst snd];
    destruct (a_ax a); cbn [app]; repeat split; intro H; try discriminate; congruence.
Qed.

(** A call that raises after the imports has prepared the axes, and drawn nothing. *)
Theorem C119_failure : forall l a e, needed l (a_kernel a) -> snd (plot l a) = Raise e ->
  exists i, prepares a i (fst (plot l a)).
Proof.
  intros l a e N H. apply imports_needed in N. unfold plot, plot_density in *. rewrite N in *. cbn [negb] in *.
  exists (match a_ax a with Some i => i | None => fresh end).
  destruct (arrays dv fit pdf evaluate a) as [f|e']; [destruct (contour _ f _) as [cs|e'']; cbn [snd] in H; [discriminate|]|];
    unfold prepares; destruct (a_ax a) as [j|]; cbn [fst app]; eauto.
Qed.

(** A call that returns has drawn one set of contours, on the axes it returns. *)
Theorem C119_drawn : forall l a r, snd (plot l a) = Ok r ->
  exists i f cs t, prepares a i t /\
    fst (plot l a) = t ++ [Contours i (if a_fill a then Filled else Lines) f (a_levels a)] /\
    contour (if a_fill a then Filled else Lines) f (a_levels a) = Ok cs /\
    r = (if a_return a then RetBoth i cs else RetAxes i) /\
    (forall j, a_ax a = Some j -> i = j) /\
    ((exists x y z, f = Meshes x y z) <-> a_kernel a = None).
Proof.
  intros l a r H. unfold plot, plot_density in *. destruct (negb (imports l (a_kernel a))); [discriminate|].
  destruct (arrays dv fit pdf evaluate a) as [f|e'] eqn:AR; [|discriminate].
  destruct (contour _ f _) as [cs|e''] eqn:C; cbn [snd] in H; [|discriminate].
  injection H as <-.
  exists (match a_ax a with Some i => i | None => fresh end), f, cs,
    (match a_ax a with Some _ => [] | None => [NewFigure (a_figsize a)] end ++ [EqualAspect (match a_ax a with Some i => i | None => fresh end)]).
  split; [|split; [reflexivity|split; [exact C|split; [reflexivity|]]]].
  { unfold prepares. destruct (a_ax a) as [j|]; cbn [app]; eauto. }
  split. { intros j E. rewrite E. reflexivity. }
  unfold arrays in AR. apply bind_ok in AR. destruct AR as [rows [_ AR]]. destruct (a_kernel a) as [k|].
  - apply bind_ok in AR. destruct AR as [xyz [_ AR]]. injection AR as <-. split; [intros [x [y [z E]]]; discriminate|discriminate].
  - apply bind_ok in AR; destruct AR as [xs0 [_ AR]]. apply bind_ok in AR; destruct AR as [ys0 [_ AR]]. apply bind_ok in AR; destruct AR as [u0 [_ AR]]. apply bind_ok in AR. destruct AR as [xyz [_ AR]]. injection AR as <-. split; [auto|]. intros _. eauto.
Qed.

(** Fill, levels, axes, figure size, the shape of the result and, with a kernel, the
    margin do not affect the numbers that are drawn. *)
Theorem C119_same : forall l l' a b f g, same_density a b ->
  drawn (fst (plot l a)) = Some f -> drawn (fst (plot l' b)) = Some g -> f = g.
Proof.
  assert (D : forall l a f, drawn (fst (plot l a)) = Some f -> arrays dv fit pdf evaluate a = Ok f).
  { intros l a f H. unfold plot, plot_density in H. destruct (negb (imports l (a_kernel a))); [discriminate|].
    destruct (arrays dv fit pdf evaluate a) as [g|e].
    - destruct (contour _ g _) as [cs|e]; cbn [fst] in H; destruct (a_ax a); cbn in H; congruence.
    - cbn [fst] in H; destruct (a_ax a); cbn in H; congruence. }
  intros l l' a b f g (S1 & S2 & S3 & S4 & S5) Ha Hb. apply D in Ha. apply D in Hb. unfold arrays in Ha, Hb.
  rewrite <- S1, <- S2, <- S3, <- S4 in Hb. destruct (data_rows (a_data a)) as [rows|e]; cbn [bind] in *; [|discriminate].
  destruct (a_kernel a) as [k|]; [congruence|]. rewrite <- (S5 eq_refl) in Hb. congruence.
Qed.

Lemma sm_field : forall (dens : Q * Q -> V) d r margin x y z, density_sm (map dens) d r margin = Ok (x, y, z) ->
  exists rows cols, rows_cols (Meshes x y z) rows cols /\ Requested r cols rows /\
    forall i j, (i < cols)%nat -> (j < rows)%nat -> value dv (Meshes x y z) j i = dens (node (Meshes x y z) j i).
Proof using dv.
  clear - dv. intros dens d r margin x y z K.
  destruct (proj1 (C79_defined V dens d r margin) (ex_intro _ _ K)) as [U [nx [ny R]]].
  assert (M : exists mn mx mn' mx', IsMin mn (Xs d) /\ IsMax mx (Xs d) /\ IsMin mn' (Ys d) /\ IsMax mx' (Ys d)).
  { assert (G : forall u, u <> [] -> exists mn mx, IsMin mn u /\ IsMax mx u).
    { clear. intros [|u0 us] X; [contradiction|]. clear X. revert u0. induction us as [|u us IH]; intro u0.
      - exists u0, u0. split; split.
        + exists u0; split; [left; auto|reflexivity].
        + intros v [<-|[]]. apply Qle_refl.
        + exists u0; split; [left; auto|reflexivity].
        + intros v [<-|[]]. apply Qle_refl.
      - destruct (IH u) as (mn & mx & [[vm [Im Em]] Lm] & [[vM [IM EM]] LM]).
        exists (if Qle_bool u0 mn then u0 else mn), (if Qle_bool mx u0 then u0 else mx). split.
        + destruct (Qle_bool u0 mn) eqn:B.
          * apply Qle_bool_iff in B. split; [exists u0; split; [left; auto|reflexivity]|].
            intros v [<-|I]; [apply Qle_refl|]. eapply Qle_trans; [exact B|auto].
          * assert (B' : mn <= u0) by (apply Qnot_lt_le; intro X; apply Qlt_le_weak, Qle_bool_iff in X; congruence).
            split; [exists vm; split; [right; auto|auto]|]. intros v [<-|I]; auto.
        + destruct (Qle_bool mx u0) eqn:B.
          * apply Qle_bool_iff in B. split; [exists u0; split; [left; auto|reflexivity]|].
            intros v [<-|I]; [apply Qle_refl|]. eapply Qle_trans; [|exact B]. auto.
          * assert (B' : u0 <= mx) by (apply Qnot_lt_le; intro X; apply Qlt_le_weak, Qle_bool_iff in X; congruence).
            split; [exists vM; split; [right; auto|auto]|]. intros v [<-|I]; auto. }
    assert (NE : Xs d <> [] /\ Ys d <> []).
    { destruct d as [c rw|gs]; cbn [Usable Xs Ys] in *.
      - destruct U as [_ U]. destruct rw; [contradiction|]. split; discriminate.
      - destruct U as [_ [q [I N]]]. destruct (snd q) as [|p ps] eqn:SQ; [contradiction|].
        assert (J : In p (flat_map snd gs)) by (apply in_flat_map; exists q; rewrite SQ; split; [auto|left; auto]).
        destruct (flat_map snd gs); [destruct J|]. split; discriminate. }
    destruct (G _ (proj1 NE)) as (m1 & m2 & A1 & A2). destruct (G _ (proj2 NE)) as (m3 & m4 & A3 & A4).
    exists m1, m2, m3, m4. auto. }
  destruct M as (m1 & m2 & m3 & m4 & M1 & M2 & M3 & M4).
  destruct (C79_mesh V dv dens _ _ _ x y z nx ny m1 m2 m3 m4 K R M1 M2 M3 M4) as (SX & SY & SZ & VZ & _).
  exists ny, nx. split; [cbn [rows_cols]; auto|]. split; [exact R|]. intros i j Hi Hj. cbn [value node]. apply VZ; auto.
Qed.

(** The drawn value at each node is the density there, for both engines. *)
Theorem C119_values : forall l a f (dens : Q * Q -> V), drawn (fst (plot l a)) = Some f ->
  (a_kernel a = None -> forall rows, pdf (a_bandwidth a) rows = map dens) ->
  (forall k, a_kernel a = Some k -> forall rows n, exists ax ay, StronglySorted Qlt ax /\ StronglySorted Qlt ay /\
     List.length ax = n /\ List.length ay = n /\ (1 <= n)%nat /\
     evaluate (a_bandwidth a) k rows (RInt (Z.of_nat n)) = Ok (list_prod ax ay, map dens (list_prod ax ay)) \/ n = 0%nat /\
     exists e, evaluate (a_bandwidth a) k rows (RInt (Z.of_nat n)) = Raise e) ->
  exists rows cols, rows_cols f rows cols /\ Requested (a_resolution a) cols rows /\
    forall i j, (i < cols)%nat -> (j < rows)%nat -> value dv f j i = dens (node f j i).
Proof.
  intros l a f dens H P E. unfold plot, plot_density in H. destruct (negb (imports l (a_kernel a))); [discriminate|].
  destruct (arrays dv fit pdf evaluate a) as [g|e] eqn:AR.
  2: { cbn [fst] in H; destruct (a_ax a); cbn in H; congruence. }
  destruct (contour _ g _) as [cs|e]; cbn [fst] in H; [|destruct (a_ax a); cbn in H; congruence].
  assert (EQ : g = f) by (destruct (a_ax a); cbn in H; congruence). subst g. clear H.
  unfold arrays in AR. apply bind_ok in AR. destruct AR as [rows [DR AR]]. destruct (a_kernel a) as [k|].
  - clear P. apply bind_ok in AR. destruct AR as [[[x y] z] [K AR]]. injection AR as <-. cbn [fst snd].
    destruct (a_resolution a) as [lt|zr|q| |] eqn:R;
      try (unfold density_kdepy in K; apply bind_ok in K; destruct K as [? [_ K]]; discriminate).
    assert (Z0 : (0 <= zr)%Z).
    { unfold density_kdepy in K; apply bind_ok in K; destruct K as [? [_ K]]. destruct (Z.ltb_spec zr 0); [discriminate|lia]. }
    rewrite <- (Z2Nat.id zr Z0) in K. set (n := Z.to_nat zr) in *.
    destruct (E k eq_refl rows n) as (ax & ay & [(Sx & Sy & Lx & Ly & N & EV)|[N [e EV]]]).
    + destruct (C89_aligned V dv dens (evaluate (a_bandwidth a) k rows) n ax ay Sx Sy N Lx Ly EV) as [Z [KD [SZ VZ]]].
      rewrite KD in K. injection K as <- <- <-. exists n, n. split; [|split].
      * cbn [rows_cols]. auto.
      * cbn [Requested]. auto.
      * intros i j Hi Hj. cbn [value node]. apply VZ; auto.
    + unfold density_kdepy in K. rewrite EV in K. discriminate.
  - clear E. apply bind_ok in AR; destruct AR as [xs0 [_ AR]]. apply bind_ok in AR; destruct AR as [ys0 [_ AR]]. apply bind_ok in AR; destruct AR as [u0 [_ AR]]. apply bind_ok in AR. destruct AR as [[[x y] z] [K AR]]. injection AR as <-. cbn [fst snd].
    rewrite (P eq_refl) in K.
    exact (sm_field _ _ _ _ _ _ _ K).
Qed.

(** The default engine: exactly which calls return, given that contour wants at least
    two nodes in each direction and accepts the levels. *)
Theorem C119_default_engine : forall l a (dens : Q * Q -> V), a_kernel a = None ->
  (forall rows, pdf (a_bandwidth a) rows = map dens) ->
  (forall s f r c, rows_cols f r c -> ((exists cs, contour s f (a_levels a) = Ok cs) <-> (2 <= r)%nat /\ (2 <= c)%nat)) ->
  ((exists r, snd (plot l a) = Ok r) <->
   needed l None /\ Usable (a_data a) /\ fit (a_bandwidth a) (Xs (a_data a)) (Ys (a_data a)) = Ok tt /\ exists nx ny, Requested (a_resolution a) nx ny /\ (2 <= nx)%nat /\ (2 <= ny)%nat).
Proof.
  intros l a dens K P C. split.
  - intros [r H]. destruct (C119_drawn l a r H) as (i & f & cs & t & PR & T & CT & _ & _ & _).
    assert (N : needed l None).
    { apply imports_needed. unfold plot, plot_density in H. rewrite K in H. destruct (imports l None); [auto|discriminate]. }
    assert (DF : drawn (fst (plot l a)) = Some f).
    { rewrite T. destruct PR as [[j [_ [_ ->]]]|[_ ->]]; reflexivity. }
    destruct (C119_values l a f dens DF) as (rows & cols & RC & RQ & _); auto.
    { intros k E. rewrite K in E. discriminate. }
    destruct (proj1 (C _ _ _ _ RC) (ex_intro _ _ CT)) as [R2 C2].
    split; [exact N|].
    unfold plot, plot_density in H. destruct (negb (imports l (a_kernel a))); [discriminate|].
    destruct (arrays dv fit pdf evaluate a) as [g|e] eqn:AR; [|discriminate]. unfold arrays in AR. rewrite K in AR.
    apply bind_ok in AR. destruct AR as [rw [DR AR]]. apply bind_ok in AR. destruct AR as [xs [CX AR]]. apply bind_ok in AR. destruct AR as [ys [CY AR]].
    apply bind_ok in AR. destruct AR as [[] [FT AR]]. apply bind_ok in AR. destruct AR as [xyz [D _]]. rewrite P in D.
    destruct (columns _ _ _ _ DR CX CY) as [-> ->].
    split; [apply (proj1 (C79_defined V dens _ _ _) (ex_intro _ _ D))|]. split; [exact FT|exists cols, rows; auto].
  - intros [N [U [FT [nx [ny [R [N1 N2]]]]]]].
    destruct (proj2 (C79_defined V dens (a_data a) (a_resolution a) (a_margin a)) (conj U (ex_intro _ nx (ex_intro _ ny R)))) as [[[x y] z] D].
    assert (AR : exists rows xs ys, data_rows (a_data a) = Ok rows /\ column 0 rows = Ok xs /\ column 1 rows = Ok ys).
    { unfold density_sm in D. apply bind_ok in D. destruct D as [rw [D1 D]]. apply bind_ok in D. destruct D as [xs [D2 D]]. apply bind_ok in D. destruct D as [ys [D3 D]]. eauto 6. }
    destruct AR as [rw [xs [ys [DR [CX CY]]]]]. destruct (columns _ _ _ _ DR CX CY) as [EX EY]. rewrite <- EX, <- EY in FT.
    assert (AR : arrays dv fit pdf evaluate a = Ok (Meshes x y z)).
    { unfold arrays. rewrite DR, K. cbn [bind]. rewrite CX, CY. cbn [bind]. rewrite FT. cbn [bind]. rewrite P, D. reflexivity. }
    unfold plot, plot_density. rewrite (proj2 (imports_needed l (a_kernel a))) by (rewrite K; exact N). cbn [negb].
    rewrite AR. set (s := if a_fill a then Filled else Lines).
    destruct (sm_field _ _ _ _ _ _ _ D) as (rows & cols & SH & R' & _).
    assert (E : cols = nx /\ rows = ny).
    { clear - R R'. destruct (a_resolution a) as [lt|zr|q| |]; cbn [Requested] in *; try contradiction.
      - destruct R as (u & v & -> & A & B), R' as (u' & v' & E & A' & B'). injection E as <- <-.
        destruct A as (z1 & -> & _ & ->), B as (z2 & -> & _ & ->), A' as (z3 & E3 & _ & ->), B' as (z4 & E4 & _ & ->).
        injection E3 as <-. injection E4 as <-. auto.
      - intuition congruence.
      - intuition congruence. }
    destruct E as [-> ->]. destruct (proj2 (C s _ _ _ SH) (conj N2 N1)) as [cs CT]. rewrite CT. cbn [snd]. eauto.
Qed.

(** With a kernel, a resolution other than one integer always fails, after the axes
    were prepared. *)
Theorem C119_kernel_resolution_refuted : forall l a k, a_kernel a = Some k -> needed l (Some k) ->
  (forall z, a_resolution a <> RInt z) ->
  (exists e, snd (plot l a) = Raise e) /\ exists i, prepares a i (fst (plot l a)).
Proof.
  intros l a k K N R.
  assert (F : exists e, snd (plot l a) = Raise e).
  { destruct (snd (plot l a)) as [r|e] eqn:H; [|eauto]. exfalso.
    unfold plot, plot_density in H. destruct (negb (imports l (a_kernel a))); [discriminate|].
    destruct (arrays dv fit pdf evaluate a) as [g|e] eqn:AR; [|discriminate]. unfold arrays in AR. rewrite K in AR.
    apply bind_ok in AR. destruct AR as [rw [DR AR]]. apply bind_ok in AR. destruct AR as [xyz [D _]].
    unfold density_kdepy in D. apply bind_ok in D. destruct D as [gp [_ D]]. destruct (a_resolution a); try discriminate. apply (R z). reflexivity. }
  split; [exact F|]. destruct F as [e F]. apply (C119_failure l a e); [rewrite K; exact N|exact F].
Qed.

(** Arrays with further columns: the default engine reads the first two; the other
    one, which returns n^c values for c columns, makes the call fail. *)
Theorem C119_columns_refuted : forall l a k c rows n g vs, a_data a = DArray c rows -> (3 <= c)%nat -> (2 <= n)%nat ->
  a_kernel a = Some k -> needed l (Some k) -> a_resolution a = RInt (Z.of_nat n) ->
  evaluate (a_bandwidth a) k (c, rows) (RInt (Z.of_nat n)) = Ok (g, vs) -> List.length vs = (n ^ c)%nat ->
  snd (plot l a) = Raise ValueError.
Proof.
  intros l a k c rows n g vs D C N K ND R EV L. unfold plot, plot_density.
  rewrite (proj2 (imports_needed l (a_kernel a))) by (rewrite K; exact ND). cbn [negb].
  unfold arrays. rewrite D, K, R. cbn [data_rows bind]. unfold density_kdepy. rewrite EV. cbn [bind fst snd].
  rewrite Nat2Z.id. destruct (Z.ltb_spec (Z.of_nat n) 0); [lia|]. rewrite L.
  destruct (Nat.eqb_spec (n ^ c) (n * n)) as [E|E]; [|reflexivity]. exfalso.
  assert (P : (n ^ 3 <= n ^ c)%nat) by (apply Nat.pow_le_mono_r; lia). cbn [Nat.pow] in P. rewrite Nat.mul_1_r in P. rewrite E in P.
  assert (1 * (n * n) < n * (n * n))%nat by (apply Nat.mul_lt_mono_pos_r; nia). lia.
Qed.

(** statsmodels wants more observations than variables: without a kernel one or two
    points fail, after the axes were prepared, although their grid is well defined. *)
Theorem C119_few_points_refuted : forall l a (dens : Q * Q -> V), a_kernel a = None -> needed l None -> Usable (a_data a) ->
  (forall bw xs ys, (fit bw xs ys = Ok tt <-> (3 <= List.length xs)%nat) /\ ((List.length xs < 3)%nat -> fit bw xs ys = Raise ValueError)) ->
  (List.length (Xs (a_data a)) <= 2)%nat ->
  snd (plot l a) = Raise ValueError /\ (exists i, prepares a i (fst (plot l a))) /\
  (forall nx ny, Requested (a_resolution a) nx ny -> exists out, density_sm (map dens) (a_data a) (a_resolution a) (a_margin a) = Ok out).
Proof.
  intros l a dens K N U F L.
  assert (DN : forall nx ny, Requested (a_resolution a) nx ny -> exists out, density_sm (map dens) (a_data a) (a_resolution a) (a_margin a) = Ok out).
  { intros nx ny R. apply (C79_defined V dens). eauto. }
  assert (AR : exists rows xs ys, data_rows (a_data a) = Ok rows /\ column 0 rows = Ok xs /\ column 1 rows = Ok ys).
  { destruct (proj2 (C79_defined V dens (a_data a) (RInt 2) (a_margin a))) as [out D].
    { split; [exact U|]. exists 2%nat, 2%nat. cbn. lia. }
    unfold density_sm in D. apply bind_ok in D. destruct D as [rw [D1 D]]. apply bind_ok in D. destruct D as [xs [D2 D]]. apply bind_ok in D. destruct D as [ys [D3 D]]. eauto 6. }
  destruct AR as [rw [xs [ys [DR [CX CY]]]]]. destruct (columns _ _ _ _ DR CX CY) as [EX EY]. rewrite <- EX in L.
  assert (H : snd (plot l a) = Raise ValueError).
  { unfold plot, plot_density. rewrite (proj2 (imports_needed l (a_kernel a))) by (rewrite K; exact N). cbn [negb].
    unfold arrays. rewrite DR, K. cbn [bind]. rewrite CX, CY. cbn [bind]. rewrite (proj2 (F (a_bandwidth a) xs ys)) by lia. reflexivity. }
  split; [exact H|]. split; [|exact DN]. apply (C119_failure l a ValueError); [rewrite K; exact N|exact H].
Qed.
End C119.
Print Assumptions C119_imports.
Print Assumptions C119_failure.
Print Assumptions C119_drawn.
Print Assumptions C119_same.
Print Assumptions C119_values.
Print Assumptions C119_default_engine.
Print Assumptions C119_kernel_resolution_refuted.
Print Assumptions C119_columns_refuted.
Print Assumptions C119_few_points_refuted.

(** Three points, the density x + y, a 3 by 2 grid drawn filled on the given axes 7;
    the same data given as a line opens a figure and then raises. *)
Definition case_contour (s : style) (f : field Q) (lv : nat) : res nat :=
  match f with
  | Meshes _ _ (r :: _ :: _) | Axes _ _ (r :: _ :: _) => if Nat.leb 2 (List.length r) then Ok 5%nat else Raise TypeError
  | _ => Raise TypeError
  end.
Definition case_fit (bw : Q) (xs ys : list Q) : res unit := if Nat.leb 3 (List.length xs) then Ok tt else Raise ValueError.
Definition case_plot := plot_density 0 case_fit (fun _ _ => map (fun p => fst p + snd p)) (fun _ _ _ _ => Raise ValueError) case_contour 1.
Example C119_case :
  (exists x y z, case_plot (mklib true false true)
     (mkargs (DArray 2 [[0; 0]; [10; 4]; [2; 8]]) 1 None (RTuple [SInt 3; SInt 2]) 10 true (1#2) (Some 7%nat) 0 true) =
     ([EqualAspect 7; Contours 7 Filled (Meshes x y z) 10], Ok (RetBoth 7 5)) /\ value 0 (Meshes x y z) 1 2 == 27) /\
  case_plot (mklib true false true)
     (mkargs (DGeo [("LineString"%string, [(0, 0); (10, 4)])]) 1 None (RInt 3) 10 true (1#2) None 0 true) =
     ([NewFigure 0; EqualAspect 1], Raise ValueError) /\
  case_plot (mklib true false true)
     (mkargs (DArray 2 [[0; 0]; [10; 4]; [2; 8]]) 1 (Some "box"%string) (RInt 3) 10 true (1#2) None 0 true) = ([], Raise ImportError) /\
  case_plot (mklib true false true)
     (mkargs (DArray 2 [[0; 0]; [10; 4]; [2; 8]]) 1 None (RInt 1) 10 false (1#2) None 0 true) = ([NewFigure 0; EqualAspect 1], Raise TypeError) /\
  case_plot (mklib true false true)
     (mkargs (DArray 2 [[0; 0]; [10; 4]]) 1 None (RInt 3) 10 false (1#2) None 0 true) = ([NewFigure 0; EqualAspect 1], Raise ValueError).
Proof.
  split; [do 3 eexists; split; [vm_compute; reflexivity|vm_compute; reflexivity]|].
  repeat split; vm_compute; reflexivity.
Qed.
