(** Symmetries of the distance statistics and of the Ripley tests. *)
From Coq Require Import ZArith QArith Qabs Qminmax List Bool String Lia Lqa Permutation.
From Verif Require Import Base BaseLemmas Spec Quadrat_model Quadrat_spec Quadrat_proofs Geometry_model Random_model Pattern_spec Pattern_proofs Pairs_proofs
  DistStats_model DistStats_spec DistStats_proofs Ripley_model Ripley_spec Ripley_proofs Ripley_props Symmetry_spec Symmetry_proofs.
Import ListNotations.
Local Open Scope Q_scope.

(** ** C117: what G and K depend on *)

(** G depends on the mutual distances only: reordering, moving, rotating and reflecting
    the pattern change nothing; a change of unit scales the support. *)
Theorem C117_g : forall query dist c s s' m edge pts pts', good_tree query dist -> 0 < c ->
  same_distances (dist m) c pts pts' -> same_support c s s' ->
  same_res (fun x y => Forall2 (times c) (fst x) (fst y) /\ snd y = snd x)
    (g_fun query pts s DNone m edge) (g_fun query pts' s' DNone m edge).
Proof. intros query dist c s s' m edge pts pts' T C D S1. exact (g_times query dist T c C s s' m edge pts pts' D S1). Qed.
Print Assumptions C117_g.

(** K depends on the mutual distances and on the area of the bounding box. *)
Theorem C117_k : forall query dist c f s s' m edge pts pts', good_tree query dist -> 0 < c -> symmetric dist ->
  same_distances (dist m) c pts pts' -> same_support c s s' ->
  (forall b b', tight_box b pts -> tight_box b' pts' ->
     (bxmax b' - bxmin b') * (bymax b' - bymin b') == f * ((bxmax b - bxmin b) * (bymax b - bymin b))) ->
  same_res (same_curve c f) (k_fun query dist pts s DNone m edge) (k_fun query dist pts' s' DNone m edge).
Proof.
  intros query dist c f s s' m edge pts pts' T C SY D S1 A. apply k_times; auto. intros b b' B B'.
  apply mbb_tight_box in B. apply mbb_tight_box in B'. specialize (A b b' B B').
  assert (P : forall b l, tight_box b l -> 0 <= (bxmax b - bxmin b) * (bymax b - bymin b)).
  { intros x l [CO [[p [P1 P2]] _]]. destruct (CO p P1) as [[K1 K2] [K3 K4]]. apply Qmult_le_0_compat; lra. }
  unfold box_area. rewrite !Qabs_pos; [exact A|eapply P; eauto|eapply P; eauto].
Qed.
Print Assumptions C117_k.

(** In another system of coordinates, with the points in another order, G is the same
    and K is multiplied by the square of the unit. *)
Theorem C117_units : forall query dist c a b s s' m edge pts pts', good_tree query dist -> 0 < c -> symmetric dist ->
  unit_of dist c a b -> same_pattern c a b pts pts' -> same_support c s s' ->
  same_res (fun x y => Forall2 (times c) (fst x) (fst y) /\ snd y = snd x)
    (g_fun query pts s DNone m edge) (g_fun query pts' s' DNone m edge) /\
  same_res (same_curve c (c * c)) (k_fun query dist pts s DNone m edge) (k_fun query dist pts' s' DNone m edge).
Proof.
  intros query dist c a b s s' m edge pts pts' T C SY U P S1. pose proof (pattern_distances dist c a b m pts pts' U P) as D. split.
  - apply (C117_g query dist); auto.
  - apply k_times; auto. intros x y X Y. pose proof (mbb_times c a b pts pts' C P) as M. rewrite X, Y in M. simpl in M.
    exact (area_times c a b x y M).
Qed.
Print Assumptions C117_units.

(** K is zero everywhere when the points lie on a line parallel to an axis. *)
Theorem C117_flat : forall query dist s m edge pts sup v, k_fun query dist pts s DNone m edge = Ok (sup, v) ->
  (forall p q, In p pts -> In q pts -> fst p == fst q) \/ (forall p q, In p pts -> In q pts -> snd p == snd q) ->
  forall x, In x v -> exists q, x = Fin q /\ q == 0.
Proof.
  intros query dist s m edge pts sup v H FL x X. apply k_fun_inv in H. destruct H as [m' [b [l [_ [B [N [_ ->]]]]]]].
  apply in_map_iff in X. destruct X as [y [<- _]].
  assert (A : box_area b == 0).
  { apply mbb_tight_box in B. destruct B as [_ [[p1 [P1 E1]] [[p2 [P2 E2]] [[p3 [P3 E3]] [p4 [P4 E4]]]]]]. unfold box_area.
    destruct FL as [FL|FL].
    - rewrite <- E1, <- E2, (FL p1 p2 P1 P2). setoid_replace ((fst p2 - fst p2) * (bymax b - bymin b)) with 0 by ring. reflexivity.
    - rewrite <- E3, <- E4, (FL p3 p4 P3 P4). setoid_replace ((bxmax b - bxmin b) * (snd p4 - snd p4)) with 0 by ring. reflexivity. }
  destruct (k_value_spec (List.length pts) (box_area b) l y N) as [q [-> Q1]]; [rewrite A; lra|].
  exists q. split; [reflexivity|]. rewrite Q1, A. unfold Qdiv. ring.
Qed.
Print Assumptions C117_flat.

(** Finding: K is not the same for a rotated pattern: two points at distance 5, on a
    line parallel to an axis and turned, with any metric that gives 5 for both. *)
Theorem C117_rotation_refuted : forall query dist m, (forall i, m <> MOther i) -> m <> MName "precomputed" ->
  dist m (0, 0) (5, 0) == 5 -> dist m (0, 0) (3, 4) == 5 ->
  exists v v', k_fun query dist [(0, 0); (5, 0)] (SupArr [0; 6]) DNone m false = Ok ([0; 6], v) /\
    k_fun query dist [(0, 0); (3, 4)] (SupArr [0; 6]) DNone m false = Ok ([0; 6], v') /\
    (exists q, nth 1 v NaN = Fin q /\ q == 0) /\ (exists q, nth 1 v' NaN = Fin q /\ q == 6).
Proof.
  intros query dist m M1 M2 D1 D2.
  assert (PR : forall p, prepare [(0, 0); p] (SupArr [0; 6]) DNone m HNone false (nnd query [(0, 0); p]) =
    Ok ([0; 6], m, RBox (mkbox (Qmin 0 (fst p)) (Qmin 0 (snd p)) (Qmax 0 (fst p)) (Qmax 0 (snd p))))).
  { intros p. unfold prepare. cbn [prepare_hull compute_mbb bind is_none]. destruct m as [x|i|i]; [| |exfalso; eapply M1; reflexivity].
    - destruct (String.eqb_spec x "precomputed") as [->|NE]; [congruence|]. reflexivity.
    - reflexivity. }
  assert (K : forall p area q, area == box_area (mkbox (Qmin 0 (fst p)) (Qmin 0 (snd p)) (Qmax 0 (fst p)) (Qmax 0 (snd p))) ->
    dist m (0, 0) p == 5 -> q == area / 2 -> exists v, k_fun query dist [(0, 0); p] (SupArr [0; 6]) DNone m false = Ok ([0; 6], v) /\
      exists q', nth 1 v NaN = Fin q' /\ q' == q).
  { intros p area q A D E. unfold k_fun. rewrite PR. cbn [bind k_stat k_distances]. eexists. split; [reflexivity|]. cbn [map nth List.length].
    match goal with |- exists q', k_value ?n ?ar ?d ?s = Fin q' /\ _ => destruct (k_value_spec n ar d s) as [q' [Q1 Q2]]; [lia|apply Qabs_nonneg|] end.
    exists q'. split; [exact Q1|]. rewrite Q2, E, A.
    match goal with |- context [count ?f ?d] => assert (CT : count f d = 1%nat) end.
    { unfold pdist. cbn. unfold count. cbn [filter]. assert (X : Qltb (dist m (0, 0) p) 6 = true) by (apply Qltb_lt; rewrite D; reflexivity).
      rewrite X. reflexivity. }
    rewrite CT. unfold Qdiv. setoid_replace (/ (inject_Z (Z.of_nat 2) * inject_Z (Z.of_nat 2))) with (1 # 4) by reflexivity.
    setoid_replace (inject_Z (2 * Z.of_nat 1)) with 2 by reflexivity. setoid_replace (/ 2) with (1 # 2) by reflexivity. ring. }
  destruct (K (5, 0) 0 0) as [v [V1 V2]]; [reflexivity|exact D1|reflexivity|].
  destruct (K (3, 4) 12 6) as [v' [V3 V4]]; [reflexivity|exact D2|reflexivity|].
  exists v, v'. auto.
Qed.
Print Assumptions C117_rotation_refuted.

(** ** C118: the tests *)
Section Tests.
Variable sk : option (list string * list string).
Variable query : metric -> list pt -> pt -> nat -> row.
Variable dist : metric -> pt -> pt -> Q.
Variable shape : list pt -> hullres -> hull.
Variables c a b : Q.
Hypothesis tree : good_tree query dist.
Hypothesis positive : 0 < c.
Hypothesis units : unit_of dist c a b.

(** The hulls of the two calls are the same up to the coordinates. *)
Definition same_hull (pts : list pt) (u : hullarg) (pts' : list pt) (u' : hullarg) : Prop :=
  same_res (fun h h' => moved_hull c a b (hull_seen shape pts h) (hull_seen shape pts' h')) (prepare_hull pts u) (prepare_hull pts' u').

(** g_test: same p-values, whatever the unit, the origin and the order of the points. *)
Theorem C118_g_test : forall pts pts' s s' m u u' edge keep ns us,
  same_pattern c a b pts pts' -> same_support c s s' -> same_hull pts u pts' u' ->
  same_run (same_outcome c 1) (g_test sk query shape pts s TDNone m u edge keep ns us) (g_test sk query shape pts' s' TDNone m u' edge keep ns us).
Proof using sk query dist shape c a b tree positive units.
  intros pts pts' s s' m u u' edge keep ns us P S1 H. unfold g_test.
  apply (test_times sk query shape c a b 1 positive ltac:(lra) TG (stat_G query) m edge) with
    (ordered := same_pattern c a b) (drel := fun d d' => d = TDNone /\ d' = TDNone); auto.
  - apply ordered_pattern.
  - intros p p' t t' d d' hu hu' vs O T [-> ->] _ _. unfold stat_G. cbn [one lift rbind]. apply same_lift.
    pose proof (g_times query dist tree c positive t t' m edge p p' (pattern_distances _ _ _ _ m _ _ units O) T) as G.
    destruct (g_fun query p t DNone m edge) as [[x y]|e], (g_fun query p' t' DNone m edge) as [[x' y']|e']; simpl in *; try tauto.
    destruct G as [G1 ->]. split; [exact G1|apply xtimes_1].
  - intros. simpl. auto.
  - intros. simpl. auto.
Qed.

(** k_test: the values are multiplied by the square of the unit, the p-values stay. *)
Theorem C118_k_test : forall pts pts' s s' m u u' edge keep ns us, symmetric dist ->
  same_pattern c a b pts pts' -> same_support c s s' -> same_hull pts u pts' u' ->
  same_run (same_outcome c (c * c)) (k_test sk query dist shape pts s TDNone m u edge keep ns us) (k_test sk query dist shape pts' s' TDNone m u' edge keep ns us).
Proof using sk query dist shape c a b tree positive units.
  intros pts pts' s s' m u u' edge keep ns us SY P S1 H. unfold k_test.
  apply (test_times sk query shape c a b (c * c) positive ltac:(nra) TK (stat_K query dist) m edge) with
    (ordered := same_pattern c a b) (drel := fun d d' => d = TDNone /\ d' = TDNone); auto.
  - apply ordered_pattern.
  - intros p p' t t' d d' hu hu' vs O T [-> ->] _ _. unfold stat_K. cbn [one lift rbind]. apply same_lift.
    apply (C117_units query dist c a b); auto.
  - intros. simpl. auto.
  - intros. simpl. auto.
Qed.

(** l_test: same p-values. *)
Theorem C118_l_test : forall lin pts pts' s s' m u u' edge keep ns us o rest, symmetric dist ->
  same_pattern c a b pts pts' -> same_support c s s' -> same_hull pts u pts' u' ->
  l_test sk query dist shape lin pts s TDNone m u edge keep ns us = Val o rest ->
  exists o', l_test sk query dist shape lin pts' s' TDNone m u' edge keep ns us = Val o' rest /\
    Forall2 (times c) (o_support o) (o_support o') /\ o_pvalue o' = o_pvalue o.
Proof using sk query dist shape c a b tree positive units.
  intros lin pts pts' s s' m u u' edge keep ns us o rest SY P S1 H E.
  pose proof (C118_k_test pts pts' s s' m u u' edge keep ns us SY P S1 H) as K.
  pose proof (C114_same_pvalues sk query dist shape lin pts s TDNone m u edge keep ns us) as L1.
  pose proof (C114_same_pvalues sk query dist shape lin pts' s' TDNone m u' edge keep ns us) as L2.
  destruct (k_test sk query dist shape pts s TDNone m u edge keep ns us) as [x r|e|]; [|congruence|congruence].
  destruct (k_test sk query dist shape pts' s' TDNone m u' edge keep ns us) as [y r'|e|]; simpl in K; try tauto.
  destruct K as [[[K1 K2] [K3 _]] <-]. destruct L1 as [ol [A1 [A2 [A3 _]]]]. destruct L2 as [ol' [B1 [B2 [B3 _]]]].
  rewrite E in A1. inversion A1; subst ol. exists ol'. rewrite A2, A3, B2, B3. auto.
Qed.

(** f_test: same curves and p-values if the order of the points is kept. *)
Theorem C118_f_test : forall pts pts' s s' m u u' edge keep ns us,
  Forall2 (moved c a b) pts pts' -> same_support c s s' -> same_hull pts u pts' u' ->
  same_run (same_outcome c 1) (f_test sk query shape pts s TDNone m u edge keep ns us) (f_test sk query shape pts' s' TDNone m u' edge keep ns us).
Proof using sk query dist shape c a b tree positive units.
  intros pts pts' s s' m u u' edge keep ns us P S1 H. unfold f_test.
  apply (test_times sk query shape c a b 1 positive ltac:(lra) TF (stat_F query shape) m edge) with
    (ordered := Forall2 (moved c a b))
    (drel := fun d d' => exists l l', d = TDArr (D1 l) /\ d' = TDArr (D1 l') /\ Forall2 (times c) l l'); auto.
  - apply ordered_pattern.
  - intros p p' t t' d d' hu hu' vs O T [l [l' [-> [-> F]]]] HU HU'. unfold stat_F. cbn [one lift rbind].
    pose proof (f_given_times query dist tree c positive shape t t' l l' m hu hu' edge p p' vs
      (fun m => pattern_distances _ _ _ _ m _ _ units (ordered_pattern _ _ _ _ _ O)) T F (HU p) (HU' p')) as G.
    destruct (f_fun query shape p t (D1 l) m hu edge vs) as [[x y] r|e|], (f_fun query shape p' t' (D1 l') m hu' edge vs) as [[x' y'] r'|e'|];
      simpl in *; try tauto.
    destruct G as [[G1 ->] ->]. split; [|reflexivity]. split; [exact G1|apply xtimes_1].
  - intros p p' e e' P1 E. cbn [test_distances]. pose proof (other_times query dist tree c a b positive units m p p' e e' P1 E) as G.
    destruct (other_distances query m p e), (other_distances query m p' e'); simpl in *; try tauto. eauto.
  - intros p p' e e' P1 E. cbn [test_distances]. pose proof (nearest_times query dist tree c a b positive units m p p' e e' P1 E) as G.
    destruct (nearest_distances query m p e), (nearest_distances query m p' e'); simpl in *; try tauto. eauto.
Qed.

(** j_test before truncation: likewise. *)
Theorem C118_j_test : forall interp pts pts' s s' m u u' edge keep ns us,
  Forall2 (moved c a b) pts pts' -> same_support c s s' -> same_hull pts u pts' u' ->
  same_run (same_outcome c 1) (j_test_full sk query shape interp pts s TDNone m u edge keep ns us)
    (j_test_full sk query shape interp pts' s' TDNone m u' edge keep ns us).
Proof using sk query dist shape c a b tree positive units.
  intros interp pts pts' s s' m u u' edge keep ns us P S1 H. unfold j_test_full.
  apply (test_times sk query shape c a b 1 positive ltac:(lra) TJ (stat_J query shape interp) m edge) with
    (ordered := Forall2 (moved c a b))
    (drel := fun d d' => exists g f g' f', d = TDPair (D1 g) (D1 f) /\ d' = TDPair (D1 g') (D1 f') /\ Forall2 (times c) g g' /\ Forall2 (times c) f f'); auto.
  - apply ordered_pattern.
  - intros p p' t t' d d' hu hu' vs O T [g [f [g' [f' [-> [-> [FG FF]]]]]]] HU HU'. unfold stat_J, j_fun.
    assert (SD : forall m, same_distances (dist m) c p p') by (intros m'; apply (pattern_distances dist c a b); auto; apply ordered_pattern; exact O).
    (* both functions use the same support *)
    assert (SAME : forall q r gl fl h vs x y z w vs', prepare_hull q HNone = Ok r ->
      f_fun query shape q t (D1 fl) m h edge vs = Val (x, y) vs' -> g_fun query q t (D1 gl) m edge = Ok (z, w) -> z = x /\ (forall l, t = SupArr l -> l = x)).
    { intros q r gl fl h vs0 x y z w vs' Q F1 G1. apply f_fun_inv in F1. destruct F1 as [m1 [h1 [l1 [F1 _]]]].
      apply g_fun_inv in G1. destruct G1 as [m2 [h2 [l2 [G1 _]]]]. unfold prepare in *. rewrite Q in G1. destruct edge; [discriminate|].
      destruct (prepare_hull q h); [|discriminate]. cbn [bind is_none andb] in *. destruct m; try discriminate;
      (destruct (make_support _ t) as [v|] eqn:MS; [|discriminate]; cbn [bind] in *; inversion F1; inversion G1; subst; split; [reflexivity|];
       intros l ->; simpl in MS; inversion MS; reflexivity). }
    assert (SAME' : forall q r gl fl h vs x y z w vs', prepare_hull q HNone = Ok r ->
      f_fun query shape q t' (D1 fl) m h edge vs = Val (x, y) vs' -> g_fun query q t' (D1 gl) m edge = Ok (z, w) -> z = x /\ (forall l, t' = SupArr l -> l = x)).
    { intros q r gl fl h vs0 x y z w vs' Q F1 G1. apply f_fun_inv in F1. destruct F1 as [m1 [h1 [l1 [F1 _]]]].
      apply g_fun_inv in G1. destruct G1 as [m2 [h2 [l2 [G1 _]]]]. unfold prepare in *. rewrite Q in G1. destruct edge; [discriminate|].
      destruct (prepare_hull q h); [|discriminate]. cbn [bind is_none andb] in *. destruct m; try discriminate;
      (destruct (make_support _ t') as [v|] eqn:MS; [|discriminate]; cbn [bind] in *; inversion F1; inversion G1; subst; split; [reflexivity|];
       intros l ->; simpl in MS; inversion MS; reflexivity). }
    pose proof (f_given_times query dist tree c positive shape t t' f f' m hu hu' edge p p' vs SD T FF (HU p) (HU' p')) as G.
    destruct (f_fun query shape p t (D1 f) m hu edge vs) as [[x y] r|e|] eqn:E1, (f_fun query shape p' t' (D1 f') m hu' edge vs) as [[x' y'] r'|e'|] eqn:E2;
      simpl in G; try tauto; cbn [rbind].
    destruct G as [[G1 ->] <-].
    pose proof (g_given_times query dist tree c positive t t' g g' m edge p p' SD T FG) as K.
    destruct (g_fun query p t (D1 g) m edge) as [[z w]|e] eqn:E3, (g_fun query p' t' (D1 g') m edge) as [[z' w']|e'] eqn:E4; simpl in K; try tauto.
    destruct K as [K1 ->]. cbn [lift rbind].
    assert (Q1 : exists k, prepare_hull p HNone = Ok k).
    { apply g_fun_inv in E3. destruct E3 as [m2 [h2 [l2 [E3 _]]]]. unfold prepare in E3. destruct edge; [discriminate|].
      destruct (prepare_hull p HNone); [eauto|discriminate]. }
    assert (Q2 : exists k, prepare_hull p' HNone = Ok k).
    { apply g_fun_inv in E4. destruct E4 as [m2 [h2 [l2 [E4 _]]]]. unfold prepare in E4. destruct edge; [discriminate|].
      destruct (prepare_hull p' HNone); [eauto|discriminate]. }
    destruct Q1 as [k1 Q1], Q2 as [k2 Q2].
    destruct (SAME p k1 g f hu vs x y z w r Q1 E1 E3) as [-> A1]. destruct (SAME' p' k2 g' f' hu' vs x' y z' w r Q2 E2 E4) as [-> A2].
    rewrite j_stat_common by (intros k X; destruct t; try discriminate; injection X as <-; apply A1; reflexivity).
    rewrite j_stat_common by (intros k X; destruct t'; try discriminate; injection X as <-; apply A2; reflexivity).
    simpl. split; [|reflexivity]. split; [exact G1|apply xtimes_1].
  - intros p p' e e' P1 E. cbn [test_distances]. pose proof (other_times query dist tree c a b positive units m p p' e e' P1 E) as G.
    pose proof (other_times query dist tree c a b positive units m p p' p p' P1 P1) as G2.
    destruct (other_distances query m p e), (other_distances query m p' e'); simpl in *; try tauto.
    destruct (other_distances query m p p), (other_distances query m p' p'); simpl in *; try tauto. do 4 eexists. eauto.
  - intros p p' e e' P1 E. cbn [test_distances]. pose proof (nearest_times query dist tree c a b positive units m p p' e e' P1 E) as G.
    pose proof (other_times query dist tree c a b positive units m p p' p p' P1 P1) as G2.
    destruct (nearest_distances query m p e), (nearest_distances query m p' e'); simpl in *; try tauto.
    destruct (other_distances query m p p), (other_distances query m p' p'); simpl in *; try tauto. do 4 eexists. eauto.
Qed.

(** The default hull and the bounding box are the same up to the coordinates. *)
Theorem C118_default_hull : forall pts pts', same_pattern c a b pts pts' ->
  same_hull pts HNone pts' HNone /\ same_hull pts (HStr "bbox") pts' (HStr "bbox") /\
  forall x0 y0 x1 y1 x0' y0' x1' y1', moved c a b (x0, y0) (x0', y0') -> moved c a b (x1, y1) (x1', y1') ->
    same_hull pts (HArr (Vec [x0; y0; x1; y1])) pts' (HArr (Vec [x0'; y0'; x1'; y1'])).
Proof using c a b positive shape.
  intros pts pts' P. unfold same_hull.
  assert (M : same_res (fun h h' => moved_hull c a b (hull_seen shape pts h) (hull_seen shape pts' h'))
    (let! b := compute_mbb pts in Ok (RBox b)) (let! b := compute_mbb pts' in Ok (RBox b))).
  { pose proof (mbb_times c a b pts pts' positive P) as M. destruct (compute_mbb pts), (compute_mbb pts'); simpl in *; try tauto.
    apply box_hull_times; assumption. }
  split; [exact M|]. split; [exact M|]. intros. simpl. apply box_hull_times; [assumption|]. split; assumption.
Qed.
End Tests.
Print Assumptions C118_g_test.
Print Assumptions C118_k_test.
Print Assumptions C118_l_test.
Print Assumptions C118_f_test.
Print Assumptions C118_j_test.
Print Assumptions C118_default_hull.

(** Finding: the result of f_test depends on the order of the points: the point with the
    same number as the query is left out.  Same tree, stream and support; the observed
    curve and a p-value differ. *)
Definition order_numbers : list Q := [7#8; 7#8] ++ repeat 0 1998 ++ [0; 0; 0; 0].
Theorem C118_f_order_refuted : exists o o',
  f_test names (sorted_query metrics) no_shape [(0, 0); (1, 1)] (SupSteps 0 1 3) TDNone (MName "chebyshev") HNone
    false true 1 order_numbers = Val o [] /\
  f_test names (sorted_query metrics) no_shape [(1, 1); (0, 0)] (SupSteps 0 1 3) TDNone (MName "chebyshev") HNone
    false true 1 order_numbers = Val o' [] /\
  map red_x (o_statistic o) = [Fin 0; Fin 1; Fin 1] /\ map red_x (o_statistic o') = [Fin 0; Fin (499#500); Fin 1] /\
  map red_x (o_pvalue o) = [Fin 0; Fin (1#2); Fin 0] /\ map red_x (o_pvalue o') = [Fin 0; Fin 0; Fin 0].
Proof. eexists. eexists. split; [vm_compute; reflexivity|]. split; [vm_compute; reflexivity|]. repeat split; vm_compute; reflexivity. Qed.
Print Assumptions C118_f_order_refuted.

(** A distance that the theorems apply to, and a run in other coordinates. *)
Definition cheb (_ : metric) (p q : pt) : Q := Qmax (Qabs (fst p - fst q)) (Qabs (snd p - snd q)).
Lemma cheb_units : forall c a b, 0 < c -> unit_of cheb c a b.
Proof.
  intros c a b C m p q p' q' [P1 P2] [Q1 Q2]. unfold cheb.
  assert (E : forall x y k, Qabs (c * x + k - (c * y + k)) == c * Qabs (x - y)).
  { intros x y k. setoid_replace (c * x + k - (c * y + k)) with (c * (x - y)) by ring. rewrite Qabs_Qmult, (Qabs_pos c) by lra. reflexivity. }
  rewrite P1, P2, Q1, Q2, !E.
  destruct (Q.max_spec (Qabs (fst p - fst q)) (Qabs (snd p - snd q))) as [[H ->]|[H ->]].
  - apply Q.max_r. apply Qmult_le_l; [exact C|lra].
  - apply Q.max_l. apply Qmult_le_l; [exact C|exact H].
Qed.
Lemma cheb_symmetric : symmetric cheb.
Proof. intros m p q. unfold cheb. rewrite (Qabs_Qminus (fst p)), (Qabs_Qminus (snd p)). reflexivity. Qed.

Definition km : list pt := [(0, 0); (4, 1); (1, 5)].
Definition metres : list pt := [(3000, 7000); (6000, 3000); (2000, 2000)].
Lemma km_metres : same_pattern 1000 2000 2000 km metres.
Proof.
  exists [(1, 5); (4, 1); (0, 0)]. split.
  - unfold km. apply (Permutation_rev [(0, 0); (4, 1); (1, 5)]).
  - unfold metres. repeat constructor; vm_compute; reflexivity.
Qed.
Example C118_case : exists o o',
  k_test names (sorted_query cheb) cheb no_shape km (SupArr [0; 9#2; 6]) TDNone (MName "chebyshev") HNone false false 2 numbers = Val o [] /\
  k_test names (sorted_query cheb) cheb no_shape metres (SupArr [0; 4500; 6000]) TDNone (MName "chebyshev") HNone false false 2 numbers = Val o' [] /\
  same_outcome 1000 1000000 o o' /\ map red_x (o_statistic o) = [Fin 0; Fin (80#9); Fin (40#3)] /\ map red_x (o_pvalue o) = [Fin 0; Fin (1#3); Fin (1#3)].
Proof.
  pose proof (C118_k_test names (sorted_query cheb) cheb no_shape 1000 2000 2000 (sorted_query_good cheb) ltac:(reflexivity)
    (cheb_units 1000 2000 2000 ltac:(reflexivity)) km metres (SupArr [0; 9#2; 6]) (SupArr [0; 4500; 6000]) (MName "chebyshev") HNone HNone false false 2 numbers
    cheb_symmetric km_metres ltac:(repeat constructor; reflexivity)) as H.
  specialize (H (proj1 (C118_default_hull no_shape 1000 2000 2000 ltac:(reflexivity) km metres km_metres))).
  eexists. eexists. split; [vm_compute; reflexivity|]. split; [vm_compute; reflexivity|]. split; [|repeat split; vm_compute; reflexivity].
  vm_compute in H. destruct H as [H _]. exact H.
Qed.

(** A quarter turn keeps the mutual distances. *)
Definition taxi (_ : metric) (p q : pt) : Q := Qabs (fst p - fst q) + Qabs (snd p - snd q).
Example C117_case : same_distances (taxi (MName "cityblock")) 1 [(0, 0); (4, 1); (1, 5)] [(0, 0); (-1, 4); (-5, 1)] /\
  (exists v, g_fun (sorted_query taxi) [(0, 0); (4, 1); (1, 5)] (SupInt 3) DNone (MName "cityblock") false = Ok v /\
     map red_x (snd v) = [Fin 0; Fin 0; Fin 1]).
Proof.
  split; [|eexists; split; [vm_compute; reflexivity|vm_compute; reflexivity]].
  exists [(0, 0); (4, 1); (1, 5)]. split; [apply Permutation_refl|]. split; [reflexivity|]. intros i j I J. simpl in I, J.
  destruct i as [|[|[|]]]; try lia; destruct j as [|[|[|]]]; try lia; vm_compute; reflexivity.
Qed.
