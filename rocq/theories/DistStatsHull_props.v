(** Theorems about the part of the hull argument in the Ripley tests. *)
From Coq Require Import ZArith QArith Qabs Qminmax List Bool String Lia Lqa.
From Verif Require Import Base BaseLemmas Spec Quadrat_model Geometry_model Random_model Random_spec
  DistStats_model DistStats_spec Pattern_spec Pattern_proofs Pairs_proofs DistStats_proofs Random_props DistStats_props.
Import ListNotations.
Local Open Scope Q_scope.

(** ** C84 *)
(** The empty-space points of f_test and j_test are 1000 points of the bounding box
    of the coordinates, whatever hull the caller passes. *)
Theorem C84_empty_space_in_bbox : forall coords us a rest, unit_stream us ->
  empty_space_points coords us = Val a rest ->
  exists b, tight_box b coords /\ List.length (arr_points a) = 1000%nat /\
    forall p, In p (arr_points a) -> in_box b p.
Proof.
  intros coords us a rest U H. unfold empty_space_points in H.
  destruct (compute_mbb coords) as [b|e] eqn:E; [|discriminate]. cbn [lift rbind] in H.
  pose proof (mbb_tight_box _ _ E) as T. exists b. split; [exact T|].
  assert (S : sane_box (h_bbox (bbox_hull b))) by exact (tight_box_sane _ _ T).
  destruct (C31_poisson_in_hull _ _ _ _ _ _ U S H) as [n [s [it [d [P [_ [_ [[D1 [D2 D3]] [I _]]]]]]]]].
  split.
  - assert (NS : n = 1000%Z /\ s = 1%Z).
    { unfold parse_size_and_intensity in P. destruct (div_area 1000 (bbox_hull b)); inversion P; auto. }
    destruct NS as [-> ->]. rewrite D3. destruct d as [|l [|]]; try discriminate.
    inversion D2; subst. simpl. rewrite app_nil_r. assumption.
  - intros p Hp. apply I in Hp. apply Hp.
Qed.
Print Assumptions C84_empty_space_in_bbox.

(** Hence with a hull larger than the bounding box the empty-space points do not
    cover the hull in which the simulated patterns are drawn: here the hull is
    [0,10]x[0,10], the pattern lies in the unit square, a simulated point at (5,5)
    is possible, and no empty-space point ever leaves the unit square. *)
Theorem C84_hull_ignored_refuted :
  let coords := [(0, 0); (1, 1)] in
  let h := bbox_hull (mkbox 0 0 10 10) in
  (exists us a rest, unit_stream us /\ simulated_pattern h 2 us = Val a rest /\ exists p, In p (arr_points a) /\
     5 <= fst p /\ 5 <= snd p) /\
  (forall us a rest, unit_stream us -> empty_space_points coords us = Val a rest ->
     forall p, In p (arr_points a) -> fst p <= 1 /\ snd p <= 1).
Proof.
  cbv zeta. split.
  - exists [1#2; 3#4; 2#3; 1#2]. do 2 eexists. split; [|split; [vm_compute; reflexivity|]].
    + repeat constructor; vm_compute; congruence.
    + simpl. eexists. split; [left; reflexivity|]. simpl. split; vm_compute; discriminate.
  - intros us a rest U H. destruct (C84_empty_space_in_bbox _ _ _ _ U H) as [b [T [_ I]]].
    intros p Hp. apply I in Hp. destruct Hp as [[_ H1] [_ H2]].
    assert (B : box_inside b (mkbox 0 0 1 1)).
    { apply (tight_box_least _ _ T). intros q [<-|[<-|[]]]; unfold covers; simpl; lra. }
    unfold box_inside in B. simpl in B. lra.
Qed.
Print Assumptions C84_hull_ignored_refuted.

(** ** C85 *)
(** K and L in the tests use the bounding box of the pattern at hand, for the
    observed and for every simulated pattern; the plateau beyond the largest
    distance is therefore area(bounding box)*(n-1)/n. *)
Theorem C85_k_uses_bounding_box : forall coords user support D, coords <> [] ->
  let n := List.length coords in
  exists b ks, tight_box b coords /\ k_in_test coords user support (pdist n D) = Ok ks /\
    List.length ks = List.length support /\
    forall i, (i < List.length support)%nat -> 
      (forall x y, (x < y < n)%nat -> D x y < nth i support 0) ->
      exists q, nth i ks NaN = Fin q /\
        q * inject_Z (Z.of_nat n) == (bxmax b - bxmin b) * (bymax b - bymin b) * inject_Z (Z.of_nat n - 1).
Proof.
  intros coords user support D N n. unfold k_in_test. simpl stat_hull. unfold prepare_hull.
  destruct (compute_mbb coords) as [b|] eqn:E; [|destruct coords; [tauto|discriminate]].
  cbn [bind]. pose proof (mbb_tight_box _ _ E) as T. exists b. eexists. split; [exact T|].
  split; [reflexivity|]. split; [apply map_length|]. intros i I H.
  assert (N1 : (1 <= List.length coords)%nat) by (destruct coords; simpl; [tauto|lia]).
  assert (SB : 0 <= (bxmax b - bxmin b) * (bymax b - bymin b)).
  { destruct coords as [|p l]; [tauto|]. destruct T as [T _]. specialize (T p (or_introl eq_refl)).
    unfold covers in T. destruct T as [[T1 T2] [T3 T4]]. apply Qmult_le_0_compat; lra. }
  assert (A : 0 <= box_area b) by apply Qabs_nonneg.
  destruct (C54_shape (List.length coords) (box_area b) D (nth i support 0) 0 N1 A) as [q [_ [Q1 [_ [_ [_ [_ Q2]]]]]]].
  exists q. split.
  - rewrite (nth_indep _ NaN (k_value (List.length coords) (box_area b) (pdist n D) 0)) by (rewrite map_length; auto).
    rewrite map_nth. exact Q1.
  - unfold n. rewrite (Q2 H). unfold box_area. rewrite Qabs_pos by exact SB. reflexivity.
Qed.
Print Assumptions C85_k_uses_bounding_box.

(** With the hull [0,10]x[0,10] of area 100 the K estimate beyond the largest
    distance should be 100*(n-1)/n = 50; it is 1/2. *)
Theorem C85_hull_ignored_refuted : exists q,
  k_in_test [(0, 0); (1, 1)] (HArr (Vec [0; 0; 10; 10])) [3] [7#5] = Ok [Fin q] /\ q == 1 # 2 /\
  box_area (mkbox 0 0 10 10) == 100.
Proof. eexists. split; [vm_compute; reflexivity|]. split; vm_compute; reflexivity. Qed.
Print Assumptions C85_hull_ignored_refuted.
