(** Theorems about the simulators of random.py: properties C30 - C38. *)
From Coq Require Import ZArith QArith Qround Qabs List Bool Lia Lqa.
From Verif Require Import Base BaseLemmas Quadrat_model Geometry_model Random_model Random_spec
  Random_proofs Cluster_proofs Strauss_proofs.
Import ListNotations.
Local Open Scope Q_scope.

(** ** C30 *)
Lemma truncates_unique : forall a b q, truncates a q -> truncates b q -> a = b.
Proof.
  intros a b q [A1 A2] [B1 B2]. destruct (Qlt_le_dec q 0) as [H|H].
  - destruct (A2 ltac:(lra)) as [C1 C2]. destruct (B2 ltac:(lra)) as [D1 D2].
    assert (X : inject_Z a < inject_Z (b + 1)) by (rewrite inject_Z_succ; lra).
    assert (Y : inject_Z b < inject_Z (a + 1)) by (rewrite inject_Z_succ; lra).
    apply inject_Z_lt_inv in X. apply inject_Z_lt_inv in Y. lia.
  - destruct (A1 H) as [C1 C2]. destruct (B1 H) as [D1 D2].
    assert (X : inject_Z a < inject_Z (b + 1)) by (rewrite inject_Z_succ; lra).
    assert (Y : inject_Z b < inject_Z (a + 1)) by (rewrite inject_Z_succ; lra).
    apply inject_Z_lt_inv in X. apply inject_Z_lt_inv in Y. lia.
Qed.

Lemma truncates_ext : forall z a b, a == b -> truncates z a -> truncates z b.
Proof. intros z a b E [A1 A2]. split; intros H; rewrite <- E in H |- *; auto. Qed.

(** On a hull of non-zero area: the result is the documented one whenever there
    is one, with an intensity that is the given one or n / area; and ValueError
    is raised exactly when the arguments have no documented meaning. *)
Theorem C30_parse_table : forall h i sz, ~ h_area h == 0 ->
  (forall n s, documented (h_area h) i sz n s ->
     exists q, parse_size_and_intensity h i sz = Ok (n, s, Fin q) /\
       match i with Some i => q = i | None => q * h_area h == inject_Z n end) /\
  ((forall n s, ~ documented (h_area h) i sz n s) ->
     parse_size_and_intensity h i sz = Raise ValueError) /\
  (parse_size_and_intensity h i sz = Raise ValueError ->
     forall n s, ~ documented (h_area h) i sz n s).
Proof.
  intros h i sz Ha.
  assert (D : forall n, exists q, div_area n h = Ok (Fin q) /\ q * h_area h == inject_Z n).
  { intros n. unfold div_area, xdiv. destruct (Qeq_bool (h_area h) 0) eqn:E; qb; [contradiction|].
    simpl. eexists. split; [reflexivity|]. field. auto. }
  assert (C : forall n s, documented (h_area h) i sz n s ->
     exists q, parse_size_and_intensity h i sz = Ok (n, s, Fin q) /\
       match i with Some i => q = i | None => q * h_area h == inject_Z n end).
  { intros n s H. destruct H as [|j n T|n|j n s T|n s]; simpl.
    - destruct (D 100%Z) as [q [-> Q]]. exists q. auto.
    - exists j. split; auto. do 3 f_equal. eapply truncates_unique; [apply Qtrunc_truncates|].
      eapply truncates_ext; [|exact T]. lra.
    - destruct (D n) as [q [-> Q]]. exists q. auto.
    - exists j. split; auto. do 3 f_equal. eapply truncates_unique; [apply Qtrunc_truncates|]. auto.
    - destruct (D n) as [q [-> Q]]. exists q. auto. }
  split; [exact C|]. split.
  - intros N. destruct sz as [|z|l|]; destruct i as [j|]; simpl; auto.
    + exfalso. apply (N (Qtrunc (j * h_area h)) 1%Z). constructor. apply Qtrunc_truncates.
    + exfalso. apply (N 100%Z 1%Z). constructor.
    + exfalso. apply (N (Qtrunc (j * h_area h)) z). constructor. apply Qtrunc_truncates.
    + exfalso. apply (N z 1%Z). constructor.
    + destruct l as [|a [|b [|]]]; auto.
    + destruct l as [|a [|b [|]]]; auto. exfalso. apply (N a b). constructor.
  - intros R n s H. destruct (C n s H) as [q [Q _]]. congruence.
Qed.
Print Assumptions C30_parse_table.

(** On a hull of area zero: a given intensity asks for no points; without one the
    division fails for a Python number and gives an infinite or missing intensity for
    a numpy number. *)
Theorem C30_zero_area : forall h i sz, h_area h == 0 ->
  (forall n s, documented (h_area h) i sz n s ->
     match i with
     | Some q => n = 0%Z /\ parse_size_and_intensity h i sz = Ok (0%Z, s, Fin q)
     | None => if h_np h
               then exists x, parse_size_and_intensity h i sz = Ok (n, s, x) /\
                      (x = PInf <-> (0 < n)%Z) /\ (x = NInf <-> (n < 0)%Z) /\ (x = NaN <-> n = 0%Z)
               else parse_size_and_intensity h i sz = Raise ZeroDivisionError
     end) /\
  ((forall n s, ~ documented (h_area h) i sz n s) -> parse_size_and_intensity h i sz = Raise ValueError).
Proof.
  intros h i sz Ha.
  assert (TR : forall n j, truncates n (j * h_area h) -> n = 0%Z).
  { intros n j T. eapply truncates_unique; [exact T|]. apply (truncates_ext _ 0); [rewrite Ha; ring|]. split; intro X; split; vm_compute; congruence || auto. }
  assert (D : forall n, div_area n h = if h_np h then Ok (if (0 <? n)%Z then PInf else if (n <? 0)%Z then NInf else NaN) else Raise ZeroDivisionError).
  { intro n. unfold div_area, xdiv. rewrite (proj2 (Qeq_bool_iff (h_area h) 0) Ha). cbn [andb]. destruct (h_np h); cbn [negb]; [|reflexivity]. f_equal.
    destruct n as [|n|n]; reflexivity. }
  assert (X : forall n, let x := if (0 <? n)%Z then PInf else if (n <? 0)%Z then NInf else NaN in
    (x = PInf <-> (0 < n)%Z) /\ (x = NInf <-> (n < 0)%Z) /\ (x = NaN <-> n = 0%Z)).
  { intro n. cbn zeta. destruct (Z.ltb_spec 0 n); [|destruct (Z.ltb_spec n 0)]; repeat split; intro; try discriminate; lia. }
  split.
  - intros n s H. destruct H as [|j n T|n|j n s T|n s]; simpl.
    + rewrite D. destruct (h_np h); [|reflexivity]. eexists. split; [reflexivity|]. apply (X 100%Z).
    + rewrite (TR n j T). split; [reflexivity|]. do 3 f_equal. apply (TR _ j). eapply truncates_ext; [|apply Qtrunc_truncates]. ring.
    + rewrite D. destruct (h_np h); [|reflexivity]. eexists. split; [reflexivity|]. apply X.
    + rewrite (TR n j T). split; [reflexivity|]. do 3 f_equal. apply (TR _ j). apply Qtrunc_truncates.
    + rewrite D. destruct (h_np h); [|reflexivity]. eexists. split; [reflexivity|]. apply X.
  - intros N. destruct sz as [|z|l|]; destruct i as [j|]; simpl; auto.
    + exfalso. apply (N (Qtrunc (j * h_area h)) 1%Z). constructor. apply Qtrunc_truncates.
    + exfalso. apply (N 100%Z 1%Z). constructor.
    + exfalso. apply (N (Qtrunc (j * h_area h)) z). constructor. apply Qtrunc_truncates.
    + exfalso. apply (N z 1%Z). constructor.
    + destruct l as [|a [|b [|]]]; auto.
    + destruct l as [|a [|b [|]]]; auto. exfalso. apply (N a b). constructor.
Qed.
Print Assumptions C30_zero_area.
Example C30_zero_case : parse_size_and_intensity (bbox_hull (mkbox 0 0 4 0)) None SNone = Ok (100%Z, 1%Z, PInf) /\
  parse_size_and_intensity (mkhull 0 (mkbox 0 0 4 0) (fun _ => false) false) None (STuple [5; 2]%Z) = Raise ZeroDivisionError /\
  parse_size_and_intensity (bbox_hull (mkbox 0 0 4 0)) (Some 3) (SInt 7) = Ok (0%Z, 7%Z, Fin 3).
Proof. repeat split. Qed.

Definition unit_square : hull := bbox_hull (mkbox 0 0 1 1).
Definition wide : hull := bbox_hull (mkbox 0 0 4 2).

Example C30_case : documented (h_area wide) (Some (7#5)) (SInt 3) 11 3 /\
  parse_size_and_intensity wide (Some (7#5)) (SInt 3) = Ok (11%Z, 3%Z, Fin (7#5)) /\
  parse_size_and_intensity wide (Some 1) (STuple [5; 2]%Z) = Raise ValueError.
Proof.
  split; [|split; reflexivity]. constructor. split; intros H.
  - split; vm_compute; [discriminate|reflexivity].
  - exfalso. revert H. vm_compute. auto.
Qed.

(** ** C31 *)
(** Every terminating run returns the requested number of points, all of them
    inside the hull and inside its bounding box. *)
Theorem C31_poisson_in_hull : forall h i sz us a rest,
  unit_stream us -> sane_box (h_bbox h) ->
  poisson h i sz us = Val a rest ->
  exists n s it d, parse_size_and_intensity h i sz = Ok (n, s, it) /\ (0 <= n)%Z /\ (0 <= s)%Z /\
    holds_replications a d (Z.to_nat n) (Z.to_nat s) /\
    (forall p, In p (arr_points a) -> h_contains h p = true /\ in_box (h_bbox h) p) /\
    exists used, us = used ++ rest.
Proof.
  intros h i sz us a rest U S H.
  destruct (poisson_sound _ _ _ _ _ _ U S H) as [n [s [it [d [A [B [C [D [_ [F G]]]]]]]]]].
  exists n, s, it, d. auto 10.
Qed.
Print Assumptions C31_poisson_in_hull.

(** On a bounding box no draw is ever rejected: 2 n s numbers always suffice. *)
Theorem C31_poisson_box_terminates : forall b i sz us n s it,
  sane_box b -> unit_stream us ->
  parse_size_and_intensity (bbox_hull b) i sz = Ok (n, s, it) -> (0 <= n)%Z -> (0 <= s)%Z ->
  (2 * (Z.to_nat s * Z.to_nat n) <= List.length us)%nat ->
  exists a rest, poisson (bbox_hull b) i sz us = Val a rest.
Proof. exact poisson_box_terminates. Qed.
Print Assumptions C31_poisson_box_terminates.

(** For any hull: the run ends iff enough candidates of the stream are in the hull. *)
Theorem C31_poisson_terminates_iff : forall h i sz us n s it,
  parse_size_and_intensity h i sz = Ok (n, s, it) -> (0 <= n)%Z -> (0 <= s)%Z ->
  ((exists a rest, poisson h i sz us = Val a rest) <->
   (Z.to_nat s * Z.to_nat n <= count (h_contains h) (candidates (box_candidate (h_bbox h)) us))%nat).
Proof. exact poisson_terminates. Qed.
Print Assumptions C31_poisson_terminates_iff.

Definition tri : hull :=
  mkhull 8 (mkbox 0 0 4 4) (fun p => Qle_bool (fst p + snd p) 4) false.
Example C31_case : unit_stream [1#4; 1#2; 3#4; 3#4; 0; 1#8; 1#2; 1#2] /\ sane_box (h_bbox tri) /\
  exists a rest, poisson tri None (SInt 3) [1#4; 1#2; 3#4; 3#4; 0; 1#8; 1#2; 1#2] = Val a rest /\
  List.length (arr_points a) = 3%nat.
Proof.
  split; [repeat constructor; try discriminate|]. split; [split; discriminate|].
  do 2 eexists. split; [vm_compute; reflexivity|]. reflexivity.
Qed.

(** ** C32 *)
Theorem C32_shape_poisson : forall h i sz us a rest,
  poisson h i sz us = Val a rest ->
  exists n s it, parse_size_and_intensity h i sz = Ok (n, s, it) /\
    (arr_shape a = doc_shape (Z.to_nat n) (Z.to_nat s) <-> n <> 1%Z).
Proof.
  intros h i sz us a rest H.
  destruct (poisson_inv _ _ _ _ _ _ H) as [n [s [it [d [H1 [A [B [H3 ->]]]]]]]].
  exists n, s, it. split; auto.
  apply (replicate_sound (fun l => List.length l = Z.to_nat n)) in H3.
  - destruct H3 as [L F]. destruct (squeeze_points _ _ _ L F) as [P S]. rewrite S.
    split; intros; lia.
  - intros us' l r Hr. apply reject_sound in Hr. tauto.
Qed.
Print Assumptions C32_shape_poisson.

Theorem C32_shape_normal : forall h mk c sz us a rest,
  normal h mk c sz us = Val a rest ->
  exists n s it, parse_size_and_intensity h None sz = Ok (n, s, it) /\
    (arr_shape a = doc_shape (Z.to_nat n) (Z.to_nat s) <-> n <> 1%Z).
Proof.
  intros h mk c sz us a rest H.
  destruct (normal_sound _ _ _ _ _ _ _ H) as [n [s [it [d [A [_ [_ [_ [D _]]]]]]]]].
  exists n, s, it. auto.
Qed.
Print Assumptions C32_shape_normal.

Theorem C32_shape_cluster_poisson : forall h halfmin i sz k rad sss us a rest, (2 <= k)%Z ->
  cluster_poisson h halfmin i sz k rad sss us = Val a rest ->
  exists n s it, parse_size_and_intensity h i sz = Ok (n, s, it) /\
    (arr_shape a = doc_shape (Z.to_nat n) (Z.to_nat s) <-> n <> 1%Z).
Proof.
  intros h halfmin i sz k rad sss us a rest Hk H.
  destruct (cluster_poisson_inv _ _ _ _ _ _ _ _ _ _ H) as [ro [n [s [it [d [R [P [A [B [L ->]]]]]]]]]].
  exists n, s, it. split; auto. apply (cluster_loop_sound h halfmin rad) in L; auto. destruct L as [Ld F].
  assert (F1 : Forall (fun l => List.length l = Z.to_nat n) d).
  { eapply Forall_impl; [|exact F]. simpl. tauto. }
  rewrite (proj2 (squeeze_points _ _ _ Ld F1)). split; intros; lia.
Qed.
Print Assumptions C32_shape_cluster_poisson.

Theorem C32_shape_cluster_normal : forall h mk meansq cov sz k streams a covs rest, (2 <= k)%Z ->
  cluster_normal h mk meansq cov sz k streams = Val (a, covs) rest ->
  exists n s it, parse_size_and_intensity h None sz = Ok (n, s, it) /\
    (arr_shape a = doc_shape (Z.to_nat n) (Z.to_nat s) <-> n <> 1%Z).
Proof.
  intros h mk meansq cov sz k streams a covs rest Hk H.
  destruct (cluster_normal_inv _ _ _ _ _ _ _ _ _ _ H) as [n [s [it [d [P [A [B [L [-> _]]]]]]]]].
  exists n, s, it. split; auto. apply normal_loop_sound in L; auto. destruct L as [Ld [F _]].
  assert (F1 : Forall (fun l => List.length l = Z.to_nat n) (map fst d)).
  { apply Forall_forall. intros l Hl. apply in_map_iff in Hl. destruct Hl as [x [<- Hx]].
    rewrite Forall_forall in F. apply (F x Hx). }
  assert (Ld' : List.length (map fst d) = Z.to_nat s) by (rewrite map_length; auto).
  rewrite (proj2 (squeeze_points _ _ _ Ld' F1)). split; intros; lia.
Qed.
Print Assumptions C32_shape_cluster_normal.

Theorem C32_shape_strauss : forall h i sz gamma r n_iter max_iter us a rest,
  strauss h i sz gamma r n_iter max_iter us = Val a rest ->
  exists n s it, parse_size_and_intensity h i sz = Ok (n, s, it) /\
    (arr_shape a = doc_shape (Z.to_nat n) (Z.to_nat s) <-> n <> 1%Z).
Proof.
  intros h i sz gamma r n_iter max_iter us a rest H.
  destruct (strauss_inv _ _ _ _ _ _ _ _ _ _ H) as [n [s [it [d [P [A [B [L [F ->]]]]]]]]].
  exists n, s, it. split; auto.
  assert (F1 : Forall (fun l => List.length l = Z.to_nat n) d).
  { eapply Forall_impl; [|exact F]. intros l [u1 [u2 X]]. apply attempt_sound in X. tauto. }
  rewrite (proj2 (squeeze_points _ _ _ L F1)). split; intros; lia.
Qed.
Print Assumptions C32_shape_strauss.

Theorem C32_shape_refuted : exists us a rest,
  poisson unit_square None (STuple [1; 3]%Z) us = Val a rest /\
  arr_shape a <> doc_shape 1 3 /\ arr_shape a = [3; 2]%nat.
Proof.
  exists [1#2; 1#3; 1#4; 1#5; 1#6; 1#7]. do 2 eexists. split; [vm_compute; reflexivity|].
  split; [discriminate|reflexivity].
Qed.
Print Assumptions C32_shape_refuted.

Example C32_case : exists a rest,
  poisson tri None (STuple [2; 2]%Z) [1#4; 1#2; 0; 1#3; 0; 1#8; 1#2; 1#2] = Val a rest /\
  arr_shape a = [2; 2; 2]%nat.
Proof. do 2 eexists. split; [vm_compute; reflexivity|reflexivity]. Qed.

(** ** C33 *)
Theorem C33_normal_in_hull : forall h mk c sz us a rest, normal h mk c sz us = Val a rest ->
  exists n s it d, parse_size_and_intensity h None sz = Ok (n, s, it) /\ (0 <= n)%Z /\ (0 <= s)%Z /\
    holds_replications a d (Z.to_nat n) (Z.to_nat s) /\
    (forall p, In p (arr_points a) -> h_contains h p = true).
Proof.
  intros h mk c sz us a rest H.
  destruct (normal_sound _ _ _ _ _ _ _ H) as [n [s [it [d [A [B [C [D [_ F]]]]]]]]].
  exists n, s, it, d. auto 10.
Qed.
Print Assumptions C33_normal_in_hull.

Example C33_case : exists a rest,
  normal tri (fun _ u v => (1 + 2 * u, 1 + 2 * v)) (CScalar 4) (SInt 2)
    [1#4; -(1#2); 3; 3; 0; 1#8] = Val a rest /\ List.length (arr_points a) = 2%nat.
Proof. do 2 eexists. split; [vm_compute; reflexivity|reflexivity]. Qed.

(** ** C34 *)
Theorem C34_uniform_circle : forall n r c burn h us l rest,
  uniform_circle n r c burn h us = Val l rest ->
  List.length l = n /\
  (forall p, In p l -> in_disc r c p /\
     match h with Some h => h_contains h p = true | None => True end) /\
  exists used, us = used ++ rest.
Proof. exact uniform_circle_sound. Qed.
Print Assumptions C34_uniform_circle.

Example C34_case : exists l rest,
  uniform_circle 2 1 (2, 1) 2 (Some tri)
    [1#4; 1#2; 1; 1#3; 1#4; 1; 0; 1#2] = Val l rest /\ List.length l = 2%nat.
Proof. do 2 eexists. split; [vm_compute; reflexivity|reflexivity]. Qed.

(** ** C35 *)
Theorem C35_cluster_poisson : forall h halfmin i sz k rad sss us a rest, (2 <= k)%Z ->
  cluster_poisson h halfmin i sz k rad sss us = Val a rest ->
  exists n s it d, parse_size_and_intensity h i sz = Ok (n, s, it) /\ (0 <= n)%Z /\ (0 <= s)%Z /\
    holds_replications a d (Z.to_nat n) (Z.to_nat s) /\
    (forall p, In p (arr_points a) -> h_contains h p = true) /\
    (forall rep, In rep d ->
       clustered h (Z.to_nat k) (Z.to_nat n) (radii_of halfmin rad (Z.to_nat k)) rep).
Proof. exact cluster_poisson_sound. Qed.
Print Assumptions C35_cluster_poisson.

(** With fewer observations than seeds the call raises (once the seeds are drawn). *)
Theorem C35_too_few : forall h halfmin i sz k rad ss sss us n s it seeds r0 ro,
  (2 <= k)%Z -> parse_size_and_intensity h i sz = Ok (n, s, it) -> (0 <= n)%Z -> (1 <= s)%Z ->
  (n < k)%Z -> fixed_radii rad k = Ok ro ->
  poisson h None (SInt k) ss = Val seeds r0 ->
  cluster_poisson h halfmin i sz k rad (ss :: sss) us = Exc PlainException.
Proof. exact cluster_poisson_too_few. Qed.
Print Assumptions C35_too_few.

Definition seeds2 : list Q := [1#4; 1#4; 1#2; 1#4].
Example C35_case : exists a rest,
  cluster_poisson tri (fun _ => 1) None (SInt 5) 2 (RadArr [1; 1#2]) [seeds2]
    [1#2; 1#4; 1#2; 1#3; 1#2; 1#2; 1#2; 1#2;
     1#2; 1#3; 1#2; 1#2] = Val a rest /\ List.length (arr_points a) = 5%nat /\
  cluster_poisson tri (fun _ => 1) None (SInt 1) 2 (RadArr [1; 1#2]) [seeds2] [] = Exc PlainException.
Proof. do 2 eexists. split; [vm_compute; reflexivity|split; reflexivity]. Qed.

(** ** C36 *)
(** A single seed never yields a cluster of two or more points, needs an explicit
    radius, and the only point it can yield has equal coordinates. *)
Theorem C36_cluster_poisson_single_seed_refuted : forall h halfmin i sz rad sss us a rest n s it,
  cluster_poisson h halfmin i sz 1 rad sss us = Val a rest ->
  parse_size_and_intensity h i sz = Ok (n, s, it) -> (1 <= s)%Z ->
  n = 1%Z /\ rad <> RadNone /\ forall p, In p (arr_points a) -> fst p = snd p.
Proof. exact cluster_poisson_one_seed. Qed.
Print Assumptions C36_cluster_poisson_single_seed_refuted.

(** That point can lie outside the hull. *)
Theorem C36_outside_hull_refuted : exists us p rest,
  cluster_poisson wide (fun _ => 1) None (SInt 1) 1 (RadScalar 1) [us] [] = Val (Arr1 p) rest /\
  unit_stream us /\ h_contains wide p = false.
Proof.
  exists [7#8; 1#4]. do 2 eexists. split; [vm_compute; reflexivity|].
  split; [repeat constructor; discriminate|reflexivity].
Qed.
Print Assumptions C36_outside_hull_refuted.

Theorem C36_cluster_normal_single_seed_refuted : forall h mk meansq cov sz streams a rest n s it,
  parse_size_and_intensity h None sz = Ok (n, s, it) -> (1 <= s)%Z ->
  cluster_normal h mk meansq cov sz 1 streams <> Val a rest.
Proof. exact cluster_normal_one_seed. Qed.
Print Assumptions C36_cluster_normal_single_seed_refuted.

(** With two or more seeds cluster_normal does what is asked for. *)
Theorem C36_cluster_normal_many_seeds : forall h mk meansq cov sz k streams a covs rest, (2 <= k)%Z ->
  cluster_normal h mk meansq cov sz k streams = Val (a, covs) rest ->
  exists n s it d, parse_size_and_intensity h None sz = Ok (n, s, it) /\ (0 <= n)%Z /\ (0 <= s)%Z /\
    holds_replications a d (Z.to_nat n) (Z.to_nat s) /\
    (forall p, In p (arr_points a) -> h_contains h p = true).
Proof. exact cluster_normal_sound. Qed.
Print Assumptions C36_cluster_normal_many_seeds.

Example C36_case : exists a covs rest,
  cluster_normal tri (fun _ c u v => (fst c + u, snd c + v)) (fun _ => 1) CNone (SInt 4) 2
    [(seeds2, [[1#8; 1#9]; [1#7; -(1#3)]])] = Val (a, covs) rest /\
  List.length (arr_points a) = 4%nat /\ covs = [CScalar 1].
Proof. do 3 eexists. split; [vm_compute; reflexivity|split; reflexivity]. Qed.

(** ** C37 *)
Theorem C37_strauss : forall h i sz gamma r n_iter max_iter us a rest,
  strauss h i sz gamma r n_iter max_iter us = Val a rest ->
  exists n s it d, parse_size_and_intensity h i sz = Ok (n, s, it) /\ (0 <= n)%Z /\ (0 <= s)%Z /\
    holds_replications a d (Z.to_nat n) (Z.to_nat s) /\
    ((n_iter <> 0)%nat \/ n <> 1%Z \/ Qtrunc (h_area h) <> 1%Z ->
     forall p, In p (arr_points a) -> h_contains h p = true).
Proof. exact strauss_sound. Qed.
Print Assumptions C37_strauss.

(** Without iterations and with one observation the point can leave the hull. *)
Definition flat : hull := bbox_hull (mkbox 3 0 4 1).
Theorem C37_no_iteration_refuted : exists us p rest,
  strauss flat None (SInt 1) (1#10) (1#20) 0 10 us = Val (Arr1 p) rest /\
  unit_stream us /\ h_contains flat p = false.
Proof.
  exists [1#2; 1#4]. do 2 eexists. split; [vm_compute; reflexivity|].
  split; [repeat constructor; discriminate|reflexivity].
Qed.
Print Assumptions C37_no_iteration_refuted.

(** The birth-death chain never falls below the smaller of the target and the
    number of points it started from, and never leaves the hull. *)
Theorem C37_chain_invariant : forall h n gamma r iters pts us pts' rest,
  (forall p, In p pts -> h_contains h p = true) ->
  mh_loop h n gamma r iters pts us = Val pts' rest ->
  (forall p, In p pts' -> h_contains h p = true) /\
  (Z.min n (Z.of_nat (List.length pts)) <= Z.of_nat (List.length pts'))%Z.
Proof. exact mh_loop_sound. Qed.
Print Assumptions C37_chain_invariant.

Example C37_case : exists a rest,
  strauss unit_square None (SInt 2) (1#2) (1#2) 3 10
    [1#8; 1#8; 1#2; 1#2; 7#8; 7#8;
     3#4; 1#3; 1#2;   3#4; 1#4; 1#3; 1#2; 1#5; 1#2; 1#5; 1#6] = Val a rest /\
  List.length (arr_points a) = 2%nat.
Proof. do 2 eexists. split; [vm_compute; reflexivity|reflexivity]. Qed.

(** ** C38 *)
(** On a hull of area below 2/3 no request succeeds, except that a request of
    two points may return the same point twice. *)
Theorem C38_small_hull_refuted : forall h i sz gamma r n_iter max_iter us a rest n s it,
  0 <= h_area h -> h_area h < 2 # 3 ->
  parse_size_and_intensity h i sz = Ok (n, s, it) -> (1 <= n)%Z -> (1 <= s)%Z ->
  strauss h i sz gamma r n_iter max_iter us = Val a rest ->
  n = 2%Z /\ exists d, holds_replications a d 2 (Z.to_nat s) /\
    forall rep, In rep d -> exists p, rep = [p; p].
Proof.
  intros h i sz gamma r n_iter max_iter us a rest n s it A0 A P Hn Hs H.
  destruct (strauss_inv _ _ _ _ _ _ _ _ _ _ H) as [n' [s' [it' [d [P' [_ [_ [L [F ->]]]]]]]]].
  rewrite P in P'. inversion P'; subst n' s' it'. clear P'.
  assert (F' : Forall (fun l => Z.to_nat n = 2%nat /\ exists p, l = [p; p]) d).
  { eapply Forall_impl; [|exact F]. intros l [u1 [u2 X]]. eapply attempt_small; eauto. lia. }
  assert (N : Z.to_nat n = 2%nat).
  { destruct d as [|l d]; [simpl in L; lia|]. inversion F' as [|? ? [E _] _]. exact E. }
  split; [lia|]. exists d. rewrite N. rewrite Forall_forall in F'. split.
  - apply squeeze_holds; auto. apply Forall_forall. intros l Hl. destruct (F' l Hl) as [_ [p ->]]. auto.
  - intros rep Hr. apply (F' rep Hr).
Qed.
Print Assumptions C38_small_hull_refuted.

(** One point on a hull whose area truncates to 1 (with the default number of
    iterations): never a result. *)
Theorem C38_single_point_refuted : forall h gamma r n_iter max_iter us a rest,
  1 <= h_area h -> h_area h < 2 -> (1 <= n_iter)%nat ->
  strauss h None (SInt 1) gamma r n_iter max_iter us <> Val a rest.
Proof.
  intros h gamma r n_iter max_iter us a rest A1 A2 Hi H.
  destruct (strauss_inv _ _ _ _ _ _ _ _ _ _ H) as [n' [s' [it' [d [P' [_ [_ [L [F _]]]]]]]]].
  simpl in P'. apply bind_ok in P'. destruct P' as [q [_ P']]. inversion P'; subst n' s' it'.
  destruct d as [|l d]; [simpl in L; lia|]. inversion F as [|? ? [u1 [u2 X]] _]; subst.
  revert X. apply attempt_single; auto.
  rewrite Qtrunc_nonneg by lra. apply Qfloor_spec. change (inject_Z 1) with 1. lra.
Qed.
Print Assumptions C38_single_point_refuted.

Definition half : hull := bbox_hull (mkbox 0 0 1 (1#2)).
Example C38_case :
  strauss half None (SInt 3) 1 (1#20) 2 1
    [1#2; 1#4; 1#3; 1#3; 0; 0; 1#2; 1#2; 1#3; 1#5; 1#2; 1#2; 1#2; 1#2] = Exc RuntimeError /\
  exists a rest, strauss half None (SInt 2) 1 (1#20) 1 1 [1#2; 1#4; 3#4] = Val a rest.
Proof.
  split; [vm_compute; reflexivity|]. do 2 eexists. vm_compute. reflexivity.
Qed.
