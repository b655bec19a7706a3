(** Lemmas for the Ripley tests as a whole. *)
From Coq Require Import ZArith QArith Qabs Qminmax List Bool String Lia Lqa.
From Verif Require Import Base BaseLemmas Spec Quadrat_model Geometry_model Random_model Random_spec Random_proofs
  Pattern_spec Pattern_proofs Pairs_proofs DistStats_proofs Random_props DistStats_props DistStatsHull_props
  DistStats_model DistStats_spec Ripley_model Ripley_spec.
Import ListNotations.
Local Open Scope Q_scope.

Lemma suffix_refl : forall us : list Q, exists used, us = used ++ us.
Proof. intros. exists []. reflexivity. Qed.
Lemma suffix_trans : forall a b c : list Q, (exists u, a = u ++ b) -> (exists u, b = u ++ c) -> exists u, a = u ++ c.
Proof. intros a b c [u ->] [v ->]. exists (u ++ v). rewrite app_assoc. reflexivity. Qed.
Lemma unit_suffix : forall a b, unit_stream a -> (exists u, a = u ++ b) -> unit_stream b.
Proof. intros a b U [u ->]. apply unit_stream_app in U. apply U. Qed.

Section Proofs.
Variable sk : option (list string * list string).
Variable query : metric -> list pt -> pt -> nat -> row.
Variable dist : metric -> pt -> pt -> Q.
Variable shape : list pt -> hullres -> hull.
Variable interp : list Q -> list xq -> list Q -> list xq.

Lemma simulations_inv : forall V (one : list Q -> run (list V)) ns us sims rest,
  simulations one ns us = Val sims rest ->
  List.length sims = ns /\ forall v, In v sims -> exists us1 us2, one us1 = Val v us2.
Proof.
  intros V one. induction ns as [|ns IH]; intros us sims rest H; simpl in H.
  - inversion H; subst. split; [reflexivity|intros v []].
  - apply rbind_val in H. destruct H as [v [us1 [H1 H]]]. apply rbind_val in H. destruct H as [vs [us2 [H2 H]]].
    inversion H; subst. destruct (IH _ _ _ H2) as [L F]. split; [simpl; lia|].
    intros w [<-|W]; [eauto|apply F; auto].
Qed.

(** The same with the part of the stream each simulation starts from. *)
Lemma simulations_suffix : forall V (one : list Q -> run (list V)) ns us sims rest,
  (forall us v us', one us = Val v us' -> exists used, us = used ++ us') ->
  simulations one ns us = Val sims rest ->
  (exists used, us = used ++ rest) /\
  forall v, In v sims -> exists us1 us2, (exists used, us = used ++ us1) /\ one us1 = Val v us2.
Proof.
  intros V one. induction ns as [|ns IH]; intros us sims rest S1 H; simpl in H.
  - inversion H; subst. split; [apply suffix_refl|intros v []].
  - apply rbind_val in H. destruct H as [v [us1 [H1 H]]]. apply rbind_val in H. destruct H as [vs [us2 [H2 H]]].
    inversion H; subst. destruct (IH _ _ _ S1 H2) as [L F]. pose proof (S1 _ _ _ H1) as SX.
    split; [eapply suffix_trans; eauto|].
    intros w [<-|W].
    + exists us, us1. split; [apply suffix_refl|exact H1].
    + destruct (F w W) as [a [b [A B]]]. exists a, b. split; [eapply suffix_trans; eauto|exact B].
Qed.

Lemma simulations_map : forall V W (f : list V -> list W) one1 one2,
  (forall us, one2 us = match one1 us with Val v r => Val (f v) r | Exc e => Exc e | Short => Short end) ->
  forall ns us, simulations one2 ns us =
    match simulations one1 ns us with Val v r => Val (map f v) r | Exc e => Exc e | Short => Short end.
Proof.
  intros V W f one1 one2 H. induction ns as [|ns IH]; intros us; simpl; [reflexivity|].
  rewrite H. destruct (one1 us) as [v r|e|]; simpl; auto. rewrite IH.
  destruct (simulations one1 ns r); reflexivity.
Qed.

Lemma test_run_inv : forall V (ge : V -> V -> bool) nan c stat coords s d m user edge keep ns us o rest,
  test_run sk query shape ge nan c stat coords s d m user edge keep ns us = Val o rest ->
  exists h empty us1 dd sup obs us2 sims,
    prepare_hull coords user = Ok h /\
    match c with
    | TF | TJ => exists a, empty_space_points coords us = Val a us1 /\ a = Arr2 empty
    | _ => empty = [] /\ us1 = us
    end /\
    match d with TDNone => test_distances query c (other_distances query) m coords empty = Ok dd | _ => dd = d end /\
    stat coords s dd m (as_arg 0 h) edge us1 = Val (sup, obs) us2 /\
    simulations (one_simulation query c stat (List.length coords) (hull_seen shape coords h) (as_arg 0 h) m edge empty sup)
      (Z.to_nat ns) us2 = Val sims rest /\
    o = mkoutcome sup obs (match sims with
              | [] => map (fun _ => NaN) sup
              | _ => map (fun j => Fin (pvalue_of ge nan ns sims obs j)) (seq 0 (List.length obs))
              end) (if keep then Some sims else None).
Proof using sk query shape.
  clear dist interp.
  intros V ge nan c stat coords s d m user edge keep ns us o rest H. unfold test_run in H.
  apply rbind_val in H. destruct H as [tr [ua [H0 H]]]. apply lift_val in H0. destruct H0 as [_ ->].
  apply rbind_val in H. destruct H as [h [ub [H1 H]]]. apply lift_val in H1. destruct H1 as [H1 ->].
  cbv zeta in H. apply rbind_val in H. destruct H as [empty [us1 [H2 H]]].
  apply rbind_val in H. destruct H as [dd [uc [H3 H]]].
  apply rbind_val in H. destruct H as [[sup obs] [us2 [H4 H]]].
  apply rbind_val in H. destruct H as [sims [ud [H5 H]]]. inversion H; subst ud o.
  assert (E3 : match d with TDNone => test_distances query c (other_distances query) m coords empty = Ok dd | _ => dd = d end /\ uc = us1).
  { destruct d; [apply lift_val in H3; tauto| |]; inversion H3; auto. }
  destruct E3 as [E3 ->].
  exists h, empty, us1, dd, sup, obs, us2, sims. split; [exact H1|]. split.
  - destruct c; try (inversion H2; auto; fail); apply rbind_val in H2; destruct H2 as [a [ue [A1 A2]]]; apply lift_val in A2;
      destruct A2 as [A2 ->]; exists a; (split; [exact A1|]); destruct a; try discriminate; inversion A2; reflexivity.
  - repeat split; auto.
Qed.

Lemma pvalue_of_zero : forall V (ge : V -> V -> bool) nan ns sims obs j,
  (0 < ns)%Z -> List.length sims = Z.to_nat ns ->
  (forall v, In v sims -> ge (nth j v nan) (nth j obs nan) = true) ->
  pvalue_of ge nan ns sims obs j == 0.
Proof.
  intros V ge nan ns sims obs j N L H. unfold pvalue_of. rewrite count_all by exact H. rewrite L, Z2Nat.id by lia.
  cbv zeta. assert (P : 0 < inject_Z (ns + 1)) by (apply inject_Z_pos; lia).
  assert (E : inject_Z (ns + 1) / inject_Z (ns + 1) == 1) by (field; lra).
  rewrite E. rewrite Q.min_r; lra.
Qed.

(** From the values at one place of the support to the p-value there. *)
Lemma zero_at : forall V (ge : V -> V -> bool) nan c stat coords s d m user edge keep ns us o rest j,
  test_run sk query shape ge nan c stat coords s d m user edge keep ns us = Val o rest -> (0 < ns)%Z ->
  (j < List.length (o_statistic o))%nat ->
  (forall h pts empty e d us v us', test_distances query c (nearest_distances query) m pts empty = Ok d ->
     stat pts (SupArr (o_support o)) d m h edge us = Val (e, v) us' ->
     (forall sims, o_sims o = Some sims -> In v sims) ->
     ge (nth j v nan) (nth j (o_statistic o) nan) = true) ->
  exists p, nth j (o_pvalue o) NaN = Fin p /\ p == 0.
Proof using sk query shape.
  clear dist interp.
  intros V ge nan c stat coords s d m user edge keep ns us o rest j H N J G.
  apply test_run_inv in H. destruct H as [h [empty [us1 [dd [sup [obs [us2 [sims [H1 [H2 [H3 [H4 [H5 ->]]]]]]]]]]]]].
  cbn [o_statistic o_support o_pvalue] in *. destruct (simulations_inv _ _ _ _ _ _ H5) as [L F].
  assert (P : pvalue_of ge nan ns sims obs j == 0).
  { apply pvalue_of_zero; auto. intros v Hv. destruct (F v Hv) as [ua [ub O]].
    unfold one_simulation in O. apply rbind_val in O. destruct O as [a [uc [_ O]]]. apply rbind_val in O. destruct O as [pts [ue [_ O]]].
    apply rbind_val in O. destruct O as [d1 [uf [O0 O]]]. apply lift_val in O0. destruct O0 as [O0 _]. apply rbind_val in O. destruct O as [[e w] [ug [O1 O]]].
    inversion O; subst. eapply G; eauto. cbn [o_sims]. intros ss. destruct keep; intro X; inversion X; subst; exact Hv. }
  exists (pvalue_of ge nan ns sims obs j). split; [|exact P].
  destruct sims as [|v0 sims]; [simpl in L; lia|].
  rewrite (nth_indep _ NaN (Fin (pvalue_of ge nan ns (v0 :: sims) obs 0))) by (rewrite map_length, seq_length; exact J).
  rewrite (map_nth (fun j => Fin (pvalue_of ge nan ns (v0 :: sims) obs j))), seq_nth by exact J. reflexivity.
Qed.

(** ** The statistics *)
Lemma f_fun_inv : forall coords s d m h edge us sup v us',
  f_fun query shape coords s d m h edge us = Val (sup, v) us' ->
  exists m' hr l, prepare coords s d m h edge (nnd query coords) = Ok (sup, m', hr) /\ cdf l sup = Ok v /\
    (d <> DNone -> f_distances (List.length coords) d [] = Ok l /\ us' = us).
Proof.
  intros coords s d m h edge us sup v us' H. unfold f_fun in H.
  apply rbind_val in H. destruct H as [[[sup' m'] hr] [ua [H1 H]]]. apply lift_val in H1. destruct H1 as [H1 ->].
  assert (X : d = DNone \/ d <> DNone) by (destruct d; [left|right..]; congruence).
  destruct X as [->|X].
  - apply rbind_val in H. destruct H as [a [ub [_ H]]]. apply rbind_val in H. destruct H as [rs [uc [_ H]]].
    apply rbind_val in H. destruct H as [e [ud [_ H]]]. apply rbind_val in H. destruct H as [w [ue [H2 H]]].
    apply lift_val in H2. destruct H2 as [H2 ->]. inversion H; subst. unfold f_stat in H2. cbn [f_distances bind] in H2.
    exists m', hr, e. split; [exact H1|]. split; [exact H2|]. congruence.
  - assert (H' : rbind (lift (f_stat (List.length coords) sup' d []) us) (fun v us => Val (sup', v) us) = Val (sup, v) us')
      by (destruct d; [congruence|exact H..]).
    clear H. apply rbind_val in H'. destruct H' as [w [ue [H2 H]]]. apply lift_val in H2. destruct H2 as [H2 ->].
    inversion H; subst. unfold f_stat in H2. destruct (f_distances (List.length coords) d []) as [l|] eqn:E; [|discriminate].
    exists m', hr, l. split; [exact H1|]. split; [exact H2|]. auto.
Qed.

Lemma g_fun_inv : forall coords s d m edge sup v, g_fun query coords s d m edge = Ok (sup, v) ->
  exists m' hr l, prepare coords s d m HNone edge (nnd query coords) = Ok (sup, m', hr) /\ cdf l sup = Ok v /\
    g_distances (List.length coords) d (nnd query coords m') = Ok l.
Proof.
  intros coords s d m edge sup v H. unfold g_fun in H.
  destruct (prepare coords s d m HNone edge (nnd query coords)) as [[[sup' m'] hr]|] eqn:E; [|discriminate].
  cbn [bind] in H. unfold g_stat in H.
  destruct (g_distances (List.length coords) d (nnd query coords m')) as [l|] eqn:G; [|discriminate]. cbn [bind] in H.
  destruct (cdf l sup') as [w|] eqn:C; [|discriminate]. cbn [bind] in H. inversion H; subst. exists m', hr, l. auto.
Qed.

Lemma k_fun_inv : forall coords s d m edge sup v, k_fun query dist coords s d m edge = Ok (sup, v) ->
  exists m' b l, prepare coords s d m HNone edge (nnd query coords) = Ok (sup, m', RBox b) /\ 
    compute_mbb coords = Ok b /\ (1 <= List.length coords)%nat /\
    k_distances (List.length coords) d
      (pdist (List.length coords) (fun i j => dist m' (nth i coords (0, 0)) (nth j coords (0, 0)))) = Ok l /\
    v = map (k_value (List.length coords) (box_area b) l) sup.
Proof.
  intros coords s d m edge sup v H. unfold k_fun in H.
  destruct (prepare coords s d m HNone edge (nnd query coords)) as [[[sup' m'] hr]|] eqn:E; [|discriminate].
  cbn [bind] in H. destruct hr as [b| | | | |]; try discriminate.
  unfold k_stat in H.
  destruct (k_distances (List.length coords) d (pdist (List.length coords) (fun i j => dist m' (nth i coords (0, 0)) (nth j coords (0, 0)))))
    as [l|] eqn:K; [|discriminate]. cbn [bind] in H. inversion H; subst.
  exists m', b, l. split; [reflexivity|]. split.
  - unfold prepare in E. destruct edge; [discriminate|]. cbn [prepare_hull] in E.
    destruct (compute_mbb coords) as [b'|]; [|discriminate]. cbn [bind] in E.
    destruct (is_none d && _); [discriminate|]. destruct m; try discriminate;
      (destruct (make_support _ s); [|discriminate]; cbn [bind] in E; inversion E; reflexivity).
  - split; [|split; [exact K|reflexivity]]. destruct coords; [|simpl; lia].
    unfold prepare in E. destruct edge; discriminate.
Qed.

Lemma prepare_array : forall coords l d m h edge nn sup m' hr,
  prepare coords (SupArr l) d m h edge nn = Ok (sup, m', hr) -> sup = l.
Proof.
  intros coords l d m h edge nn sup m' hr H. unfold prepare in H. destruct edge; [discriminate|].
  destruct (prepare_hull coords h); [|discriminate]. cbn [bind] in H. destruct (is_none d && _); [discriminate|].
  destruct m; try discriminate; cbn in H; inversion H; reflexivity.
Qed.

Lemma prepare_metric : forall coords s m h edge nn sup m' hr,
  prepare coords s DNone m h edge nn = Ok (sup, m', hr) -> m' = m.
Proof.
  intros coords s m h edge nn sup m' hr H. unfold prepare in H. destruct edge; [discriminate|].
  destruct (prepare_hull coords h); [|discriminate]. cbn [bind] in H. destruct (is_none DNone && _); [discriminate|].
  destruct m; try discriminate; cbn [is_none] in H; (destruct (make_support _ s); [|discriminate]; cbn [bind] in H; inversion H; reflexivity).
Qed.

Lemma cdf_first : forall l e v, cdf l e = Ok v -> nth 0 v NaN = Fin 0 /\ (0 < List.length v)%nat.
Proof.
  intros l e v H. unfold cdf in H. destruct (histogram l e); [|discriminate]. cbn [bind] in H. inversion H. simpl. split; [reflexivity|lia].
Qed.

(** The last value is 1, or NaN when no distance lies on the support. *)
Lemma cdf_last : forall l e v, (2 <= List.length e)%nat -> cdf l e = Ok v ->
  List.length v = List.length e /\
  (nth (List.length e - 1) v NaN = NaN \/ exists q, nth (List.length e - 1) v NaN = Fin q /\ q == 1).
Proof.
  intros l e v L H. destruct (cdf_spec l e v L H) as [_ [A [_ B]]]. split; [exact A|].
  rewrite B by lia. unfold xdiv.
  set (c := count (below e (List.length e - 1)) l). destruct c as [|c].
  - left. reflexivity.
  - right. assert (P : 0 < inject_Z (Z.of_nat (S c))) by (apply inject_Z_pos; lia).
    assert (E : Qeq_bool (inject_Z (Z.of_nat (S c))) 0 = false) by (apply Qeqb_neq; lra).
    rewrite E. eexists. split; [reflexivity|]. field. lra.
Qed.

(** ** The distances *)
Lemma nearest_closest : forall m pts qs l, good_tree query dist -> nearest_distances query m pts qs = Ok l ->
  closest (dist m) any_point pts qs l.
Proof using query dist.
  clear sk shape interp. intros m pts qs l G H. unfold nearest_distances in H.
  assert (N : (1 <= List.length pts)%nat) by (destruct pts; simpl; [discriminate|lia]).
  assert (E : l = map (fun p => match query m pts p 1 with e :: _ => fst e | [] => 0 end) qs) by (destruct pts; [discriminate|inversion H; reflexivity]).
  clear H. subst l. split; [apply map_length|]. intros i I.
  set (F := fun p => match query m pts p 1 with e :: _ => fst e | [] => 0 end).
  rewrite (nth_indep _ 0 (F (0, 0))) by (rewrite map_length; exact I). rewrite map_nth. unfold F.
  destruct (G m pts (nth i qs (0, 0)) 1%nat N) as [[L [ND [B [S1 F1]]]] D].
  destruct (query m pts (nth i qs (0, 0)) 1) as [|[d j] [|]]; try discriminate. simpl in *.
  exists j. split; [apply B; auto|]. split; [exact Logic.I|]. split; [apply D; auto|].
  intros k K _. destruct (Nat.eq_dec k j) as [->|NE]; [apply Qle_refl|]. apply F1; auto. intros [X|[]]; auto.
Qed.

Lemma other_closest : forall m pts qs l, good_tree query dist -> other_distances query m pts qs = Ok l ->
  closest (dist m) other_number pts qs l.
Proof using query dist.
  clear sk shape interp. intros m pts qs l G H. unfold other_distances in H.
  destruct (Nat.ltb_spec (List.length pts) 2) as [|N]; [discriminate|].
  destruct (C26_exact_value (fun i => query m pts (nth i qs (0, 0)) 2) (List.length qs) (List.length pts)
             (fun i j => dist m (nth i qs (0, 0)) (nth j pts (0, 0)))) as [l' [E [L V]]].
  { intros i I. exact (G m pts (nth i qs (0, 0)) 2%nat N). }
  rewrite H in E. inversion E; subst l'. split; [exact L|]. exact V.
Qed.

Lemma cdf_cumulative : forall d e v, (2 <= List.length e)%nat -> cdf d e = Ok v -> cumulative e d v.
Proof.
  intros d e v L H. destruct (cdf_spec d e v L H) as [_ [A [B _]]]. split; [exact A|]. split; [exact B|].
  apply C52_cdf_values; auto.
Qed.

(** ** The simulated patterns *)
Lemma simulated_in_hull : forall h n us a rest pts, unit_stream us -> sane_box (h_bbox h) ->
  simulated_pattern h n us = Val a rest -> two_dim a = Ok pts ->
  List.length pts = n /\ (forall x, In x pts -> h_contains h x = true) /\ exists used, us = used ++ rest.
Proof.
  intros h n us a rest pts U SB H T. unfold simulated_pattern in H.
  destruct (C31_poisson_in_hull _ _ _ _ _ _ U SB H) as [z [s [it [d [P [_ [_ [[D1 [D2 D3]] [I SF]]]]]]]]].
  destruct a as [|l|]; try discriminate. inversion T; subst l. cbn [arr_points] in *.
  assert (NS : z = Z.of_nat n /\ s = 1%Z).
  { unfold parse_size_and_intensity in P. destruct (div_area (Z.of_nat n) h); inversion P; auto. }
  destruct NS as [-> ->]. rewrite Nat2Z.id in D2. destruct d as [|l [|]]; try discriminate.
  simpl in D3. rewrite app_nil_r in D3. subst pts. inversion D2; subst. split; [reflexivity|].
  split; [intros x X; apply I; exact X|exact SF].
Qed.

Definition simulated_of {V : Type} (c : calltype) (stat : statistic V) (n : nat) (h : hull) (hu : hullarg)
    (m : metric) (edge : bool) (empty : list pt) (sup : list Q) (p : list pt) (v : list V) : Prop :=
  List.length p = n /\ (forall x, In x p -> h_contains h x = true) /\
  exists d us us' sup', test_distances query c (nearest_distances query) m p empty = Ok d /\
    stat p (SupArr sup) d m hu edge us = Val (sup', v) us'.

Lemma simulations_patterns : forall V c (stat : statistic V) n h hu m edge empty sup,
  sane_box (h_bbox h) ->
  (forall p d us sv us', test_distances query c (nearest_distances query) m p empty = Ok d ->
     stat p (SupArr sup) d m hu edge us = Val sv us' -> us' = us) ->
  forall ns us sims rest, unit_stream us ->
  simulations (one_simulation query c stat n h hu m edge empty sup) ns us = Val sims rest ->
  exists pats, Forall2 (simulated_of c stat n h hu m edge empty sup) pats sims.
Proof using query.
  clear sk dist shape interp. intros V c stat n h hu m edge empty sup SB ST.
  induction ns as [|ns IH]; intros us sims rest U H; simpl in H.
  - inversion H; subst. exists []. constructor.
  - apply rbind_val in H. destruct H as [v [us1 [H1 H]]]. apply rbind_val in H. destruct H as [vs [us2 [H2 H]]].
    inversion H; subst. unfold one_simulation in H1.
    apply rbind_val in H1. destruct H1 as [a [u1 [A1 H1]]]. apply rbind_val in H1. destruct H1 as [pts [u2 [A2 H1]]].
    apply lift_val in A2. destruct A2 as [A2 ->]. apply rbind_val in H1. destruct H1 as [d [u3 [A3 H1]]].
    apply lift_val in A3. destruct A3 as [A3 ->]. apply rbind_val in H1. destruct H1 as [[sup' w] [u4 [A4 H1]]].
    inversion H1; subst. destruct (simulated_in_hull _ _ _ _ _ _ U SB A1 A2) as [L [C SF]].
    pose proof (ST _ _ _ _ _ A3 A4). subst u1.
    destruct (IH us1 vs rest) as [pats FP]; [eapply unit_suffix; eauto|exact H2|].
    exists (pts :: pats). constructor; [|exact FP]. split; [exact L|]. split; [exact C|]. exists d, us1, us1, sup'. auto.
Qed.

(** Everything about a test without distances given by the caller. *)
Lemma test_shape : forall V (ge : V -> V -> bool) nan c stat coords s m user edge keep ns us o rest,
  test_run sk query shape ge nan c stat coords s TDNone m user edge keep ns us = Val o rest ->
  unit_stream us ->
  (forall h, prepare_hull coords user = Ok h -> sane_box (h_bbox (hull_seen shape coords h))) ->
  (forall p empty nn s d hu us sv us', test_distances query c nn m p empty = Ok d ->
     stat p s d m hu edge us = Val sv us' -> us' = us) ->
  exists h empty dd u1 u2 sims pats,
    prepare_hull coords user = Ok h /\
    match c with TF | TJ => List.length empty = 1000%nat /\ exists b, tight_box b coords /\ forall p, In p empty -> in_box b p
               | _ => empty = [] end /\
    test_distances query c (other_distances query) m coords empty = Ok dd /\
    stat coords s dd m (as_arg 0 h) edge u1 = Val (o_support o, o_statistic o) u2 /\
    List.length sims = Z.to_nat ns /\
    Forall2 (simulated_of c stat (List.length coords) (hull_seen shape coords h) (as_arg 0 h) m edge empty (o_support o)) pats sims /\
    o_sims o = (if keep then Some sims else None) /\
    ((0 < ns)%Z -> o_pvalue o = map (fun j => Fin (pvalue_of ge nan ns sims (o_statistic o) j)) (seq 0 (List.length (o_statistic o)))).
Proof using sk query shape.
  clear dist interp. intros V ge nan c stat coords s m user edge keep ns us o rest H U SB ST.
  apply test_run_inv in H. destruct H as [h [empty [us1 [dd [sup [obs [us2 [sims [H1 [H2 [H3 [H4 [H5 ->]]]]]]]]]]]]].
  cbn [o_support o_statistic o_sims o_pvalue].
  assert (E2 : unit_stream us1 /\ match c with TF | TJ => List.length empty = 1000%nat /\ exists b, tight_box b coords /\ forall p, In p empty -> in_box b p
               | _ => empty = [] end).
  { assert (X : forall a, empty_space_points coords us = Val a us1 -> a = Arr2 empty ->
       unit_stream us1 /\ List.length empty = 1000%nat /\ exists b, tight_box b coords /\ forall p, In p empty -> in_box b p).
    { intros a A1 ->. destruct (C84_empty_space_in_bbox _ _ _ _ U A1) as [b [T [L I]]]. split; [|split; [exact L|eauto]].
      unfold empty_space_points in A1. apply rbind_val in A1. destruct A1 as [b' [u [B1 A1]]]. apply lift_val in B1. destruct B1 as [B1 ->].
      assert (SN : sane_box (h_bbox (bbox_hull b'))) by (apply tight_box_sane with (pts := coords); apply mbb_tight_box; exact B1).
      destruct (C31_poisson_in_hull _ _ _ _ _ _ U SN A1) as [z [s0 [it [d [_ [_ [_ [_ [_ SF]]]]]]]]]. eapply unit_suffix; eauto. }
    destruct c; try (destruct H2 as [-> ->]; auto; fail); destruct H2 as [a [A1 A2]]; destruct (X a A1 A2); auto. }
  destruct E2 as [U1 E2]. pose proof (ST _ _ _ _ _ _ _ _ _ H3 H4). subst us2.
  destruct (simulations_patterns V c stat (List.length coords) (hull_seen shape coords h) (as_arg 0 h) m edge empty sup (SB h H1)) with
    (ns := Z.to_nat ns) (us := us1) (sims := sims) (rest := rest) as [pats FP]; auto.
  { intros p d u sv u' A B. eapply ST; eauto. }
  exists h, empty, dd, us1, us1, sims, pats. destruct (simulations_inv _ _ _ _ _ _ H5) as [L _].
  split; [exact H1|]. split; [exact E2|]. split; [exact H3|]. split; [exact H4|]. split; [exact L|]. split; [exact FP|]. split; [reflexivity|].
  intros N. destruct sims; [simpl in L; lia|reflexivity].
Qed.
End Proofs.
