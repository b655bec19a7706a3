(** Forms of the arguments of the simulators. Property C155. *)
From Coq Require Import ZArith QArith Qabs List Bool Lia.
From Verif Require Import Base Quadrat_model Geometry_model Random_model Random_spec Random_proofs Pattern_spec Pattern_proofs Forms_model.
Import ListNotations.
Local Open Scope Q_scope.

(** The region that an argument stands for: a box of four numbers, the tight box
    of an array of points, or the geometry itself. Only arrays and geometries
    stand for a region. *)
Inductive Region : hullform -> hull -> Prop :=
| Region_box : forall x0 y0 x1 y1, Region (FArray (Vec [x0; y0; x1; y1])) (bbox_hull (mkbox x0 y0 x1 y1))
| Region_points : forall p b, compute_mbb p = Ok b -> Region (FArray (Pts p)) (bbox_hull b)
| Region_geometry : forall h, Region (FGeom h) h.

(** An array of two or three dimensions, or no array. *)
Definition matrix_like (c : cov_arg) : Prop := match c with CArr [] | CArr [_] => False | _ => True end.

Lemma reject_same : forall mk ok okr us, (forall p, okr p = Ok (ok p)) -> forall n, reject_form mk okr us n = reject mk ok us n.
Proof.
  intros mk ok okr us E. assert (W : forall k us n, (List.length us <= k)%nat -> reject_form mk okr us n = reject mk ok us n).
  { induction k as [|k IH]; intros [|u [|v us']] [|n] L; cbn [List.length] in L; try lia; try reflexivity.
    cbn [reject_form reject]. rewrite E. destruct (ok (mk u v)); [rewrite (IH us' n) by lia; reflexivity|apply IH; lia]. }
  intros n. apply (W (List.length us)). lia.
Qed.

Lemma replicate_same : forall f g, (forall us, f us = g us) -> forall s us, replicate f s us = replicate g s us.
Proof. intros f g E. induction s as [|s IH]; intros us; cbn [replicate]; [reflexivity|]. rewrite E. destruct (g us) as [a r|e|]; cbn [rbind]; [rewrite IH|..]; reflexivity. Qed.
Lemma replicate_i_same : forall f g, (forall i us, f i us = g i us) -> forall s i us, replicate_i f i s us = replicate_i g i s us.
Proof. intros f g E. induction s as [|s IH]; intros i us; cbn [replicate_i]; [reflexivity|]. rewrite E. destruct (g i us) as [a r|e|]; cbn [rbind]; [rewrite IH|..]; reflexivity. Qed.

Lemma parse_geom : forall h i sz, form_parse (FGeom h) i sz = let! r := parse_size_and_intensity h i sz in Ok (fst (fst r), snd (fst r)).
Proof.
  intros h i [|z|[|n [|s [|x l]]]|]; destruct i as [i|]; try reflexivity; cbn [form_parse form_area bind parse_size_and_intensity];
    unfold div_area; cbn [h_area h_np]; destruct (Qeq_bool (h_area h) 0 && negb (h_np h)); reflexivity.
Qed.

Lemma poisson_geom : forall h i sz us, poisson_form (FGeom h) i sz us = poisson h i sz us.
Proof.
  intros h i sz us. unfold poisson_form, poisson. cbn [enter lift rbind]. rewrite parse_geom.
  destruct (parse_size_and_intensity h i sz) as [[[n s] it]|e]; cbn [bind lift rbind fst snd]; [|reflexivity].
  destruct (alloc n s) as [[n' s']|e]; cbn [lift rbind form_bbox]; [|reflexivity].
  rewrite (replicate_same _ (fun us => reject (box_candidate (h_bbox h)) (h_contains h) us n')); [reflexivity|].
  intros vs. apply reject_same. reflexivity.
Qed.

Lemma normal_geom : forall h g mk c sz us, matrix_like c -> normal_form (FGeom h) g mk c sz us = normal h mk c sz us.
Proof.
  intros h g mk c sz us M. unfold normal_form, normal. cbn [enter lift rbind].
  replace (if g then Ok tt else form_centroid (FGeom h)) with (@Ok unit tt) by (destruct g; reflexivity). cbn [lift rbind]. rewrite parse_geom.
  destruct (parse_size_and_intensity h None sz) as [[[n s] it]|e]; cbn [bind lift rbind fst snd form_bbox]; [|reflexivity].
  destruct (check_cov c s) as [[]|e]; cbn [lift rbind]; [|reflexivity]. destruct (alloc n s) as [[n' s']|e]; cbn [lift rbind]; [|reflexivity].
  rewrite (replicate_i_same _ (fun i us => reject (mk i) (h_contains h) us n')); [reflexivity|].
  intros i vs. replace (diagonal_ok c) with true by (destruct c as [|q|[|a [|b l]]|]; try reflexivity; destruct M). apply reject_same. reflexivity.
Qed.

(** A box given as an array does what the box as a geometry does. *)
Lemma box_array : forall x0 y0 x1 y1 i sz us,
  poisson_form (FArray (Vec [x0; y0; x1; y1])) i sz us = poisson_form (FGeom (bbox_hull (mkbox x0 y0 x1 y1))) i sz us.
Proof.
  intros. unfold poisson_form. cbn [enter lift rbind].
  replace (form_parse (FArray (Vec [x0; y0; x1; y1])) i sz) with (form_parse (FGeom (bbox_hull (mkbox x0 y0 x1 y1))) i sz) by reflexivity.
  destruct (form_parse _ i sz) as [[n s]|e]; cbn [lift rbind]; [|reflexivity]. destruct (alloc n s) as [[n' s']|e]; cbn [lift rbind form_bbox geo_bbox bbox_hull h_bbox]; reflexivity.
Qed.
Lemma box_array_normal : forall x0 y0 x1 y1 g mk c sz us,
  normal_form (FArray (Vec [x0; y0; x1; y1])) g mk c sz us = normal_form (FGeom (bbox_hull (mkbox x0 y0 x1 y1))) g mk c sz us.
Proof.
  intros. unfold normal_form. cbn [enter lift rbind].
  replace (if g then Ok tt else form_centroid (FArray (Vec [x0; y0; x1; y1]))) with (@Ok unit tt) by (destruct g; reflexivity).
  replace (if g then Ok tt else form_centroid (FGeom (bbox_hull (mkbox x0 y0 x1 y1)))) with (@Ok unit tt) by (destruct g; reflexivity).
  reflexivity.
Qed.

(** ** C155 *)
(** Arrays and geometries: the simulation of the region that they stand for. *)
Theorem C155_accepted : forall f h, Region f h ->
  (forall i sz us, poisson_form f i sz us = poisson h i sz us) /\
  (forall given mk c sz us, matrix_like c -> normal_form f given mk c sz us = normal h mk c sz us).
Proof.
  intros f h R. destruct R as [x0 y0 x1 y1|p b H|h].
  - split; intros; [rewrite box_array; apply poisson_geom|rewrite box_array_normal; apply normal_geom; assumption].
  - split; intros.
    + rewrite <- poisson_geom. unfold poisson_form. cbn [enter geo_bbox]. rewrite H. reflexivity.
    + rewrite <- (normal_geom (bbox_hull b) given) by assumption. unfold normal_form. cbn [enter geo_bbox]. rewrite H. reflexivity.
  - split; intros; [apply poisson_geom|apply normal_geom; assumption].
Qed.
Print Assumptions C155_accepted.

(** An array of points: every simulated point lies between points of the array. *)
Theorem C155_points : forall p i sz us a rest, unit_stream us ->
  poisson_form (FArray (Pts p)) i sz us = Val a rest ->
  forall q, In q (arr_points a) ->
    (exists l r, In l p /\ In r p /\ fst l <= fst q <= fst r) /\ (exists d t, In d p /\ In t p /\ snd d <= snd q <= snd t).
Proof.
  intros p i sz us a rest U H q I. destruct (compute_mbb p) as [b|e] eqn:E.
  - destruct (C155_accepted _ _ (Region_points p b E)) as [A _]. rewrite A in H.
    pose proof (mbb_tight_box _ _ E) as T. assert (SB : sane_box (h_bbox (bbox_hull b))) by (exact (tight_box_sane _ _ T)).
    destruct (poisson_sound _ _ _ _ _ _ U SB H) as [n [s [it [d [_ [_ [_ [_ [_ [F _]]]]]]]]]].
    destruct (F q I) as [_ [[X1 X2] [Y1 Y2]]]. cbn [bbox_hull h_bbox] in X1, X2, Y1, Y2.
    destruct T as [_ [[l [Il El]] [[r [Ir Er]] [[dn [Id Ed]] [t [It Et]]]]]].
    split; [exists l, r|exists dn, t]; repeat split; auto; [rewrite El|rewrite Er|rewrite Ed|rewrite Et]; assumption.
  - unfold poisson_form in H. cbn [enter geo_bbox] in H. rewrite E in H. discriminate H.
Qed.
Print Assumptions C155_points.

(** Everything else: no point is ever returned. *)
Lemma reject_raises : forall mk e us n, (exists l rest, reject_form mk (fun _ => Raise e) us n = Val l rest) -> n = O.
Proof. intros mk e [|u [|v us]] [|n] [l [r H]]; try reflexivity; discriminate H. Qed.

Lemma no_points : forall s n (d : list (list pt)), List.length d = s -> Forall (fun l => List.length l = n) d -> (s = O \/ n = O) -> arr_points (squeeze s n d) = [].
Proof.
  intros s n d L F C. assert (Z0 : concat d = []).
  { destruct C as [C|C]; [destruct d; [reflexivity|cbn in L; lia]|]. subst n. clear L. induction F as [|l d El F IH]; [reflexivity|].
    destruct l; [exact IH|discriminate El]. }
  unfold squeeze. destruct (Nat.eqb s 1) eqn:E1.
  - destruct (Nat.eqb n 1) eqn:E2; destruct d as [|[|q [|q2 l]] [|l2 d]]; cbn [arr_points concat app] in *; try exact Z0; try discriminate Z0; try reflexivity.
    all: rewrite app_nil_r in Z0; exact Z0.
  - destruct (Nat.eqb n 1); exact Z0.
Qed.

Lemma replicate_raises : forall mk e n s us d rest, replicate (fun us => reject_form mk (fun _ => Raise e) us n) s us = Val d rest ->
  List.length d = s /\ Forall (fun l => List.length l = n) d /\ (s = O \/ n = O).
Proof.
  intros mk e n. induction s as [|s IH]; intros us d rest H; cbn [replicate] in H.
  - injection H as <- _. repeat split; auto.
  - destruct (reject_form mk _ us n) as [l r|x|] eqn:E; cbn [rbind] in H; try discriminate H.
    assert (N : n = O) by (apply (reject_raises mk e us n); exists l, r; exact E).
    destruct (replicate _ s r) as [ls r'|x|] eqn:E'; cbn [rbind] in H; try discriminate H. injection H as <- _.
    destruct (IH _ _ _ E') as [L [F _]]. split; [cbn; rewrite L; reflexivity|]. split; [|right; exact N]. constructor; [|exact F].
    subst n. destruct us as [|u [|v us]]; cbn in E; injection E as <- _; reflexivity.
Qed.
Lemma replicate_i_raises : forall mk e n s i us d rest, replicate_i (fun i us => reject_form (mk i) (fun _ => Raise e) us n) i s us = Val d rest ->
  List.length d = s /\ Forall (fun l => List.length l = n) d /\ (s = O \/ n = O).
Proof.
  intros mk e n. induction s as [|s IH]; intros i us d rest H; cbn [replicate_i] in H.
  - injection H as <- _. repeat split; auto.
  - destruct (reject_form (mk i) _ us n) as [l r|x|] eqn:E; cbn [rbind] in H; try discriminate H.
    assert (N : n = O) by (apply (reject_raises (mk i) e us n); exists l, r; exact E).
    destruct (replicate_i _ (S i) s r) as [ls r'|x|] eqn:E'; cbn [rbind] in H; try discriminate H. injection H as <- _.
    destruct (IH _ _ _ _ E') as [L [F _]]. split; [cbn; rewrite L; reflexivity|]. split; [|right; exact N]. constructor; [|exact F].
    subst n. destruct us as [|u [|v us]]; cbn in E; injection E as <- _; reflexivity.
Qed.

Lemma seq_contains : forall a p, form_contains (FSequence a) p = Raise NotImplementedError.
Proof. reflexivity. Qed.

(** An argument that stands for no region: a sequence, or an array that cannot be entered. *)
Lemma not_region : forall f, (forall h, ~ Region f h) -> (exists a, f = FSequence a) \/ (exists e, enter f = Raise e).
Proof.
  intros [a|a|h] N; [right|left; exists a; reflexivity|exfalso; apply (N h); constructor].
  destruct a as [[|x0 [|y0 [|x1 [|y1 [|z v]]]]]|p]; try (eexists; reflexivity).
  - exfalso. apply (N (bbox_hull (mkbox x0 y0 x1 y1))). constructor.
  - destruct (compute_mbb p) as [b|e] eqn:E; [exfalso; apply (N (bbox_hull b)); constructor; exact E|]. exists e. cbn. rewrite E. reflexivity.
Qed.

Theorem C155_rejected : forall f, (forall h, ~ Region f h) ->
  (forall i sz us a rest, poisson_form f i sz us = Val a rest -> arr_points a = []) /\
  (forall given mk c sz us a rest, normal_form f given mk c sz us = Val a rest -> arr_points a = []).
Proof.
  intros f N. destruct (not_region f N) as [[a ->]|[e E]].
  - split.
    + intros i sz us r rest H. unfold poisson_form in H. cbn [enter lift rbind] in H.
      destruct (form_parse (FSequence a) i sz) as [[n s]|e]; cbn [lift rbind] in H; [|discriminate H].
      destruct (alloc n s) as [[n' s']|e]; cbn [lift rbind] in H; [|discriminate H].
      destruct (form_bbox (FSequence a)) as [b|e]; cbn [lift rbind] in H; [|discriminate H].
      destruct (replicate _ s' us) as [d r'|e|] eqn:E in H; cbn [rbind] in H; try discriminate H. injection H as <- _.
      destruct (replicate_raises (box_candidate b) NotImplementedError n' s' us d r' E) as [L [F C]]. apply no_points; assumption.
    + intros g mk c sz us r rest H. unfold normal_form in H. cbn [enter lift rbind] in H.
      destruct (if g then Ok tt else form_centroid (FSequence a)) as [[]|e]; cbn [lift rbind] in H; [|discriminate H].
      destruct (form_parse (FSequence a) None sz) as [[n s]|e]; cbn [lift rbind] in H; [|discriminate H].
      destruct (form_bbox (FSequence a)) as [b|e]; cbn [lift rbind] in H; [|discriminate H].
      destruct (check_cov c s) as [[]|e]; cbn [lift rbind] in H; [|discriminate H].
      destruct (alloc n s) as [[n' s']|e]; cbn [lift rbind] in H; [|discriminate H].
      destruct (diagonal_ok c).
      * destruct (replicate_i _ 0 s' us) as [d r'|e|] eqn:E in H; cbn [rbind] in H; try discriminate H. injection H as <- _.
        destruct (replicate_i_raises mk NotImplementedError n' s' 0 us d r' E) as [L [F C]]. apply no_points; assumption.
      * destruct s' as [|s']; [|discriminate H]. cbn [replicate_i rbind] in H. injection H as <- _. apply no_points; auto.
  - split; intros; unfold poisson_form, normal_form in *; rewrite E in *; discriminate.
Qed.
Print Assumptions C155_rejected.

(** A list of four numbers, although [area] and [bbox] take it: as soon as a point
    is wanted, poisson raises NotImplementedError, and normal too unless it has no
    centre, which raises AttributeError. The same four numbers as an array never raise. *)
Theorem C155_list_refuted : forall x0 y0 x1 y1 i sz n s it u v us,
  parse_size_and_intensity (bbox_hull (mkbox x0 y0 x1 y1)) i sz = Ok (n, s, it) -> (1 <= n)%Z -> (1 <= s)%Z ->
  poisson_form (FSequence (Vec [x0; y0; x1; y1])) i sz (u :: v :: us) = Exc NotImplementedError /\
  (forall e, poisson_form (FArray (Vec [x0; y0; x1; y1])) i sz (u :: v :: us) <> Exc e) /\
  (forall mk c, normal_form (FSequence (Vec [x0; y0; x1; y1])) false mk c sz us = Exc AttributeError) /\
  (forall mk c, i = None -> matrix_like c -> check_cov c s = Ok tt ->
     normal_form (FSequence (Vec [x0; y0; x1; y1])) true mk c sz (u :: v :: us) = Exc NotImplementedError).
Proof.
  intros x0 y0 x1 y1 i sz n s it u v us H N P.
  assert (A : alloc n s = Ok (Z.to_nat n, Z.to_nat s)).
  { unfold alloc. destruct (n <? 0)%Z eqn:E; [apply Z.ltb_lt in E; lia|]. destruct (s <? 0)%Z eqn:E'; [apply Z.ltb_lt in E'; lia|]. reflexivity. }
  assert (FP : form_parse (FSequence (Vec [x0; y0; x1; y1])) i sz = Ok (n, s)).
  { replace (form_parse (FSequence (Vec [x0; y0; x1; y1])) i sz) with (form_parse (FGeom (bbox_hull (mkbox x0 y0 x1 y1))) i sz) by reflexivity.
    rewrite parse_geom, H. reflexivity. }
  assert (SN : exists n', Z.to_nat n = S n') by (exists (Z.to_nat n - 1)%nat; lia). destruct SN as [n' SN].
  assert (SS : exists s', Z.to_nat s = S s') by (exists (Z.to_nat s - 1)%nat; lia). destruct SS as [s' SS].
  split; [|split; [|split]].
  - unfold poisson_form. cbn [enter lift rbind]. rewrite FP. cbn [lift rbind]. rewrite A, SN, SS. reflexivity.
  - intros e. destruct (C155_accepted _ _ (Region_box x0 y0 x1 y1)) as [Ac _]. rewrite Ac. unfold poisson. rewrite H. cbn [lift rbind]. rewrite A. cbn [lift rbind].
    assert (RJ : forall mk ok us' m x, reject mk ok us' m <> Exc x).
    { intros mk ok us'. assert (W : forall k l m x, (List.length l <= k)%nat -> reject mk ok l m <> Exc x).
      { induction k as [|k IH]; intros [|a [|b l]] [|m] x L Q0; cbn [List.length] in L; try lia; try discriminate Q0.
        cbn [reject] in Q0. destruct (ok (mk a b)); [|apply (IH l (S m) x); [lia|exact Q0]].
        destruct (reject mk ok l m) as [? ?|x'|] eqn:E; cbn [rbind] in Q0; try discriminate Q0. apply (IH l m x'); [lia|exact E]. }
      intros m x. apply (W (List.length us')). lia. }
    assert (RP : forall k l x, replicate (fun us => reject (box_candidate (h_bbox (bbox_hull (mkbox x0 y0 x1 y1)))) (h_contains (bbox_hull (mkbox x0 y0 x1 y1))) us (Z.to_nat n)) k l <> Exc x).
    { induction k as [|k IH]; intros l x Q0; cbn [replicate] in Q0; [discriminate Q0|].
      destruct (reject _ _ l (Z.to_nat n)) as [? r|x'|] eqn:E in Q0; cbn [rbind] in Q0; try discriminate Q0; [|exact (RJ _ _ _ _ _ E)].
      destruct (replicate _ k r) as [? ?|x'|] eqn:E' in Q0; cbn [rbind] in Q0; try discriminate Q0. exact (IH _ _ E'). }
    destruct (replicate _ (Z.to_nat s) (u :: v :: us)) as [d r|x|] eqn:E; cbn [rbind]; try discriminate. exfalso. exact (RP _ _ _ E).
  - intros mk c. reflexivity.
  - intros mk c Ni M C. subst i. unfold normal_form. cbn [enter lift rbind]. rewrite FP. cbn [lift rbind form_bbox geo_bbox]. rewrite C. cbn [lift rbind]. rewrite A. cbn [lift rbind]. rewrite SN, SS.
    replace (diagonal_ok c) with true by (destruct c as [|q|[|a [|b l]]|]; try reflexivity; destruct M). reflexivity.
Qed.
Print Assumptions C155_list_refuted.

(** A radius that is neither a number nor an array, such as the documented
    "iterable": no point is ever returned, and once the seeds of the first
    replication are drawn the call ends in an UnboundLocalError. *)
Theorem C155_radius_refuted : forall h halfmin i sz k l sss us,
  (forall a rest, cluster_poisson_form h halfmin i sz k (RadOther l) sss us = Val a rest -> arr_points a = []) /\
  (forall n s it ss seeds r, parse_size_and_intensity h i sz = Ok (n, s, it) -> (0 <= n)%Z -> (1 <= s)%Z -> (1 <= k)%Z ->
     poisson h None (SInt k) ss = Val seeds r ->
     cluster_poisson_form h halfmin i sz k (RadOther l) (ss :: sss) us = Exc NameError).
Proof.
  intros h halfmin i sz k l sss us. split.
  - intros a rest H. cbn [cluster_poisson_form] in H. destruct (parse_size_and_intensity h i sz) as [[[n s] it]|e]; cbn [lift rbind] in H; [|discriminate H].
    destruct (alloc n s) as [[n' s']|e]; cbn [lift rbind] in H; [|discriminate H]. destruct s' as [|s'].
    + injection H as <- _. apply no_points; auto.
    + destruct sss as [|ss sss]; [discriminate H|]. destruct (poisson h None (SInt k) ss); [destruct (k <=? 0)%Z|..]; discriminate H.
  - intros n s it ss seeds r H N P K S0. cbn [cluster_poisson_form]. rewrite H. cbn [lift rbind].
    unfold alloc. destruct (n <? 0)%Z eqn:E; [apply Z.ltb_lt in E; lia|]. destruct (s <? 0)%Z eqn:E'; [apply Z.ltb_lt in E'; lia|]. cbn [orb lift rbind].
    destruct (Z.to_nat s) as [|s'] eqn:Es; [lia|]. rewrite S0. destruct (k <=? 0)%Z eqn:Ek; [apply Z.leb_le in Ek; lia|]. reflexivity.
Qed.
Print Assumptions C155_radius_refuted.

(** The same numbers in an array are accepted exactly when there is one for each
    seed; a single number stands for as many equal ones. *)
Theorem C155_radii : forall h halfmin i sz k l sss us,
  (Z.of_nat (List.length l) <> k -> cluster_poisson_form h halfmin i sz k (RadKnown (RadArr l)) sss us = Exc AssertionError) /\
  (forall q, (0 <= k)%Z -> cluster_poisson_form h halfmin i sz k (RadKnown (RadScalar q)) sss us =
     cluster_poisson_form h halfmin i sz k (RadKnown (RadArr (List.repeat q (Z.to_nat k)))) sss us).
Proof.
  intros h halfmin i sz k l sss us. split.
  - intros N. cbn [cluster_poisson_form]. unfold cluster_poisson. cbn [fixed_radii].
    destruct (Z.of_nat (List.length l) =? k)%Z eqn:E; [apply Z.eqb_eq in E; contradiction|]. reflexivity.
  - intros q K. cbn [cluster_poisson_form]. unfold cluster_poisson. cbn [fixed_radii]. rewrite repeat_length, Z2Nat.id, Z.eqb_refl by exact K. reflexivity.
Qed.
Print Assumptions C155_radii.

(** A covariance with fewer than two dimensions: ValueError in the first replication. *)
Theorem C155_covariance : forall f given mk c sz us, ~ matrix_like c ->
  (forall a rest, normal_form f given mk c sz us = Val a rest -> arr_points a = []) /\
  (forall h n s it, Region f h -> parse_size_and_intensity h None sz = Ok (n, s, it) -> (0 <= n)%Z -> (1 <= s)%Z ->
     normal_form f given mk c sz us = Exc ValueError).
Proof.
  intros f g mk c sz us M. assert (D : diagonal_ok c = false) by (destruct c as [|q|[|a [|b l]]|]; try reflexivity; exfalso; apply M; exact I).
  assert (CK : forall s, check_cov c s = Ok tt) by (intros s; destruct c as [|q|[|a [|b l]]|]; try reflexivity; discriminate D).
  split.
  - intros a rest H. unfold normal_form in H. destruct (enter f) as [f'|e]; cbn [lift rbind] in H; [|discriminate H].
    destruct (if g then Ok tt else form_centroid f') as [[]|e]; cbn [lift rbind] in H; [|discriminate H].
    destruct (form_parse f' None sz) as [[n s]|e]; cbn [lift rbind] in H; [|discriminate H].
    destruct (form_bbox f') as [b|e]; cbn [lift rbind] in H; [|discriminate H]. rewrite CK in H. cbn [lift rbind] in H.
    destruct (alloc n s) as [[n' s']|e]; cbn [lift rbind] in H; [|discriminate H]. rewrite D in H.
    destruct s' as [|s']; [|discriminate H]. cbn [replicate_i rbind] in H. injection H as <- _. apply no_points; auto.
  - intros h n s it R H N P.
    assert (G : normal_form (FGeom h) g mk c sz us = Exc ValueError).
    { unfold normal_form. cbn [enter lift rbind]. replace (if g then Ok tt else form_centroid (FGeom h)) with (@Ok unit tt) by (destruct g; reflexivity). cbn [lift rbind].
      rewrite parse_geom, H. cbn [bind lift rbind fst snd form_bbox]. rewrite CK. cbn [lift rbind]. unfold alloc.
      destruct (n <? 0)%Z eqn:E; [apply Z.ltb_lt in E; lia|]. destruct (s <? 0)%Z eqn:E'; [apply Z.ltb_lt in E'; lia|]. cbn [orb lift rbind].
      destruct (Z.to_nat s) as [|s'] eqn:Es; [lia|]. rewrite D. reflexivity. }
    destruct R as [x0 y0 x1 y1|p b E|h].
    + rewrite box_array_normal. exact G.
    + rewrite <- G. unfold normal_form. cbn [enter geo_bbox]. rewrite E. reflexivity.
    + exact G.
Qed.
Print Assumptions C155_covariance.

(** The box of the points (1,5), (3,4), (2,6); the list [0, 0, 2, 2] and a list of two radii. *)
Example C155_case :
  Region (FArray (Pts [(1, 5); (3, 4); (2, 6)])) (bbox_hull (mkbox 1 4 3 6)) /\
  (exists a rest, poisson_form (FArray (Pts [(1, 5); (3, 4); (2, 6)])) None (SInt 2) [1#2; 1#2; 1#4; 0] = Val a rest /\
     List.length (arr_points a) = 2%nat) /\
  poisson_form (FSequence (Vec [0; 0; 2; 2])) None (SInt 2) [1#2; 1#2; 1#4; 0] = Exc NotImplementedError /\
  poisson_form (FSequence (Vec [0; 0; 2; 2])) None (SInt 0) [] = Val (Arr2 []) [] /\
  poisson_form (FSequence (Pts [(0, 0); (1, 0); (2, 3); (0, 1)])) (Some 1) SNone [] = Exc TypeError /\
  cluster_poisson_form (bbox_hull (mkbox 0 0 2 2)) (fun _ => 1) None (SInt 4) 2 (RadOther [1; 1]) [[1#2; 1#2; 1#4; 0]] [] = Exc NameError /\
  normal_form (FArray (Vec [0; 0; 2; 2])) false (fun _ u v => (u, v)) (CArr [2%Z]) (SInt 2) [1#2; 1#2; 1#4; 0] = Exc ValueError.
Proof.
  split; [apply (Region_points _ (mkbox 1 4 3 6)); reflexivity|]. split; [eexists; eexists; split; vm_compute; reflexivity|]. repeat split; vm_compute; reflexivity.
Qed.
Print Assumptions C155_case.
