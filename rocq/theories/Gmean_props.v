(** Theorems on the means of G and F under random points: property C152. *)
From Coq Require Import Reals Qreals ZArith QArith Qround Qabs List Bool Arith Lia Lra Psatz String.
From Verif Require Import Base BaseLemmas Spec Quadrat_model Geometry_model Random_model Random_spec Random_proofs DistStats_model DistStats_spec DistStats_proofs Ripley_model Ripley_spec Ripley_proofs Ripley_props
  Size_proofs Joint_spec Joint_proofs Joint_props Blocks_spec Null_spec Null_proofs Chimean_spec Chimean_proofs Kmean_spec Kmean_proofs Gmean_spec Gmean_proofs.
Import ListNotations.
Local Open Scope R_scope.

Section Law.
Variables (G : list Q) (w : Q -> R).
Notation mean := (mean G w).
Hypothesis LW : is_law G w.
(** The window of the random points, also given to F as its hull [hu]. *)
Variables (h : hull) (shape : list pt -> hullres -> hull) (hu : hullarg).
Hypothesis given : forall pts, pts <> [] -> exists r, prepare_hull pts hu = Ok r /\ hull_seen shape pts r = h.
Hypothesis A : kept G w (box_candidate (h_bbox h)) (h_contains h) always <> 0.
(** A tree that answers correctly, a metric the functions accept, a support that covers
    all distances in the window, and one of its inner values. *)
Variables (query : metric -> list pt -> pt -> nat -> row) (dist : metric -> pt -> pt -> Q) (mt : metric) (sup : list Q) (j : nat).
Hypothesis tree_ok : good_tree query dist.
Hypothesis usable : match mt with MName x => x <> "precomputed"%string | MOther _ => False | _ => True end.
Hypothesis sorted : nondecreasing sup.
Hypothesis J : (1 <= j < List.length sup - 1)%nat.
Hypothesis covered : forall p q, h_contains h p = true -> h_contains h q = true ->
  (nth 0 sup 0 <= dist mt p q /\ dist mt p q <= nth (List.length sup - 1) sup 0)%Q.
Notation s := (nth j sup 0%Q).
Notation mk := (box_candidate (h_bbox h)).
Notation near := (fun p q => Qltb (dist mt p q) s).
(** The probability that none of [n] random points is nearer than s to a further one. *)
Definition none_near (n : nat) : R := empty_prob G w mk (h_contains h) near n.
(** G and F of [n] random points, and their value at s. *)
Definition g_drawn (n : nat) (us : list Q) : run (list Q * list xq) :=
  experiment h n (fun pts us => lift (g_fun query pts (SupArr sup) DNone mt false) us) us.
Definition f_drawn (n : nat) (us : list Q) : run (list Q * list xq) :=
  experiment h n (fun pts us => f_fun query shape pts (SupArr sup) DNone mt hu false us) us.
Definition at_s (r : list Q * list xq) : R := real_of (nth j (snd r) NaN).

Lemma drawn : forall n, (exists e, forall us, poisson h None (SInt (Z.of_nat n)) us = Exc e) \/
  (forall us, rbind (poisson h None (SInt (Z.of_nat n)) us) (fun a us => Val (arr_points a) us) = staged (h_contains h) us (repeat mk n)) /\
  (forall us, rbind (poisson h None (STuple [1000%Z; 1%Z]) us) (fun a us => Val (arr_points a) us) = staged (h_contains h) us (repeat mk 1000)).
Proof using.
  clear J sorted covered tree_ok usable. intro n. destruct (parse_size_and_intensity h None (SInt (Z.of_nat n))) as [[[n' s'] it]|e] eqn:P; [right|left; exists e; intro us; unfold poisson; rewrite P; reflexivity].
  cbn [parse_size_and_intensity] in P. destruct (div_area (Z.of_nat n) h) as [i|] eqn:DA; [|discriminate P].
  assert (P1 : parse_size_and_intensity h None (SInt (Z.of_nat n)) = Ok (Z.of_nat n, 1%Z, i)) by (cbn [parse_size_and_intensity]; rewrite DA; reflexivity).
  assert (P2 : exists i', parse_size_and_intensity h None (STuple [1000%Z; 1%Z]) = Ok (1000%Z, 1%Z, i')).
  { cbn [parse_size_and_intensity]. unfold div_area in *. destruct (Qeq_bool (h_area h) 0 && negb (h_np h)); [discriminate DA|]. eexists. reflexivity. }
  destruct P2 as [i' P2]. split; intro us.
  - rewrite (poisson_staged h None _ _ _ _ P1) by lia. f_equal. f_equal. lia.
  - rewrite (poisson_staged h None _ _ _ _ P2) by lia. reflexivity.
Qed.
Lemma two_dim_probes : forall us a rest, poisson h None (STuple [1000%Z; 1%Z]) us = Val a rest -> two_dim a = Ok (arr_points a).
Proof using.
  clear J sorted covered tree_ok usable. intros us a rest H. unfold poisson in H. apply rbind_val in H. destruct H as [[[n s] it] [u1 [H1 H]]]. apply lift_val in H1. destruct H1 as [H1 _].
  cbn [parse_size_and_intensity] in H1. destruct (div_area 1000 h); [|discriminate H1]. cbn [bind] in H1. injection H1 as <- <- _.
  apply rbind_val in H. destruct H as [[n' s'] [u2 [H2 H]]]. apply lift_val in H2. destruct H2 as [H2 _].
  assert (E : alloc 1000 1 = Ok (Z.to_nat 1000, 1%nat)) by reflexivity. rewrite E in H2. injection H2 as <- <-.
  apply rbind_val in H. destruct H as [d [u3 [H3 H]]]. injection H as <- _.
  cbn [replicate] in H3. apply rbind_val in H3. destruct H3 as [l [u4 [H4 H5]]]. apply rbind_val in H5. destruct H5 as [d' [u5 [H6 H7]]].
  injection H6 as <- _. injection H7 as <- _. assert (N1 : Nat.eqb (Z.to_nat 1000) 1 = false) by reflexivity.
  clear N1. reflexivity.
Qed.
Lemma in_window : forall us n l rest, staged (h_contains h) us (repeat mk n) = Val l rest -> List.length l = n /\ forall p, In p l -> h_contains h p = true.
Proof using. intros us n l rest H. apply staged_fits in H. destruct H as [H1 H2]. rewrite repeat_length in H1. split; assumption. Qed.

(** ** C152 *)
(** The mean of G(s) of n + 2 random points. *)
Theorem C152_G : forall n L,
  mean (2 * L) (fun us => of_run (g_drawn (S (S n)) us) at_s) = (1 - none_near (S n)) * mean (2 * L) (fun us => of_run (g_drawn (S (S n)) us) always) /\
  mean (2 * L) (fun us => of_run (g_drawn (S (S n)) us) always) = mean (2 * L) (fun us => of_run (poisson h None (SInt (Z.of_nat (S (S n)))) us) always).
Proof using LW A tree_ok usable sorted J covered.
  intros n L. set (N := S (S n)). unfold g_drawn, experiment. destruct (drawn N) as [[e X]|[PS _]].
  - split.
    + rewrite (mean_ext G w (2 * L) _ (fun _ => 0)) by (intro us; rewrite X; reflexivity). rewrite (mean_ext G w (2 * L) (fun us => of_run _ always) (fun _ => 0)) by (intro us; rewrite X; reflexivity). rewrite mean_const by exact LW. ring.
    + apply mean_ext. intro us. rewrite X. reflexivity.
  - destruct (staged_mean G w (h_contains h) LW _ (repeat mk N) (fun us => rbind (poisson h None (SInt (Z.of_nat N)) us) (fun a us0 => lift (g_fun query (arr_points a) (SupArr sup) DNone mt false) us0)) at_s
      (fun l => 1 + (- / INR N) * rsum (picks l) (fun p => yes (lone near (fst p) (snd p)))) L) as [M1 M2].
    + intros us l rest H. pose proof (in_window us N l rest H) as [L1 L2]. rewrite <- PS in H. apply rbind_val in H. destruct H as [a [u1 [H1 H2]]]. injection H2 as <- <-. rewrite H1. cbn [rbind].
      destruct (g_value query dist mt sup j tree_ok usable sorted J (arr_points a)) as [v [V1 V2]]; [rewrite L1; unfold N; lia|intros p q P1 P2; apply covered; apply L2; assumption|].
      exists (sup, v). rewrite V1. split; [reflexivity|]. unfold at_s. cbn [snd]. rewrite V2, L1. unfold Rdiv. ring.
    + intros us x rest H. apply rbind_val in H. destruct H as [a [u1 [H1 H2]]]. apply lift_val in H2. destruct H2 as [_ ->]. exists (arr_points a). rewrite <- PS, H1. reflexivity.
    + split.
      * apply Rmult_eq_reg_r with (kept G w mk (h_contains h) always ^ N); [|apply pow_nonzero; exact A]. rewrite <- all_power at 1. rewrite M1.
        rewrite (all_ext G w (h_contains h) _ _ (fun l => 1 * 1 + (- / INR N) * rsum (picks l) (fun p => yes (lone near (fst p) (snd p))))) by (intros; ring).
        rewrite (all_lin G w (h_contains h) _ 1 (- / INR N) (fun _ => 1)), all_power. pose proof (picks_mean G w (h_contains h) mk near A (S n)) as PM. fold N in PM. rewrite PM. unfold none_near.
        assert (N0 : INR N <> 0) by (apply not_0_INR; unfold N; lia). field. exact N0.
      * rewrite M2. apply mean_ext. intro us. rewrite <- PS. destruct (poisson h None (SInt (Z.of_nat N)) us); reflexivity.
Qed.

(** The mean of F(s) of n + 1 random points, with the window as hull. *)
Theorem C152_F : forall n L,
  mean (2 * L) (fun us => of_run (f_drawn (S n) us) at_s) = (1 - none_near (S n)) * mean (2 * L) (fun us => of_run (f_drawn (S n) us) always).
Proof using LW given A tree_ok usable sorted J covered.
  intros n L. set (N := S n). unfold f_drawn, experiment. destruct (drawn N) as [[e X]|[PS PR]].
  - rewrite (mean_ext G w (2 * L) _ (fun _ => 0)) by (intro us; rewrite X; reflexivity). rewrite (mean_ext G w (2 * L) (fun us => of_run _ always) (fun _ => 0)) by (intro us; rewrite X; reflexivity). rewrite mean_const by exact LW. ring.
  - assert (RUN : forall l us, l <> [] -> f_fun query shape l (SupArr sup) DNone mt hu false us =
        rbind (poisson h None (STuple [1000%Z; 1%Z]) us) (fun a us => rbind (lift (two_dim a) us) (fun rs us => rbind (lift (nearest_distances query mt l rs) us) (fun e us => rbind (lift (f_stat (List.length l) sup DNone e) us) (fun v us => Val (sup, v) us))))).
    { intros l us L0. destruct (given l L0) as [r [R1 R2]]. unfold f_fun. rewrite (prepare_sup query mt sup usable l hu r R1). cbn [lift rbind]. rewrite R2. reflexivity. }
    destruct (staged_mean G w (h_contains h) LW _ (repeat mk N ++ repeat mk 1000) (fun us => rbind (poisson h None (SInt (Z.of_nat N)) us) (fun a us0 => f_fun query shape (arr_points a) (SupArr sup) DNone mt hu false us0)) at_s
      (fun l => 1 + (- / INR 1000) * sum_over (skipn N l) (fun x => yes (lone near x (firstn N l)))) L) as [M1 M2].
    + intros us l rest H. rewrite staged_app in H. apply rbind_val in H. destruct H as [l1 [u1 [H1 H]]]. apply rbind_val in H. destruct H as [l2 [u2 [H2 H]]]. injection H as <- <-.
      pose proof (in_window us N l1 u1 H1) as [L1 L2]. pose proof (in_window u1 1000 l2 u2 H2) as [L3 L4].
      rewrite <- PS in H1. apply rbind_val in H1. destruct H1 as [a [u3 [H1 H3]]]. injection H3 as <- <-. rewrite H1. cbn [rbind].
      assert (NE : arr_points a <> []) by (intro Y; rewrite Y in L1; discriminate L1). rewrite (RUN _ _ NE).
      rewrite <- PR in H2. apply rbind_val in H2. destruct H2 as [b [u4 [H2 H4]]]. injection H4 as <- <-. rewrite H2. cbn [rbind]. rewrite (two_dim_probes _ _ _ H2). cbn [lift rbind].
      destruct (f_value query dist mt sup j tree_ok sorted J (arr_points a) (arr_points b) NE) as [e [v [V1 [V2 V3]]]].
      { intro Y. rewrite Y in L3. discriminate L3. }
      { intros p q P1 P2. apply covered; [apply L4|apply L2]; assumption. }
      exists (sup, v). rewrite V1. cbn [lift rbind]. rewrite V2. split; [reflexivity|]. unfold at_s. cbn [snd]. rewrite V3, L3.
      rewrite firstn_app, skipn_app, <- L1, firstn_all, skipn_all, Nat.sub_diag. cbn [firstn skipn app]. rewrite app_nil_r. unfold Rdiv. ring.
    + intros us x rest H. apply rbind_val in H. destruct H as [a [u1 [H1 H2]]].
      assert (S1 : staged (h_contains h) us (repeat mk N) = Val (arr_points a) u1) by (rewrite <- PS, H1; reflexivity).
      assert (NE : arr_points a <> []) by (intro Y; apply in_window in S1; destruct S1 as [S1 _]; rewrite Y in S1; discriminate S1).
      rewrite (RUN _ _ NE) in H2. apply rbind_val in H2. destruct H2 as [b [u2 [H2 H3]]].
      apply rbind_val in H3. destruct H3 as [rs [u3 [H3 H4]]]. apply lift_val in H3. destruct H3 as [_ ->].
      apply rbind_val in H4. destruct H4 as [e [u4 [H4 H5]]]. apply lift_val in H4. destruct H4 as [_ ->].
      apply rbind_val in H5. destruct H5 as [v [u5 [H5 H6]]]. apply lift_val in H5. destruct H5 as [_ ->]. injection H6 as _ <-.
      exists (arr_points a ++ arr_points b). rewrite staged_app, S1. cbn [rbind]. rewrite <- PR, H2. reflexivity.
    + apply Rmult_eq_reg_r with (kept G w mk (h_contains h) always ^ (N + 1000)); [|apply pow_nonzero; exact A]. rewrite <- all_power at 1. rewrite repeat_app, M1. rewrite all_app.
      rewrite (all_ext G w (h_contains h) (repeat mk N) _ (fun l => (kept G w mk (h_contains h) always ^ 1000) * 1 + (- / INR 1000) * kept_all G w (h_contains h) (repeat mk 1000) (fun r => sum_over r (fun x => yes (lone near x l))))).
      * rewrite (all_lin G w (h_contains h) _ _ _ (fun _ => 1)), all_power, (probes_mean G w (h_contains h) mk near A N 1000), pow_add. unfold none_near. fold N.
        assert (N0 : INR 1000 <> 0) by (apply not_0_INR; discriminate). field. exact N0.
      * intros l [L1 _]. rewrite repeat_length in L1. rewrite <- (all_power G w (h_contains h) mk 1000), Rmult_1_r.
        rewrite (all_ext G w (h_contains h) _ _ (fun r => 1 * 1 + (- / INR 1000) * sum_over r (fun x => yes (lone near x l)))).
        -- rewrite (all_lin G w (h_contains h) _ 1 _ (fun _ => 1)). ring.
        -- intros r _. rewrite firstn_app, skipn_app, <- L1, firstn_all, skipn_all, Nat.sub_diag. cbn [firstn skipn app]. rewrite app_nil_r. ring.
Qed.
(** The probability that two random points are nearer than s. *)
Definition two_near : R := share G w mk (h_contains h) (fun p => share G w mk (h_contains h) (indicator (near p))).
(** With more points the means grow; G of a pattern has a smaller mean than F of a pattern
    with as many points, and none exceeds what independent distances would give. *)
Theorem C152_order : forall n, 0 <= none_near (S n) <= none_near n /\ (1 - two_near) ^ n <= none_near n.
Proof using LW A.
  clear given tree_ok usable sorted J covered. intro n.
  assert (R0 : forall p, 0 <= share G w mk (h_contains h) (indicator (near p)) <= 1) by (apply (near_range G w (h_contains h) mk near A LW)).
  unfold none_near, empty_prob. split; [split|].
  - rewrite <- (share_const G w (h_contains h) mk A 0) at 1. apply share_le; [exact A|exact LW|]. intros p _. apply pow_le. specialize (R0 p). lra.
  - apply share_le; [exact A|exact LW|]. intros p _. specialize (R0 p). cbn [pow]. rewrite <- (Rmult_1_l ((1 - _) ^ n)) at 2. apply Rmult_le_compat_r; [apply pow_le; lra|lra].
  - assert (TAN : forall x q m, 0 <= x -> 0 <= q -> q ^ S m + INR (S m) * q ^ m * (x - q) <= x ^ S m).
    { intros x q m X0 Q0. induction m as [|m IH]; [cbn; lra|].
      assert (P0 : 0 <= q ^ m) by (apply pow_le; exact Q0). pose proof (pos_INR (S m)) as M0.
      apply (Rmult_le_compat_l x) in IH; [|exact X0]. change (x ^ S (S m)) with (x * x ^ S m). eapply Rle_trans; [|exact IH].
      pose proof (Rle_0_sqr (x - q)) as SQ. unfold Rsqr in SQ. pose proof (Rmult_le_pos _ _ (Rmult_le_pos _ _ M0 P0) SQ) as NN. rewrite (S_INR (S m)). cbn [pow]. nra. }
    destruct n as [|n]; [cbn [pow]; rewrite share_const by exact A; lra|].
    assert (T0 : 0 <= two_near <= 1).
    { unfold two_near. split; [rewrite <- (share_const G w (h_contains h) mk A 0)|rewrite <- (share_const G w (h_contains h) mk A 1)]; (apply share_le; [exact A|exact LW|]; intros p _; apply R0). }
    set (q := 1 - two_near) in *.
    apply Rle_trans with (share G w mk (h_contains h) (fun p => q ^ S n + INR (S n) * q ^ n * (1 - share G w mk (h_contains h) (indicator (near p)) - q))).
    + right. unfold share at 1. set (c := INR (S n) * q ^ n).
      rewrite (kept_ext G w (h_contains h) mk _ (fun p => (q ^ S n + c * (1 - q)) * always p + (- c) * share G w mk (h_contains h) (indicator (near p)))) by (intros; unfold always; ring).
      rewrite kept_lin. rewrite (share_kept G w (h_contains h) mk A (fun p => share G w mk (h_contains h) (indicator (near p)))). fold two_near. unfold q. field. exact A.
    + apply share_le; [exact A|exact LW|]. intros p _. apply TAN; [specialize (R0 p); lra|unfold q; lra].
Qed.
(** Where every point of the window has others near with a probability of at least c, the
    means tend to 1, that of 1 - F faster than that of 1 - G. *)
Theorem C152_limit : forall c, (forall p, h_contains h p = true -> c <= share G w mk (h_contains h) (indicator (near p))) -> 0 <= c <= 1 ->
  forall n, none_near (S n) <= (1 - c) * none_near n /\ none_near n <= (1 - c) ^ n.
Proof using LW A.
  clear given tree_ok usable sorted J covered. intros c H C n.
  assert (R0 : forall p, 0 <= share G w mk (h_contains h) (indicator (near p)) <= 1) by (apply (near_range G w (h_contains h) mk near A LW)).
  unfold none_near, empty_prob. split.
  - rewrite <- (share_scale G w (h_contains h) mk A). apply share_le; [exact A|exact LW|]. intros p P. specialize (R0 p). specialize (H p P). cbn [pow]. apply Rmult_le_compat_r; [apply pow_le; lra|lra].
  - rewrite <- (share_const G w (h_contains h) mk A ((1 - c) ^ n)). apply share_le; [exact A|exact LW|]. intros p P. specialize (R0 p). specialize (H p P). apply pow_incr. lra.
Qed.
End Law.
Print Assumptions C152_G.
Print Assumptions C152_F.
Print Assumptions C152_order.
Print Assumptions C152_limit.

(** ** A concrete case *)
(** Numbers 1/4 and 3/4 with equal probability, the unit square as window and hull, the
    city block distance and s = 1/2: G of three points and F of two points both have the
    mean 7/16 (up to runs that do not end). *)
Definition h2 : list Q := [(1 # 4)%Q; (3 # 4)%Q].
Definition v2 (_ : Q) : R := 1 / 2.
Definition square1 : hull := bbox_hull (mkbox 0 0 1 1).
Definition blocks (_ : metric) (p q : pt) : Q := (Qabs (fst p - fst q) + Qabs (snd p - snd q))%Q.
Definition steps : list Q := [0; 1 # 2; 1; 2]%Q.
Definition no_shape (_ : list pt) (_ : hullres) : hull := square1.
Example C152_case : forall L,
  mean h2 v2 (2 * L) (fun us => of_run (g_drawn square1 (sorted_query blocks) (MName "cityblock") steps 3 us) (at_s 1)) =
    7 / 16 * mean h2 v2 (2 * L) (fun us => of_run (g_drawn square1 (sorted_query blocks) (MName "cityblock") steps 3 us) always) /\
  mean h2 v2 (2 * L) (fun us => of_run (f_drawn square1 no_shape (HArr (Vec [0; 0; 1; 1]%Q)) (sorted_query blocks) (MName "cityblock") steps 2 us) (at_s 1)) =
    7 / 16 * mean h2 v2 (2 * L) (fun us => of_run (f_drawn square1 no_shape (HArr (Vec [0; 0; 1; 1]%Q)) (sorted_query blocks) (MName "cityblock") steps 2 us) always) /\
  fold_right Rplus 0 (map (fun us => of_run (g_drawn square1 (sorted_query blocks) (MName "cityblock") steps 3 us) (at_s 1)) [[1 # 4; 1 # 4; 1 # 4; 1 # 4; 3 # 4; 1 # 4]%Q]) = 2 / 3.
Proof.
  intro L.
  assert (LW : is_law h2 v2) by (split; [intros; unfold v2; lra|unfold mean1, h2, v2; cbn; lra]).
  assert (K : kept h2 v2 (box_candidate (h_bbox square1)) (h_contains square1) always = 1) by (unfold kept, mean1, h2, v2, always; cbn; lra).
  assert (SH : forall f, share h2 v2 (box_candidate (h_bbox square1)) (h_contains square1) f = kept h2 v2 (box_candidate (h_bbox square1)) (h_contains square1) f) by (intro f; unfold share; rewrite K; field).
  assert (A : kept h2 v2 (box_candidate (h_bbox square1)) (h_contains square1) always <> 0) by (rewrite K; lra).
  assert (GV : forall pts, pts <> [] -> exists r, prepare_hull pts (HArr (Vec [0; 0; 1; 1]%Q)) = Ok r /\ hull_seen no_shape pts r = square1) by (intros pts _; eexists; split; reflexivity).
  assert (SO : nondecreasing steps) by (apply mono_spec; reflexivity).
  assert (CO : forall p q, h_contains square1 p = true -> h_contains square1 q = true ->
    (nth 0 steps 0 <= blocks (MName "cityblock") p q /\ blocks (MName "cityblock") p q <= nth (List.length steps - 1) steps 0)%Q).
  { clear - L. intros [x y] [x' y'] P Q1. cbn in P, Q1. unfold box_contains in P, Q1. cbn in P, Q1. qb. unfold blocks. cbn [fst snd nth steps List.length Nat.sub].
    split; [pose proof (Qabs_nonneg (x - x')); pose proof (Qabs_nonneg (y - y')); Lqa.lra|].
    assert (X1 : (Qabs (x - x') <= 1)%Q) by (apply Qabs_Qle_condition; split; Lqa.lra). assert (X2 : (Qabs (y - y') <= 1)%Q) by (apply Qabs_Qle_condition; split; Lqa.lra). Lqa.lra. }
  assert (NN : none_near h2 v2 square1 blocks (MName "cityblock") steps 1 2 = 9 / 16).
  { unfold none_near, empty_prob. rewrite SH. rewrite (kept_ext h2 v2 (h_contains square1) (box_candidate (h_bbox square1)) _ _ (fun p _ => f_equal (fun z => (1 - z) ^ 2) (SH _))). unfold kept, mean1, h2, v2, indicator. cbn. lra. }
  split; [|split].
  - destruct (C152_G h2 v2 LW square1 A (sorted_query blocks) blocks (MName "cityblock") steps 1 (sorted_query_good blocks) ltac:(discriminate) SO ltac:(cbn; lia) CO 1 L) as [X _]. rewrite X, NN. lra.
  - rewrite (C152_F h2 v2 LW square1 no_shape (HArr (Vec [0; 0; 1; 1]%Q)) GV A (sorted_query blocks) blocks (MName "cityblock") steps 1 (sorted_query_good blocks) ltac:(discriminate) SO ltac:(cbn; lia) CO 1 L), NN. lra.
  - cbn [map fold_right]. unfold g_drawn. match goal with |- of_run ?r _ + 0 = _ => let v := eval vm_compute in r in change r with v end. unfold at_s, of_run. cbn. unfold Q2R. cbn. lra.
Qed.
