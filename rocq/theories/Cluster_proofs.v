(** Proofs about cluster_poisson and cluster_normal. *)
From Coq Require Import ZArith QArith Qround List Bool Lia Lqa.
From Verif Require Import Base BaseLemmas Quadrat_model Geometry_model Random_model Random_spec Random_proofs.
Import ListNotations.
Local Open Scope Q_scope.

(** ** array_split sizes *)
Lemma split_sizes_length : forall n k, (1 <= k)%nat -> List.length (split_sizes n k) = k.
Proof.
  intros. unfold split_sizes. rewrite app_length, !repeat_length.
  pose proof (Nat.mod_upper_bound n k). lia.
Qed.

Lemma list_sum_repeat : forall a k, list_sum (List.repeat a k) = (k * a)%nat.
Proof. induction k; simpl; lia. Qed.

Lemma split_sizes_sum : forall n k, (1 <= k)%nat -> list_sum (split_sizes n k) = n.
Proof.
  intros. unfold split_sizes. rewrite list_sum_app, !list_sum_repeat.
  pose proof (Nat.mod_upper_bound n k ltac:(lia)).
  pose proof (Nat.div_mod n k ltac:(lia)). nia.
Qed.

Lemma split_sizes_range : forall n k m, In m (split_sizes n k) ->
  (n / k <= m <= n / k + 1)%nat.
Proof.
  intros n k m H. unfold split_sizes in H. apply in_app_or in H.
  destruct H as [H|H]; apply repeat_spec in H; lia.
Qed.

(** ** Filling the clusters *)
Lemma fill_clusters_sound : forall h l us cls rest,
  fill_clusters h l us = Val cls rest ->
  Forall2 (fun x cl => is_cluster h (fst (fst x)) (snd (fst x)) (snd x) cl) l cls /\
  exists used, us = used ++ rest.
Proof.
  induction l as [|[[sd r] m] l IH]; intros us cls rest H; simpl in H.
  - inversion H; subst. split; [constructor|]. exists []; auto.
  - apply rbind_val in H. destruct H as [cl [us1 [H1 H2]]].
    apply rbind_val in H2. destruct H2 as [cls' [us2 [H2 H3]]]. inversion H3; subst.
    destruct (IH _ _ _ H2) as [F [used2 E2]].
    assert (C : is_cluster h sd r m cl /\ exists used, us = used ++ us1).
    { destruct m as [|[|m]].
      - discriminate.
      - inversion H1; subst. split; [|exists []; auto].
        split; auto. exists []. split; auto. simpl; tauto.
      - apply rbind_val in H1. destruct H1 as [cand [us3 [H1 H4]]]. inversion H4; subst.
        apply uniform_circle_sound in H1. destruct H1 as [A [B C]].
        split; auto. split; [simpl; lia|]. exists cand. split; auto. }
    destruct C as [C [used1 E1]]. split; [constructor; auto|].
    exists (used1 ++ used2). subst. rewrite <- app_assoc. reflexivity.
Qed.

Lemma zip3_length : forall A B C (a : list A) (b : list B) (c : list C),
  List.length a = List.length b -> List.length b = List.length c ->
  List.length (zip3 a b c) = List.length a /\
  map (fun x => fst (fst x)) (zip3 a b c) = a /\ map (fun x => snd (fst x)) (zip3 a b c) = b /\
  map snd (zip3 a b c) = c.
Proof.
  induction a; destruct b, c; simpl; intros; try discriminate; auto.
  destruct (IHa b0 c0) as [H1 [H2 [H3 H4]]]; auto. rewrite H1, H2, H3, H4. auto.
Qed.

Lemma Forall2_nth : forall A B (P : A -> B -> Prop) l m i a b,
  Forall2 P l m -> nth_error l i = Some a -> nth_error m i = Some b -> P a b.
Proof.
  intros A B P l m i a b H. revert i. induction H; intros i Ha Hb; destruct i; simpl in *; try discriminate.
  - inversion Ha; inversion Hb; subst; auto.
  - eauto.
Qed.

Lemma concat_length_sum : forall A (l : list (list A)),
  List.length (concat l) = list_sum (map (@List.length A) l).
Proof. induction l; simpl; auto. rewrite app_length, IHl. reflexivity. Qed.

Lemma cluster_replication_sound : forall h halfmin rad ro k n sd us rep rest,
  (1 <= k)%nat -> List.length sd = k ->
  fixed_radii rad (Z.of_nat k) = Ok ro ->
  (forall p, In p sd -> h_contains h p = true) ->
  cluster_replication h halfmin ro k n (Arr2 sd) us = Val rep rest ->
  List.length rep = n /\ clustered h k n (radii_of halfmin rad k) rep /\
  (forall p, In p rep -> h_contains h p = true) /\
  exists used, us = used ++ rest.
Proof.
  intros h halfmin rad ro k n sd us rep rest Hk Hsd Hr Hin H. simpl in H.
  set (rs := match ro with Some r => r | None => List.repeat (halfmin sd) k end) in *.
  assert (Lr : List.length rs = k /\ radii_of halfmin rad k sd rs).
  { unfold rs. destruct rad; simpl in Hr.
    - inversion Hr; subst. simpl. rewrite repeat_length. auto.
    - inversion Hr; subst. simpl. rewrite Nat2Z.id, repeat_length. auto.
    - destruct (Z.eqb_spec (Z.of_nat (List.length l)) (Z.of_nat k)); inversion Hr; subst. simpl. split; [lia|auto]. }
  destruct Lr as [Lr Rr].
  apply rbind_val in H. destruct H as [cls [us1 [H1 H2]]]. inversion H2; subst rep us1. clear H2.
  apply fill_clusters_sound in H1. destruct H1 as [F U].
  pose proof (split_sizes_length n k Hk) as Ls.
  destruct (zip3_length _ _ _ sd rs (split_sizes n k)) as [Z1 [Z2 [Z3 Z4]]]; [congruence|congruence|].
  assert (LC : map (@List.length pt) cls = split_sizes n k).
  { rewrite <- Z4. clear - F. induction F; simpl; auto. f_equal; auto. apply H. }
  assert (Lcls : List.length cls = k).
  { rewrite <- (map_length (@List.length pt)), LC. auto. }
  assert (Len : List.length (concat cls) = n).
  { rewrite concat_length_sum, LC. apply split_sizes_sum; auto. }
  assert (Nth : forall i s0 r g, nth_error sd i = Some s0 -> nth_error rs i = Some r ->
     nth_error cls i = Some g -> is_cluster h s0 r (List.length g) g /\
     (n / k <= List.length g <= n / k + 1)%nat).
  { intros i s0 r g A B C.
    destruct (nth_error (zip3 sd rs (split_sizes n k)) i) as [[[s1 r1] m1]|] eqn:E.
    2:{ apply nth_error_None in E. assert (nth_error cls i <> None) by congruence.
        apply nth_error_Some in H. lia. }
    pose proof (Forall2_nth _ _ _ _ _ _ _ _ F E C) as D. simpl in D.
    assert (s1 = s0). { rewrite <- Z2 in A. rewrite nth_error_map, E in A. inversion A; auto. }
    assert (r1 = r). { rewrite <- Z3 in B. rewrite nth_error_map, E in B. inversion B; auto. }
    assert (Hm : In m1 (split_sizes n k)).
    { rewrite <- Z4. apply nth_error_In in E. apply in_map_iff. exists (s1, r1, m1). auto. }
    subst. pose proof D as D'. destruct D as [D1 D2]. rewrite D1. split; auto.
    apply split_sizes_range; auto. }
  split; [exact Len|]. split; [|split; [|exact U]].
  - exists sd, rs, cls. split; [exact Hsd|]. split; [exact Lr|]. split; [exact Rr|]. auto.
  - intros p Hp. apply in_concat in Hp. destruct Hp as [g [Hg Hp]].
    apply In_nth_error in Hg. destruct Hg as [i Hi].
    assert (Bi : (i < k)%nat). { rewrite <- Lcls. apply nth_error_Some. congruence. }
    destruct (nth_error sd i) as [s0|] eqn:E1. 2:{ apply nth_error_None in E1. lia. }
    destruct (nth_error rs i) as [r0|] eqn:E2. 2:{ apply nth_error_None in E2. lia. }
    destruct (Nth i s0 r0 g E1 E2 Hi) as [[_ [tl [-> T]]] _].
    destruct Hp as [<-|Hp]; [|apply T; auto].
    apply Hin. eapply nth_error_In; eauto.
Qed.

(** ** The array returned by the inner [poisson] call for k >= 2 seeds *)
Lemma poisson_seeds : forall h k us a rest, (2 <= k)%Z ->
  poisson h None (SInt k) us = Val a rest ->
  exists sd, a = Arr2 sd /\ List.length sd = Z.to_nat k /\
    (forall p, In p sd -> h_contains h p = true).
Proof.
  intros h k us a rest Hk H.
  destruct (poisson_inv _ _ _ _ _ _ H) as [n [s [it [d [P1 [A [B [P2 ->]]]]]]]].
  simpl in P1. apply bind_ok in P1. destruct P1 as [i [_ P1]]. inversion P1; subst n s it. clear P1.
  apply (replicate_sound (fun l => List.length l = Z.to_nat k /\
           Forall (fun p => h_contains h p = true) l)) in P2.
  2:{ intros us' l r Hr. apply reject_sound in Hr. destruct Hr as [R1 [R2 _]]. split; auto.
      eapply Forall_impl; [|exact R2]. simpl. tauto. }
  destruct P2 as [L F]. change (Z.to_nat 1) with 1%nat in *.
  destruct d as [|l [|]]; try discriminate. inversion F as [|? ? [F1 F2]]; subst.
  exists l. split; [|split; auto].
  - unfold squeeze. simpl. destruct (Nat.eqb_spec (Z.to_nat k) 1); [lia|]. reflexivity.
  - rewrite Forall_forall in F2. auto.
Qed.

Lemma poisson_one_seed : forall h us a rest,
  poisson h None (SInt 1) us = Val a rest -> exists p, a = Arr1 p /\ h_contains h p = true.
Proof.
  intros h us a rest H.
  destruct (poisson_inv _ _ _ _ _ _ H) as [n [s [it [d [P1 [A [B [P2 ->]]]]]]]].
  simpl in P1. apply bind_ok in P1. destruct P1 as [i [_ P1]]. inversion P1; subst n s it. clear P1.
  apply (replicate_sound (fun l => List.length l = 1%nat /\
           Forall (fun p => h_contains h p = true) l)) in P2.
  2:{ intros us' l r Hr. apply reject_sound in Hr. destruct Hr as [R1 [R2 _]]. split; auto.
      eapply Forall_impl; [|exact R2]. simpl. tauto. }
  destruct P2 as [L F]. change (Z.to_nat 1) with 1%nat in *.
  destruct d as [|l [|]]; try discriminate. inversion F as [|? ? [F1 F2]]; subst.
  destruct l as [|p [|]]; try discriminate. exists p. split; [reflexivity|].
  inversion F2; auto.
Qed.

Lemma cluster_loop_sound : forall h halfmin rad ro k n s sss us d rest, (2 <= k)%Z ->
  fixed_radii rad k = Ok ro ->
  cluster_loop h halfmin ro k n s sss us = Val d rest ->
  List.length d = s /\
  Forall (fun rep => List.length rep = n /\
     clustered h (Z.to_nat k) n (radii_of halfmin rad (Z.to_nat k)) rep /\
     (forall p, In p rep -> h_contains h p = true)) d.
Proof.
  induction s as [|s IH]; intros sss us d rest Hk Hr H; simpl in H.
  - inversion H; subst. auto.
  - destruct sss as [|ss sss]; [discriminate|].
    destruct (poisson h None (SInt k) ss) as [seeds r0|e|] eqn:E; try discriminate.
    destruct (k <=? 0)%Z eqn:E0; qb; [lia|].
    destruct (poisson_seeds _ _ _ _ _ Hk E) as [sd [-> [L Hin]]].
    apply rbind_val in H. destruct H as [rep [us1 [H1 H2]]].
    apply rbind_val in H2. destruct H2 as [ls [us2 [H2 H3]]]. inversion H3; subst.
    rewrite <- (Z2Nat.id k) in Hr by lia.
    apply (cluster_replication_sound h halfmin rad) in H1; auto; [|lia].
    destruct H1 as [A [B [C _]]]. rewrite (Z2Nat.id k) in Hr by lia.
    destruct (IH _ _ _ _ Hk Hr H2) as [D F].
    split; [simpl; congruence|]. constructor; auto.
Qed.

Lemma cluster_poisson_inv : forall h halfmin i sz k rad sss us a rest,
  cluster_poisson h halfmin i sz k rad sss us = Val a rest ->
  exists ro n s it d, fixed_radii rad k = Ok ro /\ parse_size_and_intensity h i sz = Ok (n, s, it) /\
    (0 <= n)%Z /\ (0 <= s)%Z /\
    cluster_loop h halfmin ro k (Z.to_nat n) (Z.to_nat s) sss us = Val d rest /\
    a = squeeze (Z.to_nat s) (Z.to_nat n) d.
Proof.
  intros h halfmin i sz k rad sss us a rest H. unfold cluster_poisson in H.
  apply rbind_val in H. destruct H as [ro [us1 [H1 H]]]. apply lift_val in H1. destruct H1 as [H1 ->].
  apply rbind_val in H. destruct H as [[[n s] it] [us2 [H2 H]]]. apply lift_val in H2. destruct H2 as [H2 ->].
  apply rbind_val in H. destruct H as [[n' s'] [us3 [H3 H]]]. apply lift_val in H3. destruct H3 as [H3 ->].
  apply alloc_ok in H3. destruct H3 as [A [B [-> ->]]].
  apply rbind_val in H. destruct H as [d [us4 [H4 H]]]. inversion H; subst.
  exists ro, n, s, it, d. auto 10.
Qed.

Lemma cluster_poisson_sound : forall h halfmin i sz k rad sss us a rest, (2 <= k)%Z ->
  cluster_poisson h halfmin i sz k rad sss us = Val a rest ->
  exists n s it d, parse_size_and_intensity h i sz = Ok (n, s, it) /\ (0 <= n)%Z /\ (0 <= s)%Z /\
    holds_replications a d (Z.to_nat n) (Z.to_nat s) /\
    (forall p, In p (arr_points a) -> h_contains h p = true) /\
    (forall rep, In rep d ->
       clustered h (Z.to_nat k) (Z.to_nat n) (radii_of halfmin rad (Z.to_nat k)) rep).
Proof.
  intros h halfmin i sz k rad sss us a rest Hk H.
  destruct (cluster_poisson_inv _ _ _ _ _ _ _ _ _ _ H) as [ro [n [s [it [d [R [P [A [B [L ->]]]]]]]]]].
  exists n, s, it, d. split; auto. split; auto. split; auto.
  apply (cluster_loop_sound h halfmin rad) in L; auto. destruct L as [Ld F].
  assert (F1 : Forall (fun l => List.length l = Z.to_nat n) d).
  { eapply Forall_impl; [|exact F]. simpl. tauto. }
  split; [apply squeeze_holds; auto|]. rewrite Forall_forall in F. split.
  - intros p Hp. rewrite (proj1 (squeeze_points _ _ _ Ld F1)) in Hp. apply in_concat in Hp.
    destruct Hp as [rep [Hr Hp]]. apply (F rep Hr); auto.
  - intros rep Hr. apply (F rep Hr).
Qed.

(** Too few observations: Exception as soon as the seeds are drawn. *)
Lemma fill_too_few : forall h sd rs j k us,
  (j < k)%nat -> List.length sd = k -> List.length rs = k ->
  fill_clusters h (zip3 sd rs (List.repeat 1%nat j ++ List.repeat 0%nat (k - j))) us = Exc PlainException.
Proof.
  intros h sd rs j k. revert sd rs k. induction j; intros sd rs k us Hj Hs Hr.
  - destruct sd as [|a sd]; destruct rs as [|r rs]; simpl in *; try lia.
    destruct k; [lia|]. reflexivity.
  - destruct sd as [|a sd]; destruct rs as [|r rs]; simpl in *; try lia.
    destruct k as [|k]; [lia|]. replace (S k - S j)%nat with (k - j)%nat by lia.
    rewrite IHj by lia. reflexivity.
Qed.

Lemma cluster_poisson_too_few : forall h halfmin i sz k rad ss sss us n s it seeds r0 ro,
  (2 <= k)%Z -> parse_size_and_intensity h i sz = Ok (n, s, it) -> (0 <= n)%Z -> (1 <= s)%Z ->
  (n < k)%Z -> fixed_radii rad k = Ok ro ->
  poisson h None (SInt k) ss = Val seeds r0 ->
  cluster_poisson h halfmin i sz k rad (ss :: sss) us = Exc PlainException.
Proof.
  intros h halfmin i sz k rad ss sss us n s it seeds r0 ro Hk HP Hn Hs Hnk Hr Hseeds.
  unfold cluster_poisson. rewrite Hr. simpl. rewrite HP. simpl. unfold alloc.
  destruct (n <? 0)%Z eqn:E1; qb; [lia|]. destruct (s <? 0)%Z eqn:E2; qb; [lia|]. simpl.
  destruct (Z.to_nat s) as [|s'] eqn:Es; [lia|]. simpl. rewrite Hseeds.
  destruct (k <=? 0)%Z eqn:E0; qb; [lia|].
  destruct (poisson_seeds _ _ _ _ _ Hk Hseeds) as [sd [-> [L _]]]. simpl.
  set (rs := match ro with Some r => r | None => List.repeat (halfmin sd) (Z.to_nat k) end).
  assert (Lr : List.length rs = Z.to_nat k).
  { unfold rs. destruct rad; simpl in Hr.
    - inversion Hr; subst. apply repeat_length.
    - inversion Hr; subst. apply repeat_length.
    - destruct (Z.eqb_spec (Z.of_nat (List.length l)) k); inversion Hr; subst. lia. }
  assert (SS : split_sizes (Z.to_nat n) (Z.to_nat k) =
    List.repeat 1%nat (Z.to_nat n) ++ List.repeat 0%nat (Z.to_nat k - Z.to_nat n)).
  { unfold split_sizes. rewrite Nat.div_small, Nat.mod_small by lia. reflexivity. }
  rewrite SS, fill_too_few; auto. lia.
Qed.

(** A single seed: what happens in all cases. *)
Lemma cluster_poisson_one_seed : forall h halfmin i sz rad sss us a rest n s it,
  cluster_poisson h halfmin i sz 1 rad sss us = Val a rest ->
  parse_size_and_intensity h i sz = Ok (n, s, it) -> (1 <= s)%Z ->
  n = 1%Z /\ rad <> RadNone /\ forall p, In p (arr_points a) -> fst p = snd p.
Proof.
  intros h halfmin i sz rad sss us a rest n s it H HP Hs.
  destruct (cluster_poisson_inv _ _ _ _ _ _ _ _ _ _ H) as [ro [n' [s' [it' [d [R [P [A [B [L ->]]]]]]]]]].
  rewrite P in HP. inversion HP; subst n' s' it'. clear HP.
  assert (G : forall s sss us d rest, cluster_loop h halfmin ro 1 (Z.to_nat n) s sss us = Val d rest ->
     List.length d = s /\ ((1 <= s)%nat -> n = 1%Z /\ ro <> None) /\
     Forall (fun rep => exists x, rep = [(x, x)]) d).
  { clear L H. induction s0 as [|s0 IH]; intros sss0 us0 d0 rest0 L; simpl in L.
    - inversion L; subst. split; auto. split; [lia|constructor].
    - destruct sss0 as [|ss0 sss0]; [discriminate|].
      destruct (poisson h None (SInt 1) ss0) as [seeds r0|e|] eqn:E; try discriminate.
      destruct (poisson_one_seed _ _ _ _ E) as [p [-> _]].
      apply rbind_val in L. destruct L as [rep [us1 [H1 H2]]].
      apply rbind_val in H2. destruct H2 as [ls [us2 [H2 H3]]]. inversion H3; subst.
      destruct (IH _ _ _ _ H2) as [C [_ F]].
      unfold cluster_replication in H1. destruct ro as [r|]; [|discriminate].
      destruct (Z.to_nat n) as [|[|m]] eqn:En; try discriminate. inversion H1; subst.
      split; [simpl; congruence|]. split.
      + intros _. split; [lia|discriminate].
      + constructor; eauto. }
  destruct (G _ _ _ _ _ L) as [Ld [G1 G2]].
  destruct G1 as [-> G1]; [lia|]. split; auto. split.
  - intro; subst. simpl in R. inversion R; subst. congruence.
  - intros p Hp. assert (F1 : Forall (fun l => List.length l = Z.to_nat 1) d).
    { eapply Forall_impl; [|exact G2]. intros l [x ->]. reflexivity. }
    rewrite (proj1 (squeeze_points _ _ _ Ld F1)) in Hp. apply in_concat in Hp.
    destruct Hp as [l [Hl Hp]]. rewrite Forall_forall in G2. destruct (G2 l Hl) as [x ->].
    destruct Hp as [<-|[]]. reflexivity.
Qed.

(** ** cluster_normal *)
Lemma map_snd_combine : forall A B (a : list A) (b : list B),
  List.length a = List.length b -> map snd (combine a b) = b.
Proof.
  induction a; destruct b; simpl; intros; try discriminate; auto. f_equal; auto.
Qed.

Lemma normal_cluster_sound : forall h mk cov c m cs cl rest,
  normal_cluster h mk cov c m cs = Val cl rest ->
  List.length cl = m /\ exists tl, cl = c :: tl /\ forall p, In p tl -> h_contains h p = true.
Proof.
  intros h mk cov c m cs cl rest H. destruct m as [|[|m]]; simpl in H.
  - discriminate.
  - inversion H; subst. split; auto. exists []. split; [auto|]. simpl; tauto.
  - apply rbind_val in H. destruct H as [cand [cs' [H1 H2]]].
    apply normal_sound in H1. destruct H1 as [n [s [it [d [P [A [B [Hd [Sh Hin]]]]]]]]].
    simpl in P. apply bind_ok in P. destruct P as [i [_ P]]. inversion P; subst n s it.
    destruct Hd as [L [F E]]. simpl in L. change (Z.to_nat 1) with 1%nat in L.
    destruct d as [|l [|]]; try discriminate. inversion F as [|? ? F1]; subst. simpl in E.
    rewrite app_nil_r in E.
    assert (F2 : List.length l = S m) by lia. clear F1. rename F2 into F1.
    destruct cand as [p|l0|s0 n0 d0]; [| |discriminate]; inversion H2; subst; simpl in *.
    + split; [simpl; rewrite <- F1; reflexivity|]. exists [p]. split; auto.
    + split; [simpl; lia|]. eexists. split; [reflexivity|]. auto.
Qed.

Lemma normal_loop_sound : forall h mk meansq k n s cov streams d rest, (2 <= k)%Z ->
  normal_loop h mk meansq cov k n s streams = Val d rest ->
  List.length d = s /\
  Forall (fun rep => List.length (fst rep) = n /\
     (forall p, In p (fst rep) -> h_contains h p = true)) d /\
  (match cov with CNone => True | c => Forall (fun rep => snd rep = c) d end).
Proof.
  induction s as [|s IH]; intros cov streams d rest Hk H; simpl in H.
  - inversion H; subst. split; auto. split; auto. destruct cov; auto.
  - destruct streams as [|[ss cs] rest0]; [discriminate|].
    destruct (poisson h None (SInt k) ss) as [seeds r0|e|] eqn:E; try discriminate.
    destruct (poisson_seeds _ _ _ _ _ Hk E) as [sd [-> [L Hin]]].
    destruct (k <=? 0)%Z eqn:E0; qb; [lia|].
    set (cov' := match cov with CNone => CScalar (meansq sd) | c => c end) in *.
    apply rbind_val in H. destruct H as [cls [us1 [H1 H2]]].
    apply rbind_val in H2. destruct H2 as [ls [us2 [H2 H3]]]. inversion H3; subst.
    destruct (IH _ _ _ _ Hk H2) as [A [B C]].
    assert (FF : Forall2 (fun x cl => List.length cl = snd x /\
       forall p, In p cl -> h_contains h p = true) (combine sd (split_sizes n (Z.to_nat k))) cls).
    { assert (Hc : forall x, In x (combine sd (split_sizes n (Z.to_nat k))) -> h_contains h (fst x) = true).
      { intros [c m] Hx. apply in_combine_l in Hx. auto. }
      revert Hc H1. generalize (combine sd (split_sizes n (Z.to_nat k))) as l. clear - us1.
      intros l. revert cs us1 cls. induction l as [|[c m] l IHl]; intros cs us1 cls Hc H; simpl in H.
      - inversion H; subst; constructor.
      - destruct cs as [|c0 css]; [discriminate|].
        apply rbind_val in H. destruct H as [cl [u1 [H1 H2]]].
        apply rbind_val in H2. destruct H2 as [cls' [u2 [H2 H3]]]. inversion H3; subst.
        apply normal_cluster_sound in H1. destruct H1 as [M1 [tl [-> M2]]].
        constructor.
        + split; auto. intros p [<-|Hp]; auto. apply (Hc (c, m)). simpl; auto.
        + eapply IHl; eauto. intros; apply Hc; simpl; auto. }
    assert (Lk : (1 <= Z.to_nat k)%nat) by lia.
    assert (LC : map (@List.length pt) cls = split_sizes n (Z.to_nat k)).
    { transitivity (map snd (combine sd (split_sizes n (Z.to_nat k)))).
      - clear - FF. induction FF; simpl; auto. f_equal; auto. apply H.
      - pose proof (split_sizes_length n (Z.to_nat k) Lk) as X.
        apply map_snd_combine. congruence. }
    split; [simpl; congruence|]. split.
    + constructor; auto. simpl. split.
      * rewrite concat_length_sum, LC. apply split_sizes_sum; auto.
      * intros p Hp. apply in_concat in Hp. destruct Hp as [g [Hg Hp]].
        clear - FF Hg Hp. induction FF; [inversion Hg|].
        destruct Hg as [<-|Hg]; auto. apply H; auto.
    + destruct cov; auto; constructor; auto.
Qed.

Lemma cluster_normal_inv : forall h mk meansq cov sz k streams a covs rest,
  cluster_normal h mk meansq cov sz k streams = Val (a, covs) rest ->
  exists n s it d, parse_size_and_intensity h None sz = Ok (n, s, it) /\
    (0 <= n)%Z /\ (0 <= s)%Z /\
    normal_loop h mk meansq cov k (Z.to_nat n) (Z.to_nat s) streams = Val d rest /\
    a = squeeze (Z.to_nat s) (Z.to_nat n) (map fst d) /\ covs = map snd d.
Proof.
  intros h mk meansq cov sz k streams a covs rest H. unfold cluster_normal in H.
  apply rbind_val in H. destruct H as [[[n s] it] [us2 [H2 H]]]. apply lift_val in H2. destruct H2 as [H2 ->].
  apply rbind_val in H. destruct H as [[n' s'] [us3 [H3 H]]]. apply lift_val in H3. destruct H3 as [H3 ->].
  apply alloc_ok in H3. destruct H3 as [A [B [-> ->]]].
  apply rbind_val in H. destruct H as [d [us4 [H4 H]]]. inversion H; subst.
  exists n, s, it, d. auto 10.
Qed.

Lemma cluster_normal_sound : forall h mk meansq cov sz k streams a covs rest, (2 <= k)%Z ->
  cluster_normal h mk meansq cov sz k streams = Val (a, covs) rest ->
  exists n s it d, parse_size_and_intensity h None sz = Ok (n, s, it) /\ (0 <= n)%Z /\ (0 <= s)%Z /\
    holds_replications a d (Z.to_nat n) (Z.to_nat s) /\
    (forall p, In p (arr_points a) -> h_contains h p = true).
Proof.
  intros h mk meansq cov sz k streams a covs rest Hk H.
  destruct (cluster_normal_inv _ _ _ _ _ _ _ _ _ _ H) as [n [s [it [d [P [A [B [L [-> _]]]]]]]]].
  exists n, s, it, (map fst d). split; auto. split; auto. split; auto.
  apply normal_loop_sound in L; auto. destruct L as [Ld [F _]].
  assert (F1 : Forall (fun l => List.length l = Z.to_nat n) (map fst d)).
  { apply Forall_forall. intros l Hl. apply in_map_iff in Hl. destruct Hl as [x [<- Hx]].
    rewrite Forall_forall in F. apply (F x Hx). }
  assert (Ld' : List.length (map fst d) = Z.to_nat s) by (rewrite map_length; auto).
  split; [apply squeeze_holds; auto|].
  intros p Hp. rewrite (proj1 (squeeze_points _ _ _ Ld' F1)) in Hp. apply in_concat in Hp.
  destruct Hp as [l [Hl Hp]]. apply in_map_iff in Hl. destruct Hl as [x [<- Hx]].
  rewrite Forall_forall in F. apply (F x Hx); auto.
Qed.

(** The default covariance is the one of the first replication. *)
Lemma cluster_normal_default_cov : forall h mk meansq sz k streams a covs rest, (2 <= k)%Z ->
  cluster_normal h mk meansq CNone sz k streams = Val (a, covs) rest ->
  forall c1 c2, In c1 covs -> In c2 covs -> c1 = c2.
Proof.
  intros h mk meansq sz k streams a covs rest Hk H.
  destruct (cluster_normal_inv _ _ _ _ _ _ _ _ _ _ H) as [n [s [it [d [P [A [B [L [-> ->]]]]]]]]].
  destruct (Z.to_nat s) as [|s']; simpl in L.
  - inversion L; subst. simpl. tauto.
  - destruct streams as [|[ss cs] rest0]; [discriminate|].
    destruct (poisson h None (SInt k) ss) as [seeds r0|e|] eqn:E; try discriminate.
    destruct (poisson_seeds _ _ _ _ _ Hk E) as [sd [-> [Lsd Hin]]].
    destruct (k <=? 0)%Z eqn:E0; qb; [lia|].
    apply rbind_val in L. destruct L as [cls [us1 [H1 H2]]].
    apply rbind_val in H2. destruct H2 as [ls [us2 [H2 H3]]]. inversion H3; subst.
    apply normal_loop_sound in H2; auto. destruct H2 as [_ [_ F]]. simpl in F.
    assert (X : forall c, In c (map snd ((concat cls, CScalar (meansq sd)) :: ls)) -> c = CScalar (meansq sd)).
    { simpl. intros c [<-|Hc]; auto. apply in_map_iff in Hc. destruct Hc as [x [<- Hx]].
      rewrite Forall_forall in F. apply (F x Hx). }
    intros c1 c2 C1 C2. rewrite (X c1 C1), (X c2 C2). reflexivity.
Qed.

Lemma cluster_normal_one_seed : forall h mk meansq cov sz streams a rest n s it,
  parse_size_and_intensity h None sz = Ok (n, s, it) -> (1 <= s)%Z ->
  cluster_normal h mk meansq cov sz 1 streams <> Val a rest.
Proof.
  intros h mk meansq cov sz streams [a covs] rest n s it HP Hs H.
  destruct (cluster_normal_inv _ _ _ _ _ _ _ _ _ _ H) as [n' [s' [it' [d [P [A [B [L _]]]]]]]].
  rewrite P in HP. inversion HP; subst. destruct (Z.to_nat s) eqn:E; [lia|]. simpl in L.
  destruct streams as [|[ss cs] r]; [discriminate|].
  destruct (poisson h None (SInt 1) ss) as [seeds r0|e|] eqn:E2; try discriminate.
  destruct (poisson_one_seed _ _ _ _ E2) as [p [-> _]].
  destruct cov; destruct (Z.to_nat n) as [|[|m]]; discriminate.
Qed.
