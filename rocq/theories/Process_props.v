(** Theorems about process.py: properties C39, C40. *)
From Coq Require Import String.
From Coq Require Import ZArith QArith Qround List Bool Lia Lqa Permutation.
From Verif Require Import Base BaseLemmas Quadrat_model Geometry_model Random_model Random_spec Random_proofs
  Pattern_model Process_model Process_proofs.
Import ListNotations.
Local Open Scope Q_scope.

(** ** C39 *)
(** For every window and every way of proposing points. *)
Theorem C39_draw : forall contains realize n us l rest, draw contains realize n us = Val l rest ->
  List.length l = n /\ (forall p, In p l -> contains p = true).
Proof.
  intros contains realize n us l rest H. unfold draw in H. apply draw_loop_sound in H; auto.
  destruct H as [L F]. rewrite Forall_forall in F. auto.
Qed.
Print Assumptions C39_draw.

(** The Poisson process keeps the first n proposed points of the window; blocks
    of 2n numbers are used, as few as suffice. *)
Theorem C39_draw_exact : forall contains b n us l rest, draw contains (realize_poisson b) n us = Val l rest ->
  exists blocks, us = concat blocks ++ rest /\ (forall blk, In blk blocks -> List.length blk = (2 * n)%nat) /\
    l = firstn n (filter contains (concat (map (block_points b n) blocks))) /\
    (forall init last, blocks = init ++ [last] ->
      (List.length (filter contains (concat (map (block_points b n) init))) < n)%nat).
Proof.
  intros contains b n us l rest H. unfold draw in H. apply draw_loop_exact in H.
  destruct H as [blocks [A [B [C D]]]]. exists blocks. rewrite Forall_forall in B. auto.
Qed.
Print Assumptions C39_draw_exact.

Theorem C39_terminates : forall contains b n blocks rest,
  (0 < n)%nat -> (forall blk, In blk blocks -> List.length blk = (2 * n)%nat) ->
  (n <= List.length (filter contains (concat (map (block_points b n) blocks))))%nat ->
  exists l rest', draw contains (realize_poisson b) n (concat blocks ++ rest) = Val l rest'.
Proof.
  intros contains b n blocks rest N F L. unfold draw. apply draw_loop_terminates; auto.
  - apply Forall_forall. exact F.
  - rewrite app_length. clear L. induction blocks as [|x bs IH]; simpl; [lia|]. rewrite app_length.
    rewrite (F x) by (left; reflexivity). assert (I : (List.length bs <= S (List.length (concat bs) + List.length rest))%nat)
      by (apply IH; intros; apply F; right; auto). lia.
Qed.
Print Assumptions C39_terminates.

(** Realization i has parameters[i]["n"] points; without conditioning there are
    [samples] realizations of n points. *)
Theorem C39_realizations : forall contains realize params us ls rest,
  realizations contains realize params us = Val ls rest ->
  List.length ls = List.length params /\
  forall i l, nth_error ls i = Some l -> nth_error params i = Some (List.length l) /\
    (forall p, In p l -> contains p = true).
Proof.
  intros contains realize params us ls rest H. apply realizations_sound in H.
  split; [symmetry; eapply Forall2_len; eauto|]. induction H; intros i l0 E.
  - destruct i; discriminate.
  - destruct i; simpl in *.
    + inversion E; subst. destruct H as [<- F]. rewrite Forall_forall in F. auto.
    + eapply IHForall2; eauto.
Qed.
Print Assumptions C39_realizations.
Theorem C39_unconditioned : forall b contains lambdas n samples us ls rest,
  poisson_process b contains false lambdas n samples us = Val ls rest ->
  List.length ls = samples /\ (forall l, In l ls -> List.length l = n /\ forall p, In p l -> contains p = true).
Proof.
  intros b contains lambdas n samples us ls rest H. unfold poisson_process, poisson_params in H.
  destruct (C39_realizations _ _ _ _ _ _ H) as [A B]. rewrite repeat_length in A. split; auto.
  intros l Hl. apply In_nth_error in Hl. destruct Hl as [i Hi]. destruct (B _ _ Hi) as [C D]. split; auto.
  apply nth_error_In in C. apply repeat_spec in C. auto.
Qed.
Print Assumptions C39_unconditioned.

(** asPP: a realization becomes a pattern with the same points, in order, and the
    window of the process; an empty one raises ValueError. *)
Theorem C39_as_pattern : forall w l,
  (l <> [] -> exists s, as_pattern w l = Ok s /\ p_pts s = l /\ p_win s = Some w) /\
  (l = [] -> as_pattern w l = Raise ValueError).
Proof.
  intros w l. split; intro H.
  - unfold as_pattern. destruct l as [|p l]; [congruence|]. set (l0 := p :: l) in *.
    assert (F : frame_points (mkframe ["x"; "y"]%string (map pt_row l0)) "x" "y" = Ok l0).
    { clearbody l0. unfold frame_points. cbn. clear. induction l0 as [|[x y] l0 IH]; [reflexivity|]. cbn. cbn in IH. rewrite IH. reflexivity. }
    unfold pattern_init. cbn [app map seq firstn List.length Nat.eqb Nat.sub option_map fst].
    rewrite F. cbn [bind]. eexists. split; [reflexivity|]. split; reflexivity.
  - subst. reflexivity.
Qed.
Print Assumptions C39_as_pattern.
(** With conditioning, a Poisson number 0 therefore makes the constructor fail. *)
Theorem C39_empty_realization_refuted : forall b contains w us,
  exists ls, poisson_process b contains true [0%nat] 5 1 us = Val ls us /\
    mapM (as_pattern w) ls = Raise ValueError.
Proof. intros. exists [[]]. split; reflexivity. Qed.
Print Assumptions C39_empty_realization_refuted.

(** Window: the disc of radius 1/2 in the unit square. *)
Definition disc (p : pt) : bool :=
  Qle_bool ((fst p - (1#2)) * (fst p - (1#2)) + (snd p - (1#2)) * (snd p - (1#2))) (1#4).
Example C39_case : exists l rest,
  draw disc (realize_poisson (mkbox 0 0 1 1)) 2 [0; 1#2; 0; 1#4; 1#3; 1; 1#3; 1; 7] = Val l rest /\
  l = firstn 2 (filter disc (concat (map (block_points (mkbox 0 0 1 1) 2) [[0; 1#2; 0; 1#4]; [1#3; 1; 1#3; 1]]))) /\
  List.length l = 2%nat /\ rest = [7].
Proof. do 2 eexists. split; [vm_compute; reflexivity|]. vm_compute. auto. Qed.

(** ** C40 *)
Theorem C40_children : forall n parents, (0 < n)%nat -> (0 < parents)%nat ->
  forall k, (children_of n parents <= k)%nat <-> (n <= k * parents)%nat.
Proof.
  intros n p N P k. destruct (children_bounds n p) as [A B]; [lia|]. destruct B as [B C]; [lia|]. split; intro H.
  - nia.
  - destruct (Nat.le_gt_cases (children_of n p) k); auto. exfalso. assert (k <= children_of n p - 1)%nat by lia. nia.
Qed.
Print Assumptions C40_children.

Theorem C40_parameters : forall conditioning lambdas n parents samples i k m,
  nth_error (fst (cluster_params conditioning lambdas n parents samples)) i = Some k ->
  nth_error (snd (cluster_params conditioning lambdas n parents samples)) i = Some m ->
  (conditioning = false -> k = n /\ m = parents /\ (i < samples)%nat) /\
  (conditioning = true -> k = (m * children_of n parents)%nat).
Proof.
  intros conditioning lambdas n parents samples i k m H1 H2. destruct conditioning; simpl in *; split; try discriminate; intros _.
  - rewrite nth_error_map, H2 in H1. inversion H1. reflexivity.
  - assert (I : (i < samples)%nat).
    { assert (X : nth_error (repeat n samples) i <> None) by congruence. apply nth_error_Some in X. rewrite repeat_length in X. exact X. }
    rewrite nth_error_repeat in H1, H2 by auto. inversion H1; inversion H2; auto.
Qed.
Print Assumptions C40_parameters.

(** realize(n): n div children parents in the box, [children] points in the disc
    around each, in some order; the parents too when [keep]. *)
Theorem C40_realize : forall b children radius keep shuffle n us res rest,
  (forall l, Permutation (shuffle l) l) ->
  realize_cluster_rows b children radius keep shuffle n us = Val res rest ->
  List.length res = ((n / children) * (if keep then S children else children))%nat /\
  exists blk cents pnts, cents = block_points b (n / children) blk /\ List.length blk = (2 * (n / children))%nat /\
    List.length cents = (n / children)%nat /\ (exists used, us = blk ++ used ++ rest) /\
    Forall2 (fun c l => List.length l = children /\ (forall p, In p l -> in_disc radius c p)) cents pnts /\
    Permutation res ((if keep then cents else []) ++ concat pnts).
Proof.
  intros b children radius keep shuffle n us res rest Sh H.
  destruct (realize_cluster_rows_sound _ _ _ _ _ _ _ _ _ Sh H) as [_ [_ [blk [cents [pnts [A [B [C [D [E F]]]]]]]]]].
  split; [|exists blk, cents, pnts; tauto].
  apply Permutation_length in F. rewrite F. rewrite app_length.
  assert (G : List.length (concat pnts) = (List.length cents * children)%nat).
  { clear -E. induction E; simpl; auto. rewrite app_length. destruct H as [-> _]. rewrite IHE. reflexivity. }
  rewrite G, C. destruct keep; simpl; [rewrite C|]; nia.
Qed.
Print Assumptions C40_realize.

(** A realization of size n uses n div children parents per pass: at most
    [parents], and [parents] exactly when parents divides n. *)
Theorem C40_drawn_parents : forall n parents, (0 < n)%nat -> (0 < parents)%nat ->
  (drawn_parents n (children_of n parents) <= parents)%nat /\
  (drawn_parents n (children_of n parents) = parents <-> exists q, n = (q * parents)%nat).
Proof.
  intros n p N P. destruct (children_bounds n p) as [A B]; [lia|]. destruct B as [B C]; [lia|].
  set (c := children_of n p) in *. rewrite drawn_parents_div by lia.
  assert (L : (n / c <= p)%nat).
  { apply Nat.div_le_upper_bound; lia. }
  split; auto. split.
  - intro E. exists c. pose proof (Nat.mul_div_le n c ltac:(lia)). rewrite E in H. lia.
  - clearbody c. intros [q ->]. assert (Q : c = q) by nia. subst c. rewrite Nat.mul_comm. apply Nat.div_mul. lia.
Qed.
Print Assumptions C40_drawn_parents.
Theorem C40_num_parents_refuted : drawn_parents 10 (children_of 10 4) = 3%nat /\
  snd (cluster_params false [] 10 4 1) = [4%nat].
Proof. split; vm_compute; reflexivity. Qed.
Print Assumptions C40_num_parents_refuted.

(** The constructor never succeeds on a process with a point: draw indexes the
    rows of the array returned by realize as if they held arrays. *)
Lemma draw_cluster_fails : forall b children radius keep shuffle contains n us,
  (forall l, Permutation (shuffle l) l) -> (0 < n)%nat ->
  (forall l rest, draw contains (realize_cluster b children radius keep shuffle) n us <> Val l rest) /\
  (forall res rest, realize_cluster_rows b children radius keep shuffle n us = Val res rest ->
     draw contains (realize_cluster b children radius keep shuffle) n us = Exc IndexError).
Proof.
  intros b children radius keep shuffle contains n us Sh N.
  assert (NE : forall res rest, realize_cluster_rows b children radius keep shuffle n us = Val res rest -> res <> []).
  { intros res rest R. pose proof (C40_realize _ _ _ _ _ _ _ _ _ Sh R) as [L _].
    apply realize_cluster_rows_sound in R; auto. destruct R as [R1 [R2 _]]. intros ->. simpl in L.
    destruct keep; nia. }
  assert (D : forall res rest, realize_cluster_rows b children radius keep shuffle n us = Val res rest ->
     draw contains (realize_cluster b children radius keep shuffle) n us = Exc IndexError).
  { intros res rest R. unfold draw. cbn [draw_loop]. destruct (Nat.ltb_spec (List.length (@nil pt)) n); [|simpl in *; lia].
    unfold realize_cluster at 1. rewrite R. cbn [rbind]. rewrite to_points_scalar by (eapply NE; eauto). reflexivity. }
  split; [|exact D]. intros l rest H.
  destruct (realize_cluster_rows b children radius keep shuffle n us) eqn:R.
  - rewrite (D _ _ eq_refl) in H. discriminate.
  - unfold draw in H. cbn [draw_loop] in H. destruct (Nat.ltb_spec (List.length (@nil pt)) n); [|simpl in *; lia].
    unfold realize_cluster in H at 1. rewrite R in H. discriminate.
  - unfold draw in H. cbn [draw_loop] in H. destruct (Nat.ltb_spec (List.length (@nil pt)) n); [|simpl in *; lia].
    unfold realize_cluster in H at 1. rewrite R in H. discriminate.
Qed.
Theorem C40_index_error_refuted : forall b contains conditioning lambdas n parents radius samples keep shuffle us,
  (forall l, Permutation (shuffle l) l) ->
  (exists k, In k (fst (cluster_params conditioning lambdas n parents samples)) /\ (0 < k)%nat) ->
  (forall ls rest, cluster_process b contains conditioning lambdas n parents radius samples keep shuffle us <> Val ls rest) /\
  (forall k ks res rest, (0 < parents)%nat -> (0 < k)%nat ->
     fst (cluster_params conditioning lambdas n parents samples) = k :: ks ->
     realize_cluster_rows b (children_of n parents) radius keep shuffle k us = Val res rest ->
     cluster_process b contains conditioning lambdas n parents radius samples keep shuffle us = Exc IndexError).
Proof.
  intros b contains conditioning lambdas n parents radius samples keep shuffle us Sh [k [Hk K]].
  unfold cluster_process. split.
  - destruct (Nat.eqb parents 0); [discriminate|].
    revert Hk us. generalize (fst (cluster_params conditioning lambdas n parents samples)). intro params.
    induction params as [|k0 params IH]; intros Hk us ls rest H; [destruct Hk|].
    cbn [realizations] in H. apply rbind_val in H. destruct H as [l [us1 [H1 H]]]. apply rbind_val in H. destruct H as [ls' [us2 [H2 _]]].
    destruct Hk as [->|Hk].
    + eapply (proj1 (draw_cluster_fails _ _ _ _ _ _ _ _ Sh K)); eauto.
    + eapply IH; eauto.
  - intros k1 ks res rest P K1 E R. destruct (Nat.eqb_spec parents 0); [lia|]. rewrite E. cbn [realizations].
    rewrite (proj2 (draw_cluster_fails _ _ _ _ _ contains _ _ Sh K1) _ _ R). reflexivity.
Qed.
Print Assumptions C40_index_error_refuted.

(** Two parents with two children each: realize works, the constructor does not. *)
Definition us_cluster : list Q := [1#4; 1#2; 1#4; 3#4] ++ repeat (1#2) 16.
Example C40_case :
  (exists res rest, realize_cluster_rows (mkbox 0 0 1 1) (children_of 4 2) (1#10) true (@rev pt) 4 us_cluster = Val res rest /\
     List.length res = 6%nat) /\
  cluster_process (mkbox 0 0 1 1) (fun _ => true) false [] 4 2 (1#10) 1 true (@rev pt) us_cluster = Exc IndexError.
Proof. split; [do 2 eexists; split; vm_compute; reflexivity|vm_compute; reflexivity]. Qed.
