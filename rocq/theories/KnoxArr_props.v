(** Theorems about KnoxLocal objects built from arrays (pointpats/spacetime.py 1229-1302). *)
From Coq Require Import ZArith QArith List Bool Arith Lia Lqa Sorting.Sorted.
From Verif Require Import Base BaseLemmas Spec Spacetime_model Spacetime_spec Spacetime_proofs Pairs_proofs Spacetime_props
  KnoxLocal_props Hotspot_props Spacetime3_props KnoxObj_model KnoxObj_props.
Import ListNotations.
Local Open Scope Q_scope.

(** ** Specification *)
(** All rows of an array are as long as it is wide. *)
Definition Filled (a : arr) : Prop := Forall (fun r => List.length r = a_width a) (a_rows a).
(** What the constructor takes: as many rows in both arrays, at least two columns of
    coordinates, one column of times, one label for every row. *)
Definition Acceptable (s t : arr) (ids : option (list Z)) : Prop :=
  List.length (a_rows s) = List.length (a_rows t) /\ (2 <= a_width s)%nat /\ a_width t = 1%nat /\
  (forall l, ids = Some l -> List.length l = List.length (a_rows s)).
(** The labels of the rows. *)
Definition Labels (n : nat) (ids : option (list Z)) (l : list Z) : Prop :=
  List.length l = n /\ (forall l', ids = Some l' -> l = l') /\
  (ids = None -> forall i, (i < n)%nat -> nth_error l i = Some (Z.of_nat i)).

(** ** Lemmas *)
Lemma mapM_times_ok : forall l, Forall (fun r => List.length r = 1%nat) l -> exists ts, mapM the_time l = Ok ts /\ l = map (fun t => [t]) ts.
Proof.
  intros l H. induction H as [|r l R0 H [ts [A B]]]; [exists []; auto|]. destruct r as [|t [|? ?]]; try discriminate.
  exists (t :: ts). cbn [mapM the_time bind map]. rewrite A, B. auto.
Qed.
Lemma mapM_times_inv : forall l ts, mapM the_time l = Ok ts -> l = map (fun t => [t]) ts.
Proof.
  induction l as [|r l IH]; intros ts H; cbn [mapM] in H; [injection H as <-; reflexivity|].
  destruct r as [|t [|? ?]]; cbn [the_time bind] in H; try discriminate.
  destruct (mapM the_time l) as [ts'|] eqn:M; cbn [bind] in H; [|discriminate]. injection H as <-. cbn [map]. f_equal. apply IH. reflexivity.
Qed.
Lemma mapM_times_raise : forall l e, mapM the_time l = Raise e -> e = ValueError.
Proof.
  induction l as [|r l IH]; intros e H; cbn [mapM] in H; [discriminate|].
  destruct r as [|t [|? ?]]; cbn [the_time bind] in H; try congruence.
  destruct (mapM the_time l) as [ts'|] eqn:M; cbn [bind] in H; [discriminate|]. apply IH. congruence.
Qed.
Lemma mapM_raise : forall A B (f : A -> res B) l e, mapM f l = Raise e -> (forall a e', In a l -> f a = Raise e' -> e' = ValueError) -> e = ValueError.
Proof.
  intros A B f. induction l as [|a l IH]; intros e H F; cbn [mapM] in H; [discriminate|].
  destruct (f a) as [b|e'] eqn:E; cbn [bind] in H; [|injection H as <-; eapply F; [left; reflexivity|exact E]].
  destruct (mapM f l) as [bs|] eqn:M; cbn [bind] in H; [discriminate|]. apply IH; [congruence|]. intros; eapply F; [right|]; eauto.
Qed.
Lemma local_raise : forall ball s t delta tau gperms perms e, knox_local ball s t delta tau gperms perms = Raise e -> e = ValueError.
Proof.
  intros ball s t delta tau gperms perms e H. unfold knox_local in H.
  destruct (knox_global ball s t delta tau gperms) as [k|e'] eqn:K; cbn [bind] in H.
  - destruct (adjlist_of t (k_st_pairs k)) as [adj|e'] eqn:A; cbn [bind] in H; [discriminate|]. injection H as <-.
    unfold adjlist_of in A. apply mapM_raise in A; auto. intros [i j] e2 _ X. unfold orient in X. cbn [fst snd] in X.
    destruct (row t i) as [|? [|? ?]]; cbn [bind] in X; try congruence. destruct (row t j) as [|? [|? ?]]; cbn [bind] in X; congruence.
  - injection H as <-. unfold knox_global in K. destruct (Nat.eqb _ _); [discriminate|]. congruence.
Qed.
Lemma check_inv : forall s t ids, knox_local_check (shape s) (shape t) (option_map (@List.length Z) ids) = Ok tt <->
  List.length (a_rows s) = List.length (a_rows t) /\ (2 <= a_width s)%nat /\ (forall l, ids = Some l -> List.length l = List.length (a_rows s)).
Proof.
  intros s t ids. destruct (C76_constructor (shape s) (shape t) (option_map (@List.length Z) ids)) as [C _]. rewrite C. unfold shape. split.
  - intros [n [k [m [A [B [K I]]]]]]. injection A as A1 A2. injection B as B1 B2. split; [congruence|]. split; [lia|].
    intros l ->. cbn [option_map] in I. destruct I as [I|I]; [discriminate|]. injection I as I. congruence.
  - intros [A [K I]]. exists (List.length (a_rows s)), (a_width s), (a_width t). split; [auto|]. split; [congruence|]. split; [auto|].
    destruct ids as [l|]; [right; cbn; f_equal; auto|left; auto].
Qed.
Lemma init_inv : forall ball s t delta tau gperms perms keep crit ids o,
  kl_init ball s t delta tau gperms perms keep crit ids = Ok o ->
  List.length (a_rows s) = List.length (a_rows t) /\ (2 <= a_width s)%nat /\
  exists l ts ll, Labels (List.length (a_rows s)) ids ll /\ a_rows t = map (fun x => [x]) ts /\
    knox_local ball (a_rows s) (a_rows t) delta tau gperms perms = Ok l /\
    kl_ids o = ll /\ kl_crit o = crit /\ kl_adj o = relabel_adj ll (l_adj l) /\ kl_nsti o = l_nsti l /\
    kl_p_hg o = l_p_hg l /\ kl_p_sims o = l_p_sims l /\ kl_gdf o = combine (combine ll (map point_of (a_rows s))) ts.
Proof.
  intros ball s t delta tau gperms perms keep crit ids o H. unfold kl_init in H.
  destruct (knox_local_check _ _ _) as [[]|] eqn:C; cbn [bind] in H; [|discriminate]. apply check_inv in C. destruct C as [L [W I]].
  destruct (knox_local _ _ _ _ _ _ _) as [l|] eqn:K; cbn [bind] in H; [|discriminate].
  destruct (mapM the_time (a_rows t)) as [ts|] eqn:M; cbn [bind] in H; [|discriminate]. apply mapM_times_inv in M.
  split; [auto|]. split; [auto|]. set (ll := match ids with Some l => l | None => _ end) in H. exists l, ts, ll. injection H as <-.
  cbn [kl_ids kl_crit kl_adj kl_nsti kl_p_hg kl_p_sims kl_gdf]. split; [|repeat split; auto].
  subst ll. destruct ids as [l0|]; (split; [|split]).
  - apply I. reflexivity.
  - intros l' E. congruence.
  - discriminate.
  - rewrite map_length, seq_length. reflexivity.
  - discriminate.
  - intros _ i Hi. rewrite nth_error_map. rewrite (nth_error_nth' _ 0%nat) by (rewrite seq_length; exact Hi). rewrite seq_nth by exact Hi. reflexivity.
Qed.

(** ** C145 *)
(** Exactly the acceptable arrays give an object; everything else is a ValueError. *)
Theorem C145_total : forall ball, Ball ball -> forall s t delta tau gperms perms keep crit ids, Filled s -> Filled t -> a_rows t <> [] ->
  ((exists o, kl_init ball s t delta tau gperms perms keep crit ids = Ok o) <-> Acceptable s t ids) /\
  (forall e, kl_init ball s t delta tau gperms perms keep crit ids = Raise e -> e = ValueError).
Proof.
  intros ball HB s t delta tau gperms perms keep crit ids FS FT NE. split; [split|].
  - intros [o H]. apply init_inv in H. destruct H as [L [W [l [ts [ll [LL [T _]]]]]]]. split; [auto|]. split; [auto|]. split.
    + destruct ts as [|x ts]; [cbn in T; contradiction|]. unfold Filled in FT. rewrite T in FT. inversion FT as [|? ? E _]. cbn in E. auto.
    + intros l' E. destruct LL as [LL1 [LL2 _]]. rewrite <- (LL2 _ E). exact LL1.
  - intros [L [W [W1 I]]]. unfold kl_init. rewrite (proj2 (check_inv s t ids)) by auto. cbn [bind].
    assert (F1 : Forall (fun r => List.length r = 1%nat) (a_rows t)) by (rewrite <- W1; exact FT).
    destruct (C70_total ball HB (a_rows s) (a_rows t) delta tau gperms perms L F1) as [l ->]. cbn [bind].
    destruct (mapM_times_ok _ F1) as [ts [-> _]]. cbn [bind]. eexists. reflexivity.
  - intros e H. unfold kl_init in H. destruct (knox_local_check _ _ _) as [[]|e'] eqn:C; cbn [bind] in H.
    + destruct (knox_local _ _ _ _ _ _ _) as [l|e'] eqn:K; cbn [bind] in H; [|injection H as <-; eapply local_raise; eauto].
      destruct (mapM the_time (a_rows t)) as [ts|e'] eqn:M; cbn [bind] in H; [discriminate|]. injection H as <-. eapply mapM_times_raise; eauto.
    + injection H as <-. destruct (C76_constructor (shape s) (shape t) (option_map (@List.length Z) ids)) as [_ N].
      rewrite C in N. assert (X : @Raise unit e' = Raise ValueError) by (apply N; discriminate). congruence.
Qed.
Print Assumptions C145_total.

(** The object: labels, the table of events (the first two coordinates, whatever the
    number of columns, and the time), and the list of neighbours, where closeness is
    that of all columns. *)
Theorem C145_object : forall ball, Ball ball -> forall s t delta tau gperms perms keep crit ids o, Filled s ->
  kl_init ball s t delta tau gperms perms keep crit ids = Ok o ->
  exists ll, kl_ids o = ll /\ Labels (List.length (a_rows s)) ids ll /\ kl_crit o = crit /\
    (forall i z x y w, nth_error (kl_gdf o) i = Some (z, (x, y), w) <->
       nth_error ll i = Some z /\ (exists more, nth_error (a_rows s) i = Some (x :: y :: more)) /\ nth_error (a_rows t) i = Some [w]) /\
    (NoDup ll -> forall i j a b, nth_error ll i = Some a -> nth_error ll j = Some b ->
       ((exists w, In (a, b, w) (kl_adj o)) <-> Near (a_rows s) (a_rows t) delta tau i j) /\
       (forall w, In (a, b, w) (kl_adj o) ->
          (w = Lead <-> time_of (a_rows t) i < time_of (a_rows t) j) /\ (w = Lag <-> time_of (a_rows t) j < time_of (a_rows t) i) /\
          (w = Coincident <-> time_of (a_rows t) i == time_of (a_rows t) j))).
Proof.
  intros ball HB s t delta tau gperms perms keep crit ids o FS H. apply init_inv in H.
  destruct H as [L [W [l [ts [ll [LL [T [K [I1 [I2 [I3 [I4 [I5 [I6 I7]]]]]]]]]]]]]]. exists ll. split; [auto|]. split; [auto|]. split; [auto|].
  destruct LL as [LL1 LL2]. split.
  - intros i z x y w. rewrite I7, T.
    assert (CE : forall A B (la : list A) (lb : list B) k a b, nth_error (combine la lb) k = Some (a, b) <-> nth_error la k = Some a /\ nth_error lb k = Some b).
    { clear. intros A B la. induction la as [|a0 la IH]; intros lb k a b; [destruct k; cbn; split; [discriminate|intros [X _]; discriminate|discriminate|intros [X _]; discriminate]|].
      destruct lb as [|b0 lb]; [destruct k; cbn; split; [discriminate|intros [_ X]; discriminate|discriminate|intros [_ X]; discriminate]|].
      destruct k; cbn; [split; [intro X; injection X as <- <-; auto|intros [X Y]; congruence]|apply IH]. }
    rewrite !CE, !nth_error_map. split.
    + intros [[A B] C]. split; [auto|]. rewrite C. split; [|reflexivity].
      destruct (nth_error (a_rows s) i) as [r|] eqn:E; cbn in B; [|discriminate]. pose proof (nth_error_In _ _ E) as R1.
      unfold Filled in FS. rewrite Forall_forall in FS. apply FS in R1. destruct r as [|x' [|y' more]]; cbn [List.length] in R1; [lia|lia|].
      injection B as <- <-. exists more. reflexivity.
    + intros [A [[more B] C]]. rewrite B. cbn [option_map]. split; [split; [auto|reflexivity]|].
      destruct (nth_error ts i); cbn in C; [congruence|discriminate].
  - intros ND i j a b A B.
    assert (Hi : (i < List.length ll)%nat) by (apply nth_error_Some; congruence). assert (Hj : (j < List.length ll)%nat) by (apply nth_error_Some; congruence).
    destruct (C70_adjlist ball HB _ _ _ _ _ _ _ K) as [A1 [A2 _]].
    assert (BD : forall r, In r (l_adj l) -> (fst (fst r) < List.length ll)%nat /\ (snd (fst r) < List.length ll)%nat).
    { intros [[p q] w] X. cbn [fst snd]. rewrite LL1. destruct (proj1 (A1 p q)) as [X1 [X2 _]]; [exists w; exact X|]. auto. }
    assert (IN : forall w, In (a, b, w) (kl_adj o) <-> In (i, j, w) (l_adj l)).
    { intro w. rewrite I3. rewrite <- (nth_error_nth _ _ 0%Z A), <- (nth_error_nth _ _ 0%Z B). apply (C70_ids ll (l_adj l) i j w ND Hi Hj BD). }
    split.
    + split.
      * intros [w X]. apply IN in X. destruct (proj1 (A1 i j)) as [_ X1]; [exists w; exact X|exact X1].
      * intro X. destruct (proj2 (A1 i j)) as [w X1]; [split; [lia|exact X]|]. exists w. apply IN. exact X1.
    + intros w X. apply IN in X. apply A2. exact X.
Qed.
Print Assumptions C145_object.

(** Leaving out the labels is numbering the rows from 0. *)
Theorem C145_default_ids : forall ball s t delta tau gperms perms keep crit,
  kl_init ball s t delta tau gperms perms keep crit None =
  kl_init ball s t delta tau gperms perms keep crit (Some (map Z.of_nat (seq 0 (List.length (a_rows s))))).
Proof.
  intros. unfold kl_init. assert (C : forall e, knox_local_check (shape s) (shape t) (option_map (@List.length Z) None) = e <->
    knox_local_check (shape s) (shape t) (option_map (@List.length Z) (Some (map Z.of_nat (seq 0 (List.length (a_rows s)))))) = e).
  { intro e. unfold knox_local_check, shape. cbn [option_map unpack2 bind fst snd]. rewrite map_length, seq_length.
    destruct (Nat.ltb _ _); [tauto|]. destruct (negb _); [tauto|]. rewrite Nat.eqb_refl. tauto. }
  rewrite (proj2 (C _) eq_refl). reflexivity.
Qed.
Print Assumptions C145_default_ids.

(** A data frame of points and times is the same thing as its arrays, labelled by its index. *)
Theorem C145_from_frame : forall ball f pts index delta tau gperms perms keep,
  f_crs f <> Some true -> f_numeric f = true -> f_times f <> [] -> f_geoms f = map Some pts ->
  kl_from_frame ball f index delta tau gperms perms keep =
  kl_init ball (mkarr 2 (map (fun p => [fst p; snd p]) pts)) (mkarr 1 (map (fun x => [x]) (f_times f))) delta tau gperms perms keep (5#100) (Some index).
Proof.
  intros ball f pts index delta tau gperms perms keep C N T G. unfold kl_from_frame, points_to_arrays.
  destruct (f_crs f) as [[|]|]; try congruence; rewrite G, N; cbn [negb];
    (assert (P : forallb is_point (map Some pts) = true) by (clear; induction pts; cbn; auto));
    rewrite P; cbn [negb]; (destruct (f_times f) as [|x ts]; [congruence|]); cbn [bind fst snd]; rewrite map_map;
    (replace (map (fun x0 : Q * Q => point_row (Some x0)) pts) with (map (fun p : Q * Q => [fst p; snd p]) pts)
       by (apply map_ext; intros [? ?]; reflexivity)); reflexivity.
Qed.
Print Assumptions C145_from_frame.

(** Finding: a third column counts for the distances and is lost in the table: here the
    first two events have the same point and the same time and are not neighbours. *)
Theorem C145_third_column_refuted :
  let s := mkarr 3 [[0; 0; 0]; [0; 0; 9]; [1; 0; 9]] in let t := mkarr 1 [[0]; [0]; [1]] in
  exists o, kl_init ball_up s t 2 2 [] [] false (5#100) None = Ok o /\
    nth_error (kl_gdf o) 0 = Some (0%Z, (0, 0), 0) /\ nth_error (kl_gdf o) 1 = Some (1%Z, (0, 0), 0) /\
    kl_adj o = [(1%Z, 2%Z, Lead); (2%Z, 1%Z, Lag)].
Proof. eexists. split; [vm_compute; reflexivity|]. repeat split; reflexivity. Qed.
Print Assumptions C145_third_column_refuted.

Example C145_case :
  (exists o, kl_init ball_up (mkarr 2 [[0; 0]; [0; 1]; [5; 5]]) (mkarr 1 [[3]; [2]; [2]]) 1 1 [] [] false (1#10) (Some [7; 9; 8]%Z) = Ok o /\
     kl_adj o = [(7%Z, 9%Z, Lag); (9%Z, 7%Z, Lead)] /\ kl_gdf o = [(7%Z, (0, 0), 3); (9%Z, (0, 1), 2); (8%Z, (5, 5), 2)]) /\
  kl_init ball_up (mkarr 2 [[0; 0]; [0; 9]]) (mkarr 2 [[3; 1]; [9; 2]]) 1 1 [] [] false (1#10) None = Raise ValueError /\
  kl_init ball_up (mkarr 1 [[0]; [9]]) (mkarr 1 [[3]; [9]]) 1 1 [] [] false (1#10) None = Raise ValueError /\
  Filled (mkarr 2 [[0; 0]; [0; 1]; [5; 5]]).
Proof.
  split; [eexists; split; [vm_compute; reflexivity|]; split; reflexivity|]. split; [reflexivity|]. split; [reflexivity|].
  unfold Filled. cbn. repeat constructor.
Qed.
