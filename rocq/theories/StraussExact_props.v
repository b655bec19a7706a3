(** When strauss can deliver the requested number of points. *)
From Coq Require Import ZArith QArith Qround Qpower List Bool Lia Lqa.
From Verif Require Import Base BaseLemmas Quadrat_model Geometry_model Random_model Random_spec Random_proofs Strauss_proofs.
Import ListNotations.
Local Open Scope Q_scope.

(** The number of points of the initial pattern: [poisson(hull, intensity=int(1.5 n))]
    draws int(area * int(1.5 n)) points. *)
Definition initial_points (h : hull) (n : Z) : Z := Qfloor (h_area h * inject_Z (3 * n / 2)).
(** Enough of them, and not the single one that squeeze turns into a 1-d array. *)
Definition feasible (h : hull) (n : Z) : Prop := (n <= initial_points h n /\ 2 <= initial_points h n)%Z.

Section Facts.
Variables (h : hull) (n : nat).
Hypothesis Ha : 0 <= h_area h.
Hypothesis Hn : (1 <= n)%nat.

Lemma initial_trunc : Qtrunc (h_area h * inject_Z (Z.of_nat (3 * n / 2))) = initial_points h (Z.of_nat n).
Proof.
  unfold initial_points. assert (E : Z.of_nat (3 * n / 2) = (3 * Z.of_nat n / 2)%Z).
  { rewrite Nat2Z.inj_div, Nat2Z.inj_mul. reflexivity. }
  rewrite E. apply Qtrunc_nonneg. apply Qmult_le_0_compat; auto. apply inject_Z_nonneg. apply Z.div_pos; lia.
Qed.
Lemma initial_nonneg : (0 <= initial_points h (Z.of_nat n))%Z.
Proof.
  unfold initial_points. apply Qfloor_nonneg. apply Qmult_le_0_compat; auto. apply inject_Z_nonneg. apply Z.div_pos; lia.
Qed.
(** Too few initial points only happen on a hull of area below one. *)
Lemma few_area : (initial_points h (Z.of_nat n) < Z.of_nat n)%Z -> h_area h < 1.
Proof.
  intro L. apply Qnot_le_lt. intro A. unfold initial_points in L.
  pose proof (Z.div_mod (3 * Z.of_nat n) 2) as DM. pose proof (Z.mod_pos_bound (3 * Z.of_nat n) 2) as MB.
  set (i := (3 * Z.of_nat n / 2)%Z) in *.
  assert (Hi : 0 <= inject_Z i) by (apply inject_Z_nonneg; lia).
  assert (X : inject_Z i <= h_area h * inject_Z i).
  { setoid_replace (inject_Z i) with (1 * inject_Z i) at 1 by ring. apply Qmult_le_compat_r; auto. }
  apply Qfloor_resp_le in X. rewrite Qfloor_Z in X. lia.
Qed.

Lemma attempt_infeasible : forall gamma r n_iter us l rest, ~ feasible h (Z.of_nat n) -> (1 <= n_iter)%nat ->
  attempt h n gamma r n_iter us = Val (Some l) rest ->
  n = 2%nat /\ initial_points h 2 = 1%Z /\ exists p, l = [p; p] /\ h_contains h p = true.
Proof.
  intros gamma r n_iter us l rest NF HI H. unfold attempt in H.
  apply rbind_val in H. destruct H as [a [us1 [H1 H2]]].
  apply poisson_intensity in H1. cbv zeta in H1. rewrite initial_trunc in H1.
  destruct H1 as [_ [[M [p [-> Hc]]]|[M [pts [-> [L Hp]]]]]].
  - apply rbind_val in H2. destruct H2 as [u [us2 [H2 H3]]]. apply mh_loop1_val in H2.
    destruct n as [|[|[|n']]]; try lia; inversion H3; subst. 
    split; auto. split; [exact M|]. exists p. auto.
  - apply rbind_val in H2. destruct H2 as [pts' [us2 [H2 H3]]].
    pose proof initial_nonneg as N0. unfold feasible in NF.
    assert (Lt : (initial_points h (Z.of_nat n) < Z.of_nat n)%Z) by lia.
    assert (pts' = pts). { eapply mh_loop_small; [| |exact H2]; [split; [auto|apply few_area; auto]|lia]. }
    subst. destruct (Nat.leb_spec n (List.length pts)); [lia|discriminate].
Qed.

Lemma attempt_feasible : forall gamma r n_iter us, feasible h (Z.of_nat n) -> ~ gamma == 0 ->
  attempt h n gamma r n_iter us = Short \/ exists l rest, attempt h n gamma r n_iter us = Val (Some l) rest.
Proof.
  intros gamma r n_iter us [F1 F2] Hg. unfold attempt. pose proof initial_trunc as IT.
  destruct (poisson h _ SNone us) as [a us1|e|] eqn:P; simpl; auto.
  - pose proof (poisson_intensity _ _ _ _ _ P) as Q. cbv zeta in Q. rewrite IT in Q.
    destruct Q as [_ [[M _]|[M [pts [-> [L Hp]]]]]]; [lia|].
    destruct (mh_loop h (Z.of_nat n) gamma r n_iter pts us1) as [pts' us2|e|] eqn:E; simpl; auto.
    + right. apply (mh_loop_sound h) in E; auto. destruct E as [_ E].
      destruct (Nat.leb_spec n (List.length pts')); [eauto|lia].
    + exfalso. eapply mh_loop_no_exc; [| | |exact E]; [lra|auto|lia].
  - exfalso. eapply poisson_no_exc; [|exact P].
    apply Qmult_le_0_compat; auto. apply inject_Z_nonneg. lia.
Qed.

(** A stream that makes an attempt succeed. *)
Variables (u0 v0 : Q).
Hypothesis Hin : h_contains h (box_candidate (h_bbox h) u0 v0) = true.
Hypothesis Hu0 : 0 <= u0 < 1.
Hypothesis Hv0 : 0 <= v0 < 1.

Lemma reject_stream : forall m, exists us l, unit_stream us /\
  forall rest, reject (box_candidate (h_bbox h)) (h_contains h) (us ++ rest) m = Val l rest.
Proof.
  induction m as [|m [us [l [U IH]]]].
  - exists [], []. split; [constructor|]. intros [|? [|? ?]]; reflexivity.
  - exists (u0 :: v0 :: us), (box_candidate (h_bbox h) u0 v0 :: l). split; [repeat constructor; tauto|].
    intro rest. cbn [app reject]. rewrite Hin, IH. reflexivity.
Qed.
Lemma poisson_stream : forall i, 0 <= h_area h * i -> exists us a, unit_stream us /\
  forall rest, poisson h (Some i) SNone (us ++ rest) = Val a rest.
Proof.
  intros i Hi. set (m := Qtrunc (h_area h * i)).
  assert (N : (0 <= m)%Z) by (unfold m; rewrite Qtrunc_nonneg by auto; apply Qfloor_nonneg; auto).
  destruct (reject_stream (Z.to_nat m)) as [us [l [U R]]]. exists us, (squeeze 1 (Z.to_nat m) [l]). split; auto.
  intro rest. unfold poisson. simpl. fold m. unfold alloc. destruct (m <? 0)%Z eqn:E; qb; [lia|].
  change ((1 <? 0)%Z) with false. simpl. rewrite R. reflexivity.
Qed.
Lemma death_stream : forall gamma r pts, ~ gamma == 0 -> exists us pts', unit_stream us /\
  forall rest, death (Z.of_nat n) gamma r pts (us ++ rest) = Val pts' rest.
Proof.
  intros gamma r pts Hg. unfold death. destruct (_ <? _)%Z.
  - eexists [0; 0], _. split; [repeat constructor; discriminate|]. intro rest. cbn [app draw1 rbind].
    destruct (Qeq_bool _ _) eqn:E; qb.
    + exfalso. apply Qmult_integral in E. destruct E as [E|E].
      * change 0 with (inject_Z 0) in E. apply inject_Z_eq_inv in E. lia.
      * revert E. apply Qpower_nonzero. auto.
    + reflexivity.
  - exists [], pts. split; [constructor|]. reflexivity.
Qed.
Lemma mh_stream : forall gamma r iters pts, ~ gamma == 0 -> all_in h pts -> (n <= List.length pts)%nat -> exists us pts', unit_stream us /\
  forall rest, mh_loop h (Z.of_nat n) gamma r iters pts (us ++ rest) = Val pts' rest.
Proof.
  intros gamma r iters. induction iters as [|k IH]; intros pts Hg Hp L.
  - exists [], pts. split; [constructor|]. reflexivity.
  - destruct (death_stream gamma r pts Hg) as [us1 [p1 [U1 D]]].
    assert (Q : all_in h p1 /\ (n <= List.length p1)%nat).
    { pose proof (death_sound h _ _ _ _ _ _ _ Hp (D [])) as [D1 D2]. split; auto. lia. }
    destruct Q as [Q1 Q2]. destruct (IH p1 Hg Q1 Q2) as [us2 [p2 [U2 M]]].
    exists ((1#2) :: us1 ++ us2), p2. split.
    { constructor; [split; [discriminate|reflexivity]|]. apply Forall_app. split; auto. }
    intro rest. cbn [mh_loop app]. destruct (Z.of_nat (List.length pts) <? Z.of_nat n)%Z eqn:E; qb; [lia|].
    cbn [draw1 rbind]. change (Qltb (1#2) (1#2)) with false. cbn iota. rewrite <- app_assoc, D. cbn [rbind]. apply M.
Qed.
Lemma attempt_stream : forall gamma r n_iter, feasible h (Z.of_nat n) -> ~ gamma == 0 ->
  exists us l, unit_stream us /\ forall rest, attempt h n gamma r n_iter (us ++ rest) = Val (Some l) rest.
Proof.
  intros gamma r n_iter [F1 F2] Hg. pose proof initial_trunc as IT.
  destruct (poisson_stream (inject_Z (Z.of_nat (3 * n / 2)))) as [us1 [a [U1 P]]].
  { apply Qmult_le_0_compat; auto. apply inject_Z_nonneg. lia. }
  pose proof (poisson_intensity _ _ _ _ _ (P [])) as Q. cbv zeta in Q. rewrite IT in Q.
  destruct Q as [_ [[M _]|[M [pts [-> [L Hp]]]]]]; [lia|].
  destruct (mh_stream gamma r n_iter pts Hg Hp ltac:(lia)) as [us2 [p2 [U2 M2]]].
  exists (us1 ++ us2), (firstn n p2). split; [apply Forall_app; auto|].
  intro rest. unfold attempt. rewrite <- app_assoc, P. cbn [rbind]. rewrite M2. cbn [rbind].
  pose proof (mh_loop_sound h _ _ _ _ _ _ _ _ Hp (M2 [])) as [_ X].
  destruct (Nat.leb_spec n (List.length p2)); [reflexivity|lia].
Qed.
Lemma strauss_stream : forall i sz gamma r n_iter max_iter s it,
  parse_size_and_intensity h i sz = Ok (Z.of_nat n, s, it) -> (0 <= s)%Z -> feasible h (Z.of_nat n) -> ~ gamma == 0 -> (1 <= max_iter)%nat ->
  exists us a, unit_stream us /\ strauss h i sz gamma r n_iter max_iter us = Val a [].
Proof.
  intros i sz gamma r n_iter max_iter s it P Hs F Hg Hm.
  destruct (attempt_stream gamma r n_iter F Hg) as [us [l [U A]]].
  assert (A' : forall rest, attempts h n gamma r n_iter max_iter (us ++ rest) = Val l rest).
  { intro rest. destruct max_iter; [lia|]. cbn [attempts]. rewrite A. reflexivity. }
  assert (R : forall k, exists us' d, unit_stream us' /\ forall rest, replicate (attempts h n gamma r n_iter max_iter) k (us' ++ rest) = Val d rest).
  { induction k as [|k [us' [d [U' IH]]]].
    - exists [], []. split; [constructor|]. reflexivity.
    - exists (us ++ us'), (l :: d). split; [apply Forall_app; auto|]. intro rest. cbn [replicate].
      rewrite <- app_assoc, A'. cbn [rbind]. rewrite IH. reflexivity. }
  destruct (R (Z.to_nat s)) as [us' [d [U' R']]]. exists us', (squeeze (Z.to_nat s) n d). split; auto.
  unfold strauss. rewrite P. simpl. unfold alloc.
  destruct (Z.of_nat n <? 0)%Z eqn:E1; qb; [lia|]. destruct (s <? 0)%Z eqn:E2; qb; [lia|]. simpl.
  rewrite Nat2Z.id. specialize (R' []). rewrite app_nil_r in R'. rewrite R'. reflexivity.
Qed.
End Facts.

(** ** C38 *)
(** The request can be met exactly when the initial pattern has enough points (and
    more than one).  Then no stream makes the call raise. *)
Theorem C38_feasible : forall h i sz gamma r n_iter max_iter us n s it,
  parse_size_and_intensity h i sz = Ok (n, s, it) -> (1 <= n)%Z -> (0 <= s)%Z -> 0 <= h_area h ->
  feasible h n -> ~ gamma == 0 -> (1 <= max_iter)%nat ->
  forall e, strauss h i sz gamma r n_iter max_iter us <> Exc e.
Proof.
  intros h i sz gamma r n_iter max_iter us n s it P Hn Hs Ha F Hg Hm e H.
  unfold strauss in H. rewrite P in H. simpl in H. unfold alloc in H.
  destruct (n <? 0)%Z eqn:E1; qb; [lia|]. destruct (s <? 0)%Z eqn:E2; qb; [lia|]. simpl in H.
  assert (A : forall us e, attempts h (Z.to_nat n) gamma r n_iter max_iter us <> Exc e).
  { intros us0 e0. destruct max_iter; [lia|]. simpl.
    assert (F' : feasible h (Z.of_nat (Z.to_nat n))) by (rewrite Z2Nat.id by lia; auto).
    destruct (attempt_feasible h (Z.to_nat n) Ha ltac:(lia) gamma r n_iter us0 F' Hg) as [->|[l [rest ->]]]; discriminate. }
  assert (R : forall k us e, replicate (attempts h (Z.to_nat n) gamma r n_iter max_iter) k us <> Exc e).
  { induction k; intros us0 e0; simpl; [discriminate|].
    destruct (attempts h (Z.to_nat n) gamma r n_iter max_iter us0) as [l u1|e1|] eqn:E; simpl; try discriminate.
    - destruct (replicate _ k u1) as [l2 u2|e2|] eqn:G; simpl; try discriminate.
      exfalso. eapply IHk; eauto.
    - exfalso. eapply A; eauto. }
  destruct (replicate _ _ us) as [d u|e1|] eqn:E; simpl in H; try discriminate.
  eapply R; eauto.
Qed.
Print Assumptions C38_feasible.

(** ... and some stream of numbers in [0,1) makes it return, if the hull has a reachable point. *)
Theorem C38_reachable : forall h i sz gamma r n_iter max_iter n s it u v,
  parse_size_and_intensity h i sz = Ok (n, s, it) -> (1 <= n)%Z -> (0 <= s)%Z -> 0 <= h_area h ->
  feasible h n -> ~ gamma == 0 -> (1 <= max_iter)%nat ->
  0 <= u < 1 -> 0 <= v < 1 -> h_contains h (box_candidate (h_bbox h) u v) = true ->
  exists us a, unit_stream us /\ strauss h i sz gamma r n_iter max_iter us = Val a [].
Proof.
  intros h i sz gamma r n_iter max_iter n s it u v P Hn Hs Ha F Hg Hm Hu Hv Hin.
  rewrite <- (Z2Nat.id n) in P, F by lia.
  eapply (strauss_stream h (Z.to_nat n) Ha ltac:(lia) u v Hin Hu Hv); eauto.
Qed.
Print Assumptions C38_reachable.

(** Otherwise no stream does, whatever gamma, the radius and max_iter; the only
    results are requests of two points that return one point twice. *)
Theorem C38_infeasible : forall h i sz gamma r n_iter max_iter us a rest n s it,
  parse_size_and_intensity h i sz = Ok (n, s, it) -> (1 <= n)%Z -> (1 <= s)%Z -> 0 <= h_area h ->
  ~ feasible h n -> (1 <= n_iter)%nat ->
  strauss h i sz gamma r n_iter max_iter us = Val a rest ->
  n = 2%Z /\ initial_points h 2 = 1%Z /\
  exists d, holds_replications a d 2 (Z.to_nat s) /\ forall rep, In rep d -> exists p, rep = [p; p] /\ h_contains h p = true.
Proof.
  intros h i sz gamma r n_iter max_iter us a rest n s it P Hn Hs Ha NF HI H.
  destruct (strauss_inv _ _ _ _ _ _ _ _ _ _ H) as [n' [s' [it' [d [P' [_ [_ [L [F ->]]]]]]]]].
  rewrite P in P'. inversion P'; subst n' s' it'. clear P'.
  assert (NF' : ~ feasible h (Z.of_nat (Z.to_nat n))) by (rewrite Z2Nat.id by lia; auto).
  assert (F' : Forall (fun l => Z.to_nat n = 2%nat /\ initial_points h 2 = 1%Z /\ exists p, l = [p; p] /\ h_contains h p = true) d).
  { eapply Forall_impl; [|exact F]. intros l [u1 [u2 X]]. eapply attempt_infeasible; eauto. lia. }
  assert (N : Z.to_nat n = 2%nat /\ initial_points h 2 = 1%Z).
  { destruct d as [|l d]; [simpl in L; lia|]. inversion F' as [|? ? [E [E' _]] _]. auto. }
  destruct N as [N N']. split; [lia|]. split; auto. exists d. rewrite N. rewrite Forall_forall in F'. split.
  - apply squeeze_holds; auto. apply Forall_forall. intros l Hl. destruct (F' l Hl) as [_ [_ [p [-> _]]]]. auto.
  - intros rep Hr. apply (F' rep Hr).
Qed.
Print Assumptions C38_infeasible.

(** In terms of the area: from area 1 on two or more points are always feasible; below
    2/3 nothing ever is.  In between it depends on n. *)
Theorem C38_area : forall h n, 0 <= h_area h -> (1 <= n)%Z ->
  (1 <= h_area h -> (2 <= n)%Z -> feasible h n) /\ (h_area h < 2#3 -> ~ feasible h n) /\
  (n = 1%Z -> (feasible h n <-> 2 <= h_area h)).
Proof.
  intros h n Ha Hn. pose proof (Z.div_mod (3 * n) 2) as DM. pose proof (Z.mod_pos_bound (3 * n) 2) as MB.
  unfold feasible, initial_points. set (i := (3 * n / 2)%Z) in *.
  assert (Hi : 0 <= inject_Z i) by (apply inject_Z_nonneg; lia).
  destruct (Qfloor_bounds (h_area h * inject_Z i)) as [B1 B2]. set (m := Qfloor _) in *. split; [|split].
  - intros A N. assert (X : inject_Z i <= h_area h * inject_Z i).
    { setoid_replace (inject_Z i) with (1 * inject_Z i) at 1 by ring. apply Qmult_le_compat_r; auto. }
    apply Qfloor_resp_le in X. rewrite Qfloor_Z in X. fold m in X. lia.
  - intros A [F1 _]. assert (Pi : 0 < inject_Z i) by (apply inject_Z_pos; lia).
    assert (X : h_area h * inject_Z i < (2#3) * inject_Z i) by (apply Qmult_lt_compat_r; auto).
    assert (I2 : inject_Z (2 * i) <= inject_Z (3 * n)) by (rewrite <- Zle_Qle; lia).
    rewrite !inject_Z_mult in I2. change (inject_Z 2) with 2 in I2. change (inject_Z 3) with 3 in I2.
    rewrite Zle_Qle in F1. lra.
  - intros ->. assert (Ei : i = 1%Z) by reflexivity. rewrite Ei in *. change (inject_Z 1) with 1 in *. split.
    + intros [_ F]. rewrite Zle_Qle in F. change (inject_Z 2) with 2 in F. lra.
    + intro A. assert (1 < m)%Z by (apply inject_Z_lt_inv; change (inject_Z 1) with 1; lra). lia.
Qed.
Print Assumptions C38_area.

(** On a hull of area 7/10 two points are feasible (3 * 0.7 = 2.1) and four are
    (6 * 0.7 = 4.2), but three are not (4 * 0.7 = 2.8). *)
Definition tenths7 : hull := bbox_hull (mkbox 0 0 1 (7#10)).
Example C38_feasible_case : feasible tenths7 4 /\ feasible tenths7 2 /\ ~ feasible tenths7 3 /\
  exists us a, unit_stream us /\ strauss tenths7 None (SInt 4) 1 (1#20) 3 1 us = Val a [].
Proof.
  assert (F : feasible tenths7 4) by (split; vm_compute; discriminate).
  split; auto. split; [split; vm_compute; discriminate|]. split; [intros [X _]; vm_compute in X; apply X; reflexivity|].
  eapply (C38_reachable tenths7 None (SInt 4) 1 (1#20) 3 1 4 1 _ 0 0); try reflexivity; try discriminate; auto; try lia;
   split; try discriminate; reflexivity.
Qed.
