(** Proofs about strauss. *)
From Coq Require Import ZArith QArith Qround Qpower List Bool Lia Lqa.
From Verif Require Import Base BaseLemmas Quadrat_model Geometry_model Random_model Random_spec Random_proofs.
Import ListNotations.
Local Open Scope Q_scope.

Definition all_in (h : hull) (l : list pt) : Prop := forall p, In p l -> h_contains h p = true.

(** The inner call [poisson(hull, i)]. *)
Lemma poisson_intensity : forall h i us a rest, poisson h (Some i) SNone us = Val a rest ->
  let m := Qtrunc (h_area h * i) in
  (0 <= m)%Z /\
  ((m = 1%Z /\ exists p, a = Arr1 p /\ h_contains h p = true) \/
   (m <> 1%Z /\ exists l, a = Arr2 l /\ List.length l = Z.to_nat m /\ all_in h l)).
Proof.
  intros h i us a rest H m.
  destruct (poisson_inv _ _ _ _ _ _ H) as [n [s [it [d [P1 [A [B [P2 ->]]]]]]]].
  simpl in P1. inversion P1; subst n s it. clear P1. fold m in A, P2 |- *. split; auto.
  apply (replicate_sound (fun l => List.length l = Z.to_nat m /\
           Forall (fun p => h_contains h p = true) l)) in P2.
  2:{ intros us' l r Hr. apply reject_sound in Hr. destruct Hr as [R1 [R2 _]]. split; auto.
      eapply Forall_impl; [|exact R2]. simpl. tauto. }
  destruct P2 as [L F]. change (Z.to_nat 1) with 1%nat in *.
  destruct d as [|l [|]]; try discriminate. inversion F as [|? ? [F1 F2]]; subst.
  rewrite Forall_forall in F2. unfold squeeze. simpl.
  destruct (Nat.eqb_spec (Z.to_nat m) 1).
  - left. split; [lia|]. destruct l as [|p [|]]; simpl in F1; try lia. exists p. split; [reflexivity|].
    apply F2; simpl; auto.
  - right. split; [lia|]. exists l. split; [reflexivity|]. auto.
Qed.

Lemma vstack_in : forall h i us a rest pts, poisson h (Some i) SNone us = Val a rest -> all_in h pts ->
  all_in h (vstack_rows pts a) /\ (List.length pts <= List.length (vstack_rows pts a))%nat.
Proof.
  intros h i us a rest pts H Hp. apply poisson_intensity in H. cbv zeta in H.
  destruct H as [_ [[_ [p [-> Hc]]]|[_ [l [-> [_ Hl]]]]]]; simpl.
  - split; [|rewrite app_length; lia]. intros q Hq. apply in_app_or in Hq. destruct Hq as [Hq|[<-|[]]]; auto.
  - split; [|rewrite app_length; lia]. intros q Hq. apply in_app_or in Hq. destruct Hq as [Hq|Hq]; auto.
Qed.

Lemma delete_nth_in : forall A (l : list A) i x, In x (delete_nth i l) -> In x l.
Proof.
  induction l; destruct i; simpl; intros x H; auto. destruct H; auto. right; eauto.
Qed.
Lemma delete_nth_length : forall A (l : list A) i, (List.length l - 1 <= List.length (delete_nth i l))%nat.
Proof.
  induction l; destruct i; simpl; try lia. specialize (IHl i). lia.
Qed.

Lemma birth_sound : forall h n gamma r pts us pts' rest, all_in h pts ->
  birth h n gamma r pts us = Val pts' rest ->
  all_in h pts' /\ (List.length pts <= List.length pts')%nat.
Proof.
  intros h n gamma r pts us pts' rest Hp H. unfold birth in H.
  apply rbind_val in H. destruct H as [newp [us1 [H1 H2]]].
  apply rbind_val in H2. destruct H2 as [u [us2 [H2 H3]]]. inversion H3; subst. clear H3.
  destruct (Qltb _ _); [|auto]. eapply vstack_in; eauto.
Qed.

Lemma death_sound : forall h n gamma r pts us pts' rest, all_in h pts ->
  death n gamma r pts us = Val pts' rest ->
  all_in h pts' /\ (Z.min n (Z.of_nat (List.length pts)) <= Z.of_nat (List.length pts'))%Z.
Proof.
  intros h n gamma r pts us pts' rest Hp H. unfold death in H.
  destruct (n <? Z.of_nat (List.length pts))%Z eqn:E; qb.
  - apply rbind_val in H. destruct H as [w [us1 [H1 H2]]].
    destruct (Qeq_bool _ _); [discriminate|].
    apply rbind_val in H2. destruct H2 as [u [us2 [H2 H3]]]. inversion H3; subst. clear H3.
    destruct (Qltb _ _); [|split; auto; lia]. split.
    + intros q Hq. apply Hp. eapply delete_nth_in; eauto.
    + match goal with |- context[delete_nth ?i ?l] => pose proof (delete_nth_length pt l i) end. lia.
  - inversion H; subst. split; auto. lia.
Qed.

(** The invariant of the Metropolis-Hastings loop. *)
Lemma mh_loop_sound : forall h n gamma r iters pts us pts' rest, all_in h pts ->
  mh_loop h n gamma r iters pts us = Val pts' rest ->
  all_in h pts' /\ (Z.min n (Z.of_nat (List.length pts)) <= Z.of_nat (List.length pts'))%Z.
Proof.
  induction iters; intros pts us pts' rest Hp H; simpl in H.
  - inversion H; subst. split; auto. lia.
  - apply rbind_val in H. destruct H as [p1 [us1 [H1 H2]]].
    assert (X : all_in h p1 /\ (Z.min n (Z.of_nat (List.length pts)) <= Z.of_nat (List.length p1))%Z).
    { destruct (Z.of_nat (List.length pts) <? n)%Z.
      - apply birth_sound in H1; auto. destruct H1. split; auto. lia.
      - apply rbind_val in H1. destruct H1 as [u [us2 [_ H3]]]. destruct (Qltb _ _).
        + apply birth_sound in H3; auto. destruct H3. split; auto. lia.
        + eapply death_sound; eauto. }
    destruct X as [X1 X2]. apply IHiters in H2; auto. destruct H2 as [Y1 Y2]. split; auto. lia.
Qed.

(** The loop on a one-dimensional array only finishes for two observations or no iteration. *)
Lemma mh_loop1_val : forall h n iters us u rest, mh_loop1 h n iters us = Val u rest ->
  iters = 0%nat \/ n = 2%Z.
Proof.
  intros h n iters us u rest H. destruct iters; [auto|]. right. simpl in H.
  destruct (2 <? n)%Z eqn:E1; qb.
  - apply rbind_val in H. destruct H as [? [? [_ H]]]. discriminate.
  - apply rbind_val in H. destruct H as [w [us1 [_ H]]]. destruct (Qltb _ _).
    + apply rbind_val in H. destruct H as [? [? [_ H]]]. discriminate.
    + destruct (n <? 2)%Z eqn:E2; qb; [|lia].
      apply rbind_val in H. destruct H as [? [? [_ H]]]. discriminate.
Qed.

Lemma half_initial : forall n, (2 * (3 * n / 2) <= 3 * n <= 2 * (3 * n / 2) + 1)%nat.
Proof.
  intros. pose proof (Nat.div_mod (3 * n) 2 ltac:(lia)).
  pose proof (Nat.mod_upper_bound (3 * n) 2 ltac:(lia)). lia.
Qed.

Lemma in_firstn : forall A n (l : list A) x, In x (firstn n l) -> In x l.
Proof. induction n; destruct l; simpl; intros x H; try tauto. destruct H; auto. Qed.

(** One attempt. The second alternative is the one-dimensional accident. *)
Lemma attempt_sound : forall h n gamma r n_iter us l rest,
  attempt h n gamma r n_iter us = Val (Some l) rest ->
  List.length l = n /\
  (all_in h l \/
   (n = 1%nat /\ n_iter = 0%nat /\ Qtrunc (h_area h * inject_Z (Z.of_nat (3 * n / 2))) = 1%Z /\
    exists x y, l = [(x, x)] /\ h_contains h (x, y) = true)).
Proof.
  intros h n gamma r n_iter us l rest H. unfold attempt in H.
  apply rbind_val in H. destruct H as [a [us1 [H1 H2]]].
  apply poisson_intensity in H1. cbv zeta in H1.
  destruct H1 as [_ [[M [p [-> Hc]]]|[M [pts [-> [L Hp]]]]]].
  - apply rbind_val in H2. destruct H2 as [u [us2 [H2 H3]]].
    apply mh_loop1_val in H2.
    destruct n as [|[|[|n]]].
    + inversion H3; subst. split; auto. left. intros q [].
    + inversion H3; subst. split; auto. destruct H2 as [H2|H2]; [|discriminate].
      right. split; [reflexivity|]. split; [assumption|]. split; [exact M|].
      exists (fst p), (snd p). split; auto. destruct p; auto.
    + inversion H3; subst. split; auto. left. intros q [<-|[<-|[]]]; auto.
    + inversion H3.
  - apply rbind_val in H2. destruct H2 as [pts' [us2 [H2 H3]]].
    apply (mh_loop_sound h) in H2; auto. destruct H2 as [H2 _].
    destruct (Nat.leb_spec n (List.length pts')); inversion H3; subst.
    split; [apply firstn_length_le; auto|]. left. intros q Hq. apply H2.
    eapply in_firstn; eauto.
Qed.

Lemma attempts_val : forall h n gamma r n_iter m us l rest,
  attempts h n gamma r n_iter m us = Val l rest ->
  exists us1 us2, attempt h n gamma r n_iter us1 = Val (Some l) us2.
Proof.
  induction m; intros us l rest H; simpl in H; [discriminate|].
  apply rbind_val in H. destruct H as [[l'|] [us1 [H1 H2]]].
  - inversion H2; subst. eauto.
  - eauto.
Qed.

Lemma strauss_inv : forall h i sz gamma r n_iter max_iter us a rest,
  strauss h i sz gamma r n_iter max_iter us = Val a rest ->
  exists n s it d, parse_size_and_intensity h i sz = Ok (n, s, it) /\ (0 <= n)%Z /\ (0 <= s)%Z /\ List.length d = Z.to_nat s /\ Forall (fun l => exists us1 us2, attempt h (Z.to_nat n) gamma r n_iter us1 = Val (Some l) us2) d /\ a = squeeze (Z.to_nat s) (Z.to_nat n) d.
Proof.
  intros h i sz gamma r n_iter max_iter us a rest H. unfold strauss in H.
  apply rbind_val in H. destruct H as [[[n s] it] [us1 [H1 H]]]. apply lift_val in H1. destruct H1 as [H1 ->].
  apply rbind_val in H. destruct H as [[n' s'] [us2 [H2 H]]]. apply lift_val in H2. destruct H2 as [H2 ->].
  apply alloc_ok in H2. destruct H2 as [A [B [-> ->]]].
  apply rbind_val in H. destruct H as [d [us3 [H3 H4]]]. inversion H4; subst.
  exists n, s, it, d. split; auto. split; auto. split; auto.
  apply (replicate_sound (fun l => exists us1 us2, attempt h (Z.to_nat n) gamma r n_iter us1 = Val (Some l) us2)) in H3.
  - destruct H3. auto.
  - intros us' l r' Hr. eapply attempts_val; eauto.
Qed.

Lemma strauss_sound : forall h i sz gamma r n_iter max_iter us a rest,
  strauss h i sz gamma r n_iter max_iter us = Val a rest ->
  exists n s it d, parse_size_and_intensity h i sz = Ok (n, s, it) /\ (0 <= n)%Z /\ (0 <= s)%Z /\ holds_replications a d (Z.to_nat n) (Z.to_nat s) /\ ((n_iter <> 0)%nat \/ n <> 1%Z \/ Qtrunc (h_area h) <> 1%Z -> all_in h (arr_points a)).
Proof.
  intros h i sz gamma r n_iter max_iter us a rest H.
  destruct (strauss_inv _ _ _ _ _ _ _ _ _ _ H) as [n [s [it [d [P [A [B [L [F ->]]]]]]]]].
  exists n, s, it, d. split; auto. split; auto. split; auto.
  assert (F1 : Forall (fun l => List.length l = Z.to_nat n) d).
  { eapply Forall_impl; [|exact F]. intros l [u1 [u2 X]]. apply attempt_sound in X. tauto. }
  split; [apply squeeze_holds; auto|].
  intros C p Hp. rewrite (proj1 (squeeze_points _ _ _ L F1)) in Hp. apply in_concat in Hp.
  destruct Hp as [l [Hl Hp]]. rewrite Forall_forall in F. destruct (F l Hl) as [u1 [u2 X]].
  apply attempt_sound in X. destruct X as [_ [X|[X1 [X2 [X3 _]]]]]; [auto|].
  exfalso. destruct C as [C|[C|C]]; [auto|lia|].
  rewrite X1 in X3. apply C. rewrite <- X3. change (inject_Z (Z.of_nat (3 * 1 / 2))) with 1.
  clear. unfold Qtrunc.
  assert (E : h_area h * 1 == h_area h) by lra.
  rewrite (Qfloor_comp _ _ E).
  assert (Ec : Qceiling (h_area h * 1) = Qceiling (h_area h)) by (apply Qceiling_comp; exact E).
  rewrite Ec.
  destruct (Qle_bool 0 (h_area h * 1)) eqn:E1; destruct (Qle_bool 0 (h_area h)) eqn:E2; qb; try lra; auto.
Qed.

(** ** Small hulls *)
Lemma Qtrunc_range : forall q z, 0 <= q -> q < inject_Z z -> (0 <= Qtrunc q < z)%Z.
Proof.
  intros q z H0 H. rewrite Qtrunc_nonneg by auto. destruct (Qfloor_bounds q) as [F1 F2].
  split; [apply Qfloor_nonneg; auto|]. apply inject_Z_lt_inv. lra.
Qed.

(** On a hull of area below one a birth adds nothing. *)
Lemma birth_small : forall h n gamma r pts us pts' rest, 0 <= h_area h < 1 ->
  birth h n gamma r pts us = Val pts' rest -> pts' = pts.
Proof.
  intros h n gamma r pts us pts' rest Ha H. unfold birth in H.
  apply rbind_val in H. destruct H as [newp [us1 [H1 H2]]].
  apply rbind_val in H2. destruct H2 as [u [us2 [H2 H3]]].
  apply poisson_intensity in H1. cbv zeta in H1.
  assert (R : (0 <= Qtrunc (h_area h * 1) < 1)%Z).
  { apply Qtrunc_range; [lra|]. change (inject_Z 1) with 1. lra. }
  destruct H1 as [_ [[M _]|[_ [l [-> [L _]]]]]]; [lia|].
  destruct l; [|simpl in L; lia]. simpl in H3. rewrite app_nil_r in H3.
  destruct (Qltb _ _) in H3; inversion H3; auto.
Qed.

Lemma mh_loop_small : forall h n gamma r iters pts us pts' rest, 0 <= h_area h < 1 ->
  (Z.of_nat (List.length pts) < n)%Z ->
  mh_loop h n gamma r iters pts us = Val pts' rest -> pts' = pts.
Proof.
  induction iters; intros pts us pts' rest Ha Hn H; simpl in H.
  - inversion H; auto.
  - apply rbind_val in H. destruct H as [p1 [us1 [H1 H2]]].
    destruct (Z.of_nat (List.length pts) <? n)%Z eqn:E; qb; [|lia].
    apply birth_small in H1; auto. subst. eauto.
Qed.

Lemma attempt_small : forall h n gamma r n_iter us l rest, 0 <= h_area h -> h_area h < 2 # 3 -> (1 <= n)%nat ->
  attempt h n gamma r n_iter us = Val (Some l) rest ->
  n = 2%nat /\ exists p, l = [p; p].
Proof.
  intros h n gamma r n_iter us l rest Ha0 Ha Hn H. unfold attempt in H.
  apply rbind_val in H. destruct H as [a [us1 [H1 H2]]].
  apply poisson_intensity in H1. cbv zeta in H1.
  set (i := (3 * n / 2)%nat) in *. pose proof (half_initial n) as HI. fold i in HI.
  assert (R : (0 <= Qtrunc (h_area h * inject_Z (Z.of_nat i)) < Z.of_nat n)%Z).
  { assert (I0 : 0 <= inject_Z (Z.of_nat i)) by (apply inject_Z_nonneg; lia).
    apply Qtrunc_range.
    - apply Qmult_le_0_compat; auto.
    - assert (I2 : inject_Z (2 * Z.of_nat i) <= inject_Z (3 * Z.of_nat n)) by (rewrite <- Zle_Qle; lia).
      rewrite !inject_Z_mult in I2. change (inject_Z 2) with 2 in I2. change (inject_Z 3) with 3 in I2.
      destruct (Qlt_le_dec 0 (inject_Z (Z.of_nat i))) as [Hi|Hi].
      + apply Qlt_le_trans with ((2#3) * inject_Z (Z.of_nat i)); [|lra].
        apply Qmult_lt_compat_r; auto.
      + assert (E : inject_Z (Z.of_nat i) == 0) by lra. rewrite E.
        assert (0 < inject_Z (Z.of_nat n)) by (apply inject_Z_pos; lia). lra. }
  destruct H1 as [_ [[M [p [-> Hc]]]|[M [pts [-> [L Hp]]]]]].
  - rewrite M in R. apply rbind_val in H2. destruct H2 as [u [us2 [_ H3]]].
    destruct n as [|[|[|n]]]; try lia; inversion H3; subst. split; auto. exists p. auto.
  - apply rbind_val in H2. destruct H2 as [pts' [us2 [H2 H3]]].
    assert (pts' = pts). { eapply mh_loop_small; [| |exact H2]; [lra|lia]. }
    subst. destruct (Nat.leb_spec n (List.length pts)); [lia|discriminate].
Qed.

(** A single observation on a hull whose area truncates to one. *)
Lemma attempt_single : forall h gamma r n_iter us o rest, Qtrunc (h_area h * 1) = 1%Z ->
  (1 <= n_iter)%nat -> attempt h 1 gamma r n_iter us <> Val o rest.
Proof.
  intros h gamma r n_iter us o rest Ha Hn H. unfold attempt in H.
  apply rbind_val in H. destruct H as [a [us1 [H1 H2]]].
  apply poisson_intensity in H1. cbv zeta in H1.
  change (inject_Z (Z.of_nat (3 * 1 / 2))) with 1 in H1.
  destruct H1 as [_ [[M [p [-> Hc]]]|[M _]]]; [|congruence].
  apply rbind_val in H2. destruct H2 as [u [us2 [H2 _]]].
  apply mh_loop1_val in H2. destruct H2; [lia|discriminate].
Qed.

(** ** Large hulls: no failure *)
Lemma Qpower_nonzero : forall a z, ~ a == 0 -> ~ Qpower a z == 0.
Proof.
  intros a [|p|p] H; simpl.
  - discriminate.
  - apply Qpower_not_0_positive; auto.
  - intro E. apply (Qpower_not_0_positive a p H).
    rewrite <- (Qinv_involutive (Qpower_positive a p)), E. reflexivity.
Qed.

Lemma poisson_no_exc : forall h i us e, 0 <= h_area h * i -> poisson h (Some i) SNone us <> Exc e.
Proof.
  intros h i us e H0. unfold poisson. simpl. unfold alloc.
  assert (N : (0 <= Qtrunc (h_area h * i))%Z).
  { rewrite Qtrunc_nonneg by auto. apply Qfloor_nonneg; auto. }
  destruct (Qtrunc (h_area h * i) <? 0)%Z eqn:E; qb; [lia|].
  change ((1 <? 0)%Z) with false. simpl.
  destruct (reject _ _ us _) as [l us'|e'|] eqn:R; simpl; try discriminate.
  exfalso. eapply reject_never_raises; eauto.
Qed.

Lemma mh_loop_no_exc : forall h n gamma r iters pts us e, 0 <= h_area h -> ~ gamma == 0 -> (1 <= n)%Z ->
  mh_loop h n gamma r iters pts us <> Exc e.
Proof.
  intros h n gamma r iters. induction iters; intros pts us e Ha Hg Hn; simpl; [discriminate|].
  assert (B : forall us e, birth h n gamma r pts us <> Exc e).
  { intros us0 e0. unfold birth.
    destruct (poisson h (Some 1) SNone us0) as [a u1|e1|] eqn:P; simpl; try discriminate.
    - destruct u1; discriminate.
    - exfalso. eapply poisson_no_exc; [|exact P]. lra. }
  assert (D : forall us e, death n gamma r pts us <> Exc e).
  { intros us0 e0. unfold death. destruct (_ <? _)%Z; [|discriminate].
    destruct us0 as [|w us0]; simpl; [discriminate|].
    destruct (Qeq_bool _ _) eqn:E; qb.
    - exfalso. apply Qmult_integral in E. destruct E as [E|E].
      + change 0 with (inject_Z 0) in E. apply inject_Z_eq_inv in E. lia.
      + revert E. apply Qpower_nonzero. auto.
    - destruct us0; discriminate. }
  intro H.
  destruct (Z.of_nat (List.length pts) <? n)%Z.
  - destruct (birth h n gamma r pts us) as [p1 u1|e1|] eqn:E; simpl in H; try discriminate.
    + eapply IHiters; eauto.
    + eapply B; eauto.
  - destruct us as [|u us]; simpl in H; [discriminate|].
    destruct (Qltb u (1#2)).
    + destruct (birth h n gamma r pts us) as [p1 u1|e1|] eqn:E; simpl in H; try discriminate.
      * eapply IHiters; eauto.
      * eapply B; eauto.
    + destruct (death n gamma r pts us) as [p1 u1|e1|] eqn:E; simpl in H; try discriminate.
      * eapply IHiters; eauto.
      * eapply D; eauto.
Qed.

Lemma attempt_large : forall h n gamma r n_iter us, 1 <= h_area h -> ~ gamma == 0 -> (2 <= n)%nat ->
  attempt h n gamma r n_iter us = Short \/ exists l rest, attempt h n gamma r n_iter us = Val (Some l) rest.
Proof.
  intros h n gamma r n_iter us Ha Hg Hn. unfold attempt.
  set (i := (3 * n / 2)%nat). pose proof (half_initial n) as HI. fold i in HI.
  assert (I0 : 0 < inject_Z (Z.of_nat i)) by (apply inject_Z_pos; lia).
  assert (R : (Z.of_nat i <= Qtrunc (h_area h * inject_Z (Z.of_nat i)))%Z).
  { assert (X : inject_Z (Z.of_nat i) <= h_area h * inject_Z (Z.of_nat i)).
    { setoid_replace (inject_Z (Z.of_nat i)) with (1 * inject_Z (Z.of_nat i)) at 1 by lra.
      apply Qmult_le_compat_r; lra. }
    rewrite Qtrunc_nonneg by lra. rewrite <- (Qfloor_Z (Z.of_nat i)) at 1. apply Qfloor_resp_le. exact X. }
  destruct (poisson h (Some (inject_Z (Z.of_nat i))) SNone us) as [a us1|e|] eqn:P; simpl; auto.
  - pose proof (poisson_intensity _ _ _ _ _ P) as Q. cbv zeta in Q.
    destruct Q as [_ [[M _]|[M [pts [-> [L Hp]]]]]]; [lia|].
    destruct (mh_loop h (Z.of_nat n) gamma r n_iter pts us1) as [pts' us2|e|] eqn:E; simpl; auto.
    + right. apply (mh_loop_sound h) in E; auto. destruct E as [_ E].
      destruct (Nat.leb_spec n (List.length pts')); [eauto|lia].
    + exfalso. eapply mh_loop_no_exc; [| | |exact E]; [lra|auto|lia].
  - exfalso. eapply poisson_no_exc; [|exact P].
    apply Qmult_le_0_compat; lra.
Qed.

Lemma strauss_large : forall h i sz gamma r n_iter max_iter us n s it,
  parse_size_and_intensity h i sz = Ok (n, s, it) -> (2 <= n)%Z -> (0 <= s)%Z ->
  1 <= h_area h -> ~ gamma == 0 -> (1 <= max_iter)%nat ->
  forall e, strauss h i sz gamma r n_iter max_iter us <> Exc e.
Proof.
  intros h i sz gamma r n_iter max_iter us n s it P Hn Hs Ha Hg Hm e H.
  unfold strauss in H. rewrite P in H. simpl in H. unfold alloc in H.
  destruct (n <? 0)%Z eqn:E1; qb; [lia|]. destruct (s <? 0)%Z eqn:E2; qb; [lia|]. simpl in H.
  assert (A : forall us e, attempts h (Z.to_nat n) gamma r n_iter max_iter us <> Exc e).
  { intros us0 e0. destruct max_iter; [lia|]. simpl.
    destruct (attempt_large h (Z.to_nat n) gamma r n_iter us0 Ha Hg ltac:(lia)) as [->|[l [rest ->]]]; discriminate. }
  assert (R : forall k us e, replicate (attempts h (Z.to_nat n) gamma r n_iter max_iter) k us <> Exc e).
  { induction k; intros us0 e0; simpl; [discriminate|].
    destruct (attempts h (Z.to_nat n) gamma r n_iter max_iter us0) as [l u1|e1|] eqn:E; simpl; try discriminate.
    - destruct (replicate _ k u1) as [l2 u2|e2|] eqn:F; simpl; try discriminate.
      exfalso. eapply IHk; eauto.
    - exfalso. eapply A; eauto. }
  destruct (replicate _ _ us) as [d u|e1|] eqn:E; simpl in H; try discriminate.
  eapply R; eauto.
Qed.
