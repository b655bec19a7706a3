(** Which exceptions strauss (random.py 561-702) can raise. *)
From Coq Require Import ZArith QArith Qround Qpower List Bool Lia Lqa.
From Verif Require Import Base BaseLemmas Quadrat_model Geometry_model Random_model Random_spec Random_proofs Strauss_proofs StraussExact_props.
Import ListNotations.
Local Open Scope Q_scope.

Lemma birth_no_exc : forall h n gamma r pts us e, 0 <= h_area h -> birth h n gamma r pts us <> Exc e.
Proof.
  intros h n gamma r pts us e A. unfold birth.
  destruct (poisson h (Some 1) SNone us) as [a u1|e1|] eqn:P; simpl; try discriminate.
  - destruct u1; discriminate.
  - exfalso. eapply poisson_no_exc; [|exact P]. lra.
Qed.

Lemma death_exc : forall n gamma r pts us e, death n gamma r pts us = Exc e -> e = RuntimeError.
Proof.
  intros n gamma r pts us e. unfold death. destruct (_ <? _)%Z; [|discriminate].
  destruct us as [|w us]; simpl; [discriminate|]. destruct (Qeq_bool _ _); [congruence|]. destruct us; discriminate.
Qed.

Lemma mh_loop_exc : forall h n gamma r iters pts us e, 0 <= h_area h -> mh_loop h n gamma r iters pts us = Exc e -> e = RuntimeError.
Proof.
  intros h n gamma r iters. induction iters; intros pts us e A H; simpl in H; [discriminate|].
  destruct (Z.of_nat (List.length pts) <? n)%Z.
  - destruct (birth h n gamma r pts us) as [p1 u1|e1|] eqn:E; simpl in H; try discriminate; eauto.
    exfalso. eapply birth_no_exc; eauto.
  - destruct us as [|u us]; simpl in H; [discriminate|].
    destruct (Qltb u (1#2)).
    + destruct (birth h n gamma r pts us) as [p1 u1|e1|] eqn:E; simpl in H; try discriminate; eauto.
      exfalso. eapply birth_no_exc; eauto.
    + destruct (death n gamma r pts us) as [p1 u1|e1|] eqn:E; simpl in H; try discriminate; eauto.
      inversion H; subst. eapply death_exc; eauto.
Qed.

Lemma mh_loop1_exc : forall h n iters us e, 0 <= h_area h -> mh_loop1 h n iters us = Exc e -> e = ValueError.
Proof.
  intros h n iters. 
  assert (B : forall us e, 0 <= h_area h -> rbind (poisson h (Some 1) SNone us) (fun _ _ => @Exc unit ValueError) = Exc e -> e = ValueError).
  { intros us e A H. destruct (poisson h (Some 1) SNone us) as [a u1|e1|] eqn:P; simpl in H; try discriminate; [congruence|].
    exfalso. eapply poisson_no_exc; [|exact P]. lra. }
  induction iters; intros us e A H; simpl in H; [discriminate|].
  destruct (2 <? n)%Z; [eauto|]. destruct us as [|u us]; simpl in H; [discriminate|].
  destruct (Qltb u (1#2)); [eauto|]. destruct (n <? 2)%Z; [|eauto].
  destruct us; simpl in H; congruence.
Qed.

Lemma initial_trunc0 : forall h n, 0 <= h_area h ->
  Qtrunc (h_area h * inject_Z (Z.of_nat (3 * n / 2))) = initial_points h (Z.of_nat n).
Proof.
  intros h n A. unfold initial_points. assert (E : Z.of_nat (3 * n / 2) = (3 * Z.of_nat n / 2)%Z).
  { rewrite Nat2Z.inj_div, Nat2Z.inj_mul. reflexivity. }
  rewrite E. apply Qtrunc_nonneg. apply Qmult_le_0_compat; auto. apply inject_Z_nonneg. apply Z.div_pos; lia.
Qed.

Lemma attempt_exc : forall h n gamma r n_iter us e, 0 <= h_area h ->
  attempt h n gamma r n_iter us = Exc e ->
  e = RuntimeError \/ e = ValueError /\ initial_points h (Z.of_nat n) = 1%Z.
Proof.
  intros h n gamma r n_iter us e A H. unfold attempt in H.
  destruct (poisson h _ SNone us) as [a us1|e1|] eqn:P; simpl in H; try discriminate.
  - apply poisson_intensity in P. cbv zeta in P. rewrite initial_trunc0 in P by auto.
    destruct P as [_ [[M [p [-> _]]]|[_ [pts [-> _]]]]].
    + right. destruct (mh_loop1 h (Z.of_nat n) n_iter us1) eqn:E; simpl in H; try discriminate.
      inversion H; subst. split; auto. eapply mh_loop1_exc; eauto.
    + left. destruct (mh_loop h (Z.of_nat n) gamma r n_iter pts us1) eqn:E; simpl in H; try discriminate.
      inversion H; subst. eapply mh_loop_exc; eauto.
  - exfalso. eapply poisson_no_exc; [|exact P]. apply Qmult_le_0_compat; auto. apply inject_Z_nonneg. lia.
Qed.

Lemma attempts_exc : forall h n gamma r n_iter m us e, 0 <= h_area h ->
  attempts h n gamma r n_iter m us = Exc e ->
  e = RuntimeError \/ e = ValueError /\ initial_points h (Z.of_nat n) = 1%Z.
Proof.
  intros h n gamma r n_iter m. induction m; intros us e A H; simpl in H; [left; congruence|].
  destruct (attempt h n gamma r n_iter us) as [[l|] us1|e1|] eqn:E; simpl in H; try discriminate; eauto.
  inversion H; subst. eapply attempt_exc; eauto.
Qed.

(** Once the arguments are accepted, only the documented RuntimeError can occur, except when
    the initial pattern has a single point. *)
Theorem C37_exceptions : forall h i sz gamma r n_iter max_iter us n s it e,
  parse_size_and_intensity h i sz = Ok (n, s, it) -> (0 <= n)%Z -> (0 <= s)%Z -> 0 <= h_area h ->
  strauss h i sz gamma r n_iter max_iter us = Exc e ->
  e = RuntimeError \/ e = ValueError /\ initial_points h n = 1%Z.
Proof.
  intros h i sz gamma r n_iter max_iter us n s it e P N S A H.
  unfold strauss in H. rewrite P in H. simpl in H. unfold alloc in H.
  destruct (n <? 0)%Z eqn:E1; qb; [lia|]. destruct (s <? 0)%Z eqn:E2; qb; [lia|]. simpl in H.
  rewrite <- (Z2Nat.id n) by lia.
  assert (R : forall k us e, replicate (attempts h (Z.to_nat n) gamma r n_iter max_iter) k us = Exc e ->
    e = RuntimeError \/ e = ValueError /\ initial_points h (Z.of_nat (Z.to_nat n)) = 1%Z).
  { induction k; intros us0 e0 X; simpl in X; [discriminate|].
    destruct (attempts h (Z.to_nat n) gamma r n_iter max_iter us0) as [l u1|e1|] eqn:E; simpl in X; try discriminate.
    - destruct (replicate _ k u1) as [l2 u2|e2|] eqn:F; simpl in X; try discriminate. inversion X; subst. eauto.
    - inversion X; subst. eapply attempts_exc; eauto. }
  destruct (replicate _ _ us) as [d u|e1|] eqn:E; simpl in H; try discriminate.
  inversion H; subst. eapply R; eauto.
Qed.
Print Assumptions C37_exceptions.

(** Both kinds occur: a one-point initial pattern makes the KD-tree raise ValueError. *)
Example C37_exceptions_case :
  strauss (bbox_hull (mkbox 0 0 1 1)) None (SInt 1) (1#10) (1#20) 1 10 [1#2; 1#2; 0; 1#3; 1#3] = Exc ValueError /\
  strauss (bbox_hull (mkbox 0 0 1 1)) None (SInt 4) 0 (2) 3 1 (repeat (3#4) 20) = Exc RuntimeError.
Proof. split; vm_compute; reflexivity. Qed.
