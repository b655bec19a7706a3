(** One move of the Strauss chain, on average. *)
From Coq Require Import Reals ZArith QArith Qround Qminmax Qpower Qreals List Bool Arith Lia Lra Psatz Permutation.
From Verif Require Import Base BaseLemmas Quadrat_model Geometry_model Random_model Random_spec Random_proofs RandomLaw_props Joint_spec Joint_proofs
  Null_spec Null_proofs Binomial_proofs.
Import ListNotations.
Local Open Scope R_scope.

Section Moves.
Variables (G : list Q) (w : Q -> R) (h : hull) (n m : nat) (gamma r : Q).
Notation mk := (box_candidate (h_bbox h)).
Notation ok := (h_contains h).
Notation mean1 := (Joint_spec.mean1 G w).
Notation mean := (Joint_spec.mean G w).
Notation kept := (Joint_spec.kept G w mk ok).
Notation pts k := (Null_spec.kept_all G w ok (repeat mk k)).
Notation A := (kept always).
(** The probability that a number is below [a]. *)
Definition below (a : Q) : R := mean1 (fun u => yes (Qltb u a)).
(** The ratio with which a birth with [t] neighbours is accepted, and the reverse one. *)
Definition up (t : nat) : Q := inject_Z (Z.of_nat n) * Qpower gamma (Z.of_nat t) / (inject_Z (Z.of_nat m) + 1).
Definition down (t : nat) : Q := (inject_Z (Z.of_nat m) + 1) / (inject_Z (Z.of_nat n) * Qpower gamma (Z.of_nat t)).
Hypothesis LW : is_law G w.
Hypothesis unit_law : forall u, In u G -> (0 <= u < 1)%Q.
Hypothesis positive : (0 < gamma)%Q.
Hypothesis Hn : (1 <= n)%nat.
Hypothesis Hm : (n <= m)%nat.
Hypothesis area1 : Qtrunc (h_area h * 1) = 1%Z.
Hypothesis half : below (1#2) = 1 / 2.
Hypothesis fair : forall i, (i <= m)%nat -> mean1 (fun v => yes (Nat.eqb (Z.to_nat (Qfloor (v * (inject_Z (Z.of_nat m) + 1)))) i)) = / INR (S m).
Hypothesis exact_up : forall t, (t <= m)%nat -> below (Qmin1 (up t)) = Q2R (Qmin1 (up t)).
Hypothesis exact_down : forall t, (t <= m)%nat -> below (Qmin1 (down t)) = Q2R (Qmin1 (down t)).

Lemma mean1_in : forall F F', (forall u, In u G -> F u = F' u) -> mean1 F = mean1 F'.
Proof using. clear. intros F F' H. unfold Joint_spec.mean1. f_equal. apply map_ext_in. intros u U. rewrite H by exact U. reflexivity. Qed.
Lemma mean1_all : forall c, mean1 (fun _ => c) = c.
Proof using LW unit_law positive Hn Hm area1 half fair exact_up exact_down. intro c. destruct LW as [_ T]. rewrite (mean1_ext G w _ (fun _ => c * 1)) by (intro; ring). rewrite mean1_scale, T. ring. Qed.
Lemma mean1_sum : forall B (cs : list B) F, mean1 (fun u => rsum cs (fun c => F c u)) = rsum cs (fun c => mean1 (F c)).
Proof using.
  clear. intros B cs F. induction cs as [|c cs IH].
  - change (mean1 (fun _ => 0) = 0). rewrite (mean1_ext G w _ (fun _ => 0 * 1)) by (intro; ring). rewrite mean1_scale. ring.
  - rewrite rsum_cons, <- IH. rewrite <- (Rmult_1_l (mean1 (F c))), <- (Rmult_1_l (mean1 (fun u => rsum cs _))), <- mean1_lin. apply mean1_ext. intro u. rewrite rsum_cons. ring.
Qed.
Lemma pick_sum : forall k F i, (i < k)%nat -> rsum (seq 0 k) (fun j => yes (Nat.eqb i j) * F j) = F i.
Proof using.
  clear. intros k F i. revert i F. assert (X : forall k a i F, (a <= i < a + k)%nat -> rsum (seq a k) (fun j => yes (Nat.eqb i j) * F j) = F i).
  { clear. induction k as [|k IH]; intros a i F H; [lia|]. cbn [seq]. rewrite rsum_cons. destruct (Nat.eqb_spec i a) as [->|NE].
    - cbn [yes]. rewrite (rsum_ext _ _ _ (fun _ => 0)).
      + assert (Z0 : forall l : list nat, rsum l (fun _ => 0) = 0) by (induction l as [|x l I]; [reflexivity|rewrite rsum_cons, I; ring]). rewrite Z0. unfold yes. ring.
      + intros j J. apply in_seq in J. destruct (Nat.eqb_spec a j); [lia|]. unfold yes. ring.
    - rewrite IH by lia. unfold yes. ring. }
  intros i F H. apply X. lia.
Qed.
(** A fair choice among the positions. *)
Lemma mean_index : forall Phi, mean1 (fun v => Phi (Z.to_nat (Qfloor (v * (inject_Z (Z.of_nat m) + 1))))) = / INR (S m) * rsum (seq 0 (S m)) Phi.
Proof using LW unit_law positive Hn Hm area1 half fair exact_up exact_down.
  intro Phi. rewrite (mean1_in _ (fun v => rsum (seq 0 (S m)) (fun j => yes (Nat.eqb (Z.to_nat (Qfloor (v * (inject_Z (Z.of_nat m) + 1)))) j) * Phi j))).
  - rewrite mean1_sum. assert (X : forall l : list nat, / INR (S m) * rsum l Phi = rsum l (fun j => / INR (S m) * Phi j)) by (induction l as [|x l I]; [unfold rsum; cbn; ring|rewrite !rsum_cons, <- I; ring]).
    rewrite X. apply rsum_ext. intros j J. apply in_seq in J. rewrite (mean1_ext _ _ _ (fun u => Phi j * yes (Nat.eqb (Z.to_nat (Qfloor (u * (inject_Z (Z.of_nat m) + 1)))) j))) by (intro; ring).
    rewrite mean1_scale, fair by lia. ring.
  - intros v V. symmetry. apply pick_sum. destruct (unit_law v V) as [V0 V1]. set (x := (v * (inject_Z (Z.of_nat m) + 1))%Q).
    assert (M : (0 <= inject_Z (Z.of_nat m))%Q) by (change 0%Q with (inject_Z 0); rewrite <- Zle_Qle; lia).
    assert (X : (x < inject_Z (Z.of_nat (S m)))%Q).
    { unfold x. rewrite Nat2Z.inj_succ. unfold Z.succ. rewrite inject_Z_plus. change (inject_Z 1) with 1%Q.
      setoid_replace (inject_Z (Z.of_nat m) + 1)%Q with (1 * (inject_Z (Z.of_nat m) + 1))%Q at 2 by ring. apply Qmult_lt_compat_r; [|exact V1]. apply (Qlt_le_trans _ (0 + 1)); [reflexivity|]. apply Qplus_le_compat; [exact M|apply Qle_refl]. }
    pose proof (Qfloor_le x) as FL. assert (F1 : (Qfloor x < Z.of_nat (S m))%Z) by (rewrite Zlt_Qlt; eapply Qle_lt_trans; eauto). lia.
Qed.
Lemma to_R : forall a b : Q, (a == b)%Q -> Q2R a = Q2R b.
Proof using. clear. intros a b. apply Qeq_eqR. Qed.
(** The two ratios balance the density. *)
Lemma balance : forall t, INR (S m) * Q2R (Qmin1 (up t)) = INR n * Q2R (Qpower gamma (Z.of_nat t)) * Q2R (Qmin1 (down t)).
Proof using LW unit_law positive Hn Hm area1 half fair exact_up exact_down.
  intro t. assert (P : (0 < Qpower gamma (Z.of_nat t))%Q) by (apply Qpower_0_lt; exact positive). unfold up, down. set (g := Qpower gamma (Z.of_nat t)) in *. clearbody g.
  assert (IN : forall k, INR k = Q2R (inject_Z (Z.of_nat k))) by (intro k; rewrite INR_IZR_INZ; unfold Q2R, inject_Z; cbn [Qnum Qden]; field).
  rewrite !IN, <- !Q2R_mult. apply to_R. rewrite Nat2Z.inj_succ. unfold Z.succ. rewrite inject_Z_plus. change (inject_Z 1) with 1%Q.
  assert (N : (0 < inject_Z (Z.of_nat n))%Q) by (change 0%Q with (inject_Z 0); rewrite <- Zlt_Qlt; lia).
  assert (M : (0 <= inject_Z (Z.of_nat m))%Q) by (change 0%Q with (inject_Z 0); rewrite <- Zle_Qle; lia).
  set (a := inject_Z (Z.of_nat n)) in *. set (b := inject_Z (Z.of_nat m)) in *. clearbody a b.
  assert (AG : (0 < a * g)%Q) by (apply Qmult_lt_0_compat; assumption). set (c := (a * g)%Q) in *. clearbody c.
  assert (B1 : (0 < b + 1)%Q) by lra. set (d := (b + 1)%Q) in *. clearbody d. unfold Qmin1.
  destruct (Qlt_le_dec c d) as [L|L].
  - rewrite (Q.min_r 1 (c / d)), (Q.min_l 1 (d / c)).
    + field. lra.
    + apply Qle_shift_div_l; [exact AG|]. lra.
    + apply Qle_shift_div_r; [exact B1|]. lra.
  - rewrite (Q.min_l 1 (c / d)), (Q.min_r 1 (d / c)).
    + field. lra.
    + apply Qle_shift_div_r; [exact AG|]. lra.
    + apply Qle_shift_div_l; [exact B1|]. lra.
Qed.

(** Births. *)
Lemma poisson_one : forall us, poisson h (Some 1%Q) SNone us = rbind (reject mk ok us 1) (fun l us => Val (squeeze 1 1 [l]) us).
Proof using LW unit_law positive Hn Hm area1 half fair exact_up exact_down. intro us. destruct (poisson_intensity h 1) as [[e H]|[b [B H]]].
  - exfalso. specialize (H []). revert H. unfold poisson, parse_size_and_intensity, alloc. cbn [lift rbind]. rewrite area1. cbn. discriminate.
  - rewrite area1 in B. assert (b = 1)%nat by lia. subst b. exact (H us).
Qed.
Definition size_is (k : nat) (x : list pt) : R := yes (Nat.eqb (List.length x) k).
Notation step := (mh_loop h (Z.of_nat n) gamma r 1).
Notation Delta p x := (count (close r p) x).
(** The probability that one candidate and one more number can be drawn. *)
Definition drawn (L : nat) : R := mean L (fun us => of_run (rbind (poisson h (Some 1%Q) SNone us) (fun _ us => draw1 us)) always).
Lemma count_le : forall B (f : B -> bool) l, (count f l <= List.length l)%nat.
Proof using. clear. intros B f l. unfold count. induction l as [|x l IH]; [cbn; lia|]. cbn [filter]. destruct (f x); cbn [List.length]; lia. Qed.
Lemma Qlen_m : forall x : list pt, List.length x = m -> (Qlen x = inject_Z (Z.of_nat m))%Q.
Proof using. clear. intros x <-. reflexivity. Qed.
Lemma birth_mean : forall L, exists C, drawn L = C * A /\ forall x g, List.length x = m ->
  mean L (fun us => of_run (birth h (Z.of_nat n) gamma r x us) (fun y => size_is (S m) y * g y)) =
  C * kept (fun p => Q2R (Qmin1 (up (Delta p x))) * g (x ++ [p])).
Proof using LW unit_law positive Hn Hm area1 half fair exact_up exact_down.
  intro L. destruct (reject_terms G w mk ok LW L 1) as [cs [C1 C2]].
  exists (rsum cs (fun t => fst t * (match snd (snd t) with O => 0 | S _ => 1 end))). split.
  - unfold drawn. rewrite (mean_ext G w L _ (fun us => of_rest (reject mk ok us 1) (fun l us => of_run (draw1 us) always))).
    2:{ intro us. rewrite poisson_one. destruct (reject mk ok us 1) as [l us'|e|]; reflexivity. }
    rewrite C2. clear C2. induction C1 as [|t cs T _ IH]; [unfold rsum; cbn; ring|]. rewrite !rsum_cons, IH, Rmult_plus_distr_r. f_equal. unfold value. rewrite T. cbn [repeat Null_spec.kept_all].
    rewrite (kept_ext G w ok mk _ (fun p => (match snd (snd t) with O => 0 | S _ => 1 end) * always p)); [rewrite kept_scale; ring|].
    intros p _. unfold always. rewrite Rmult_1_r. destruct (snd (snd t)) as [|L0]; [reflexivity|]. cbn [Joint_spec.mean draw1 of_run]. rewrite (mean1_ext _ _ _ (fun _ => 1)) by (intro; apply (mean_const G w LW)). apply mean1_all.
  - intros x g X. rewrite (mean_ext G w L _ (fun us => of_rest (reject mk ok us 1) (fun l us => of_run (draw1 us) (fun u =>
      match l with [p] => yes (Qltb u (Qmin1 (up (Delta p x)))) * g (x ++ [p]) | _ => 0 end)))).
    2:{ intro us. unfold birth. rewrite poisson_one. destruct (reject mk ok us 1) as [l us'|e|] eqn:E; cbn [rbind of_rest]; try reflexivity.
        apply reject_sound in E. destruct E as [E _]. destruct l as [|p [|q l]]; try discriminate. cbn [squeeze Nat.eqb vstack_rows]. destruct us' as [|u us']; [reflexivity|]. cbn [draw1 rbind of_run].
        pose proof (pair_count_mid r x p []) as PM. rewrite app_nil_r in PM. rewrite PM, Qlen_m by exact X.
        replace (pair_count r x + Z.of_nat (Delta p x) - pair_count r x)%Z with (Z.of_nat (Delta p x)) by lia. fold (up (Delta p x)).
        unfold size_is. destruct (Qltb u (Qmin1 (up (Delta p x)))); cbn [yes].
        - rewrite app_length, X. cbn [List.length]. replace (m + 1)%nat with (S m) by lia. rewrite Nat.eqb_refl. reflexivity.
        - rewrite X. destruct (Nat.eqb_spec m (S m)); [lia|]. cbn [yes]. ring. }
    rewrite C2. clear C2. induction C1 as [|t cs T _ IH]; [unfold rsum; cbn; ring|]. rewrite !rsum_cons, IH, Rmult_plus_distr_r. f_equal. unfold value. rewrite T. cbn [repeat Null_spec.kept_all].
    rewrite Rmult_assoc. f_equal. rewrite <- kept_scale. apply kept_ext. intros p _. destruct (snd (snd t)) as [|L0]; [cbn [Joint_spec.mean draw1 of_run]; ring|].
    cbn [Joint_spec.mean draw1 of_run]. rewrite (mean1_ext _ _ _ (fun u => g (x ++ [p]) * yes (Qltb u (Qmin1 (up (Delta p x)))))).
    2:{ intro u. rewrite (mean_const G w LW). ring. }
    rewrite mean1_scale. fold (below (Qmin1 (up (Delta p x)))). rewrite exact_up; [ring|]. rewrite <- X. apply count_le.
Qed.
Lemma birth_length : forall k x us y us', List.length x = k -> birth h (Z.of_nat n) gamma r x us = Val y us' -> (k <= List.length y)%nat.
Proof using.
  clear. intros k x us y us' X H. unfold birth in H. apply rbind_val in H. destruct H as [a [us1 [_ H]]]. apply rbind_val in H. destruct H as [u [us2 [_ H]]]. injection H as <- _.
  destruct (Qltb u _); [|lia]. destruct a as [p|l|]; cbn [vstack_rows]; rewrite ?app_length; lia.
Qed.
Lemma delete_length : forall i (x : list pt), (List.length (delete_nth i x) <= List.length x)%nat.
Proof using. clear. induction i as [|i IH]; intros [|p x]; cbn; try lia. specialize (IH x). lia. Qed.
Lemma death_length : forall k x us y us', List.length x = k -> death (Z.of_nat n) gamma r x us = Val y us' -> (List.length y <= k)%nat.
Proof using.
  clear. intros k x us y us' X H. unfold death in H. destruct (_ <? _)%Z; [|injection H as <- _; lia].
  apply rbind_val in H. destruct H as [v [us1 [_ H]]]. destruct (Qeq_bool _ _); [discriminate|]. apply rbind_val in H. destruct H as [u [us2 [_ H]]]. injection H as <- _.
  destruct (Qltb u _); [|lia]. subst k. apply delete_length.
Qed.
Lemma mean1_zero : mean1 (fun _ => 0) = 0.
Proof using. clear. rewrite (mean1_ext G w _ (fun _ => 0 * 1)) by (intro; ring). rewrite mean1_scale. ring. Qed.
Lemma step_up : forall L, exists C, drawn L = C * A /\ forall x g, List.length x = m ->
  mean (S L) (fun us => of_run (step x us) (fun y => size_is (S m) y * g y)) = 1 / 2 * (C * kept (fun p => Q2R (Qmin1 (up (Delta p x))) * g (x ++ [p]))).
Proof using LW unit_law positive Hn Hm area1 half fair exact_up exact_down.
  intro L. destruct (birth_mean L) as [C [C1 C2]]. exists C. split; [exact C1|]. intros x g X. rewrite <- C2 by exact X. rewrite <- half. unfold below.
  rewrite Rmult_comm, <- mean1_scale. cbn [Joint_spec.mean]. apply mean1_ext. intro u. rewrite Rmult_comm.
  rewrite (mean_ext G w L _ (fun us => yes (Qltb u (1#2)) * of_run (birth h (Z.of_nat n) gamma r x us) (fun y => size_is (S m) y * g y))); [apply mean_scale|].
  intro us. cbn [mh_loop]. rewrite X. destruct (Z.ltb_spec (Z.of_nat m) (Z.of_nat n)); [lia|]. cbn [draw1 rbind]. destruct (Qltb u (1#2)); cbn [yes].
  - rewrite Rmult_1_l. destruct (birth _ _ _ _ x us); reflexivity.
  - rewrite Rmult_0_l. destruct (death (Z.of_nat n) gamma r x us) as [y us'|e|] eqn:E; cbn [rbind of_run]; try reflexivity. apply (death_length m) in E; [|exact X].
    unfold size_is. destruct (Nat.eqb_spec (List.length y) (S m)); [lia|]. cbn [yes]. ring.
Qed.
(** Deaths. *)
Lemma delete_nth_one : forall i (y : list pt), (i < List.length y)%nat -> exists l1 p l2, y = l1 ++ p :: l2 /\ delete_nth i y = l1 ++ l2 /\ List.length l1 = i.
Proof using.
  clear. induction i as [|i IH]; intros [|p y] H; cbn in H; try lia.
  - exists [], p, y. auto.
  - destruct (IH y ltac:(lia)) as [l1 [q [l2 [-> [E L]]]]]. exists (p :: l1), q, l2. cbn. rewrite E, L. auto.
Qed.
Definition lost (y : list pt) (i : nat) : nat := Z.to_nat (pair_count r y - pair_count r (delete_nth i y)).
Lemma step_down : forall L y f, List.length y = S m -> mean (S (S (S L))) (fun us => of_run (step y us) (fun x => size_is m x * f x)) =
  1 / 2 * (/ INR (S m) * rsum (seq 0 (S m)) (fun i => Q2R (Qmin1 (down (lost y i))) * f (delete_nth i y))).
Proof using LW unit_law positive Hn Hm area1 half fair exact_up exact_down.
  intros L y f Y. rewrite <- mean_index. set (D := mean1 (fun v => _)).
  cbn [Joint_spec.mean]. rewrite (mean1_ext _ _ _ (fun u => D * (1 - yes (Qltb u (1#2))))).
  - rewrite mean1_scale. rewrite (mean1_ext _ _ _ (fun u => 1 * 1 + (-1) * yes (Qltb u (1#2)))) by (intro; ring). rewrite mean1_lin, mean1_all. fold (below (1#2)). rewrite half. field.
  - intro u. destruct (Qltb u (1#2)) eqn:U; cbn [yes].
    + replace (D * (1 - 1)) with 0 by ring. rewrite <- mean1_zero. apply mean1_ext. intro v. rewrite <- mean1_zero. apply mean1_ext. intro u'. rewrite <- (mean_const G w LW L 0). apply mean_ext. intro us.
      cbn [mh_loop]. rewrite Y. destruct (Z.ltb_spec (Z.of_nat (S m)) (Z.of_nat n)); [lia|]. cbn [draw1 rbind]. rewrite U.
      destruct (birth h (Z.of_nat n) gamma r y _) as [x us'|e|] eqn:E; cbn [rbind of_run]; try reflexivity. apply (birth_length (S m)) in E; [|exact Y].
      unfold size_is. destruct (Nat.eqb_spec (List.length x) m); [lia|]. cbn [yes]. ring.
    + replace (D * (1 - 0)) with D by ring. apply mean1_in. intros v V.
      assert (LY : Qlen y = inject_Z (Z.of_nat (S m))) by (unfold Qlen; rewrite Y; reflexivity).
      assert (IX : Z.to_nat (Qfloor (v * Qlen y)) = Z.to_nat (Qfloor (v * (inject_Z (Z.of_nat m) + 1)))).
      { f_equal. apply Qfloor_comp. rewrite LY, Nat2Z.inj_succ. unfold Z.succ. rewrite inject_Z_plus. reflexivity. }
      set (i := Z.to_nat (Qfloor (v * (inject_Z (Z.of_nat m) + 1)))) in *.
      assert (IL : (i < S m)%nat).
      { rewrite <- IX. destruct (unit_law v V) as [V0 V1]. assert (X : (v * Qlen y < inject_Z (Z.of_nat (S m)))%Q).
        { rewrite LY. setoid_replace (inject_Z (Z.of_nat (S m))) with (1 * inject_Z (Z.of_nat (S m)))%Q at 2 by ring. apply Qmult_lt_compat_r; [|exact V1]. change 0%Q with (inject_Z 0). rewrite <- Zlt_Qlt. lia. }
        pose proof (Qfloor_le (v * Qlen y)) as FL. assert (F1 : (Qfloor (v * Qlen y) < Z.of_nat (S m))%Z) by (rewrite Zlt_Qlt; eapply Qle_lt_trans; eauto). lia. }
      destruct (delete_nth_one i y ltac:(lia)) as [l1 [p [l2 [E1 [E2 _]]]]].
      assert (LO : (pair_count r y - pair_count r (delete_nth i y))%Z = Z.of_nat (Delta p (l1 ++ l2))) by (rewrite E2, E1, pair_count_mid; lia).
      assert (LT : lost y i = Delta p (l1 ++ l2)) by (unfold lost; rewrite LO; apply Nat2Z.id).
      assert (LN : List.length (l1 ++ l2) = m) by (apply (f_equal (@List.length pt)) in E1; rewrite app_length in *; cbn [List.length] in E1; lia).
      rewrite LT. rewrite <- exact_down by (rewrite <- LN; apply count_le). unfold below. rewrite Rmult_comm, <- mean1_scale. apply mean1_ext. intro u'.
      rewrite <- (mean_const G w LW L (f (delete_nth i y) * _)). apply mean_ext. intro us.
      cbn [mh_loop]. rewrite Y. destruct (Z.ltb_spec (Z.of_nat (S m)) (Z.of_nat n)); [lia|]. cbn [draw1 rbind]. rewrite U. unfold death. rewrite Y.
      destruct (Z.ltb_spec (Z.of_nat n) (Z.of_nat (S m))); [|lia]. cbn [draw1 rbind]. rewrite IX, LO.
      assert (P : (0 < inject_Z (Z.of_nat n) * Qpower gamma (Z.of_nat (Delta p (l1 ++ l2))))%Q).
      { apply Qmult_lt_0_compat; [change 0%Q with (inject_Z 0); rewrite <- Zlt_Qlt; lia|apply Qpower_0_lt; exact positive]. }
      destruct (Qeq_bool _ 0) eqn:Z0; [apply Qeq_bool_iff in Z0; rewrite Z0 in P; discriminate P|]. cbn [of_run].
      rewrite (Qltb_eq u' _ (Qmin1 (down (Delta p (l1 ++ l2))))).
      2:{ unfold Qmin1, down. rewrite LY, Nat2Z.inj_succ. unfold Z.succ. rewrite inject_Z_plus. reflexivity. }
      unfold size_is. destruct (Qltb u' _); cbn [yes].
      * cbn [rbind of_run]. rewrite E2, LN, Nat.eqb_refl. cbn [yes]. ring.
      * cbn [rbind of_run]. rewrite Y. destruct (Nat.eqb_spec (S m) m); [lia|]. cbn [yes]. ring.
Qed.

(** A function of the list without one point. *)
Lemma pts_one : forall i Psi Theta, (i < S m)%nat -> (forall l1 p l2, List.length l1 = i -> List.length (l1 ++ l2) = m -> Psi (l1 ++ p :: l2) = Theta p (l1 ++ l2)) ->
  pts (S m) Psi = kept (fun p => pts m (fun x => Theta p x)).
Proof using.
  clear. intros i Psi Theta I H. replace (S m) with (i + S (m - i))%nat by lia. rewrite repeat_app, all_app.
  rewrite (all_ext G w ok _ _ (fun l1 => kept (fun p => pts (m - i) (fun l2 => Theta p (l1 ++ l2))))).
  - rewrite <- kept_all_swap. apply kept_ext. intros p _. replace (repeat mk m) with (repeat mk i ++ repeat mk (m - i)); [rewrite all_app; reflexivity|].
    rewrite <- repeat_app. f_equal. lia.
  - intros l1 [X _]. rewrite repeat_length in X. cbn [repeat Null_spec.kept_all]. apply kept_ext. intros p _. apply all_ext. intros l2 [Y _]. rewrite repeat_length in Y. apply H; [exact X|]. rewrite app_length. lia.
Qed.
(** The density of the Strauss process. *)
Definition strauss_density (x : list pt) : R := Q2R (Qpower gamma (pair_count r x)).
Lemma density_mid : forall l1 p l2, strauss_density (l1 ++ p :: l2) = strauss_density (l1 ++ l2) * Q2R (Qpower gamma (Z.of_nat (Delta p (l1 ++ l2)))).
Proof using LW unit_law positive Hn Hm area1 half fair exact_up exact_down.
  intros l1 p l2. unfold strauss_density. rewrite pair_count_mid, <- Q2R_mult. apply to_R. rewrite Qpower_plus; [reflexivity|]. intro E. rewrite E in positive. discriminate.
Qed.
Definition symmetric (f : list pt -> R) : Prop := forall x y, Permutation x y -> f x = f y.
Lemma balanced : forall L L' f g, symmetric f -> symmetric g ->
  INR (S m) * A * pts m (fun x => strauss_density x * f x * mean (S L) (fun us => of_run (step x us) (fun y => size_is (S m) y * g y))) =
  INR n * drawn L * pts (S m) (fun y => strauss_density y * g y * mean (S (S (S L'))) (fun us => of_run (step y us) (fun x => size_is m x * f x))).
Proof using LW unit_law positive Hn Hm area1 half fair exact_up exact_down.
  intros L L' f g SF SG. destruct (step_up L) as [C [C1 C2]]. rewrite C1.
  set (Theta := fun p x => strauss_density x * Q2R (Qpower gamma (Z.of_nat (Delta p x))) * g (x ++ [p]) * Q2R (Qmin1 (down (Delta p x))) * f x).
  assert (R1 : pts (S m) (fun y => strauss_density y * g y * mean (S (S (S L'))) (fun us => of_run (step y us) (fun x => size_is m x * f x))) = 1 / 2 * kept (fun p => pts m (fun x => Theta p x))).
  { rewrite (all_ext G w ok _ _ (fun y => rsum (seq 0 (S m)) (fun i => (1 / 2 * / INR (S m)) * (strauss_density y * g y * Q2R (Qmin1 (down (lost y i))) * f (delete_nth i y))))).
    - rewrite (pts_rsum G w mk ok (S m)). rewrite (rsum_ext _ _ _ (fun _ => (1 / 2 * / INR (S m)) * kept (fun p => pts m (fun x => Theta p x)))).
      + assert (X : forall k c, rsum (seq 0 k) (fun _ => c) = INR k * c).
        { clear. intros k c. generalize 0%nat. induction k as [|k IH]; intro a; [unfold rsum; cbn; ring|]. cbn [seq]. rewrite rsum_cons, IH, S_INR. ring. }
        rewrite X. field. apply not_0_INR. lia.
      + intros i I. apply in_seq in I. rewrite all_scale. f_equal. apply (pts_one i); [lia|]. intros l1 p l2 E EM.
        assert (DN : delete_nth i (l1 ++ p :: l2) = l1 ++ l2) by (rewrite <- E; apply delete_nth_app). unfold lost. rewrite DN, density_mid. unfold Theta.
        replace (Z.to_nat (pair_count r (l1 ++ p :: l2) - pair_count r (l1 ++ l2))) with (Delta p (l1 ++ l2)) by (rewrite pair_count_mid; lia).
        rewrite (SG (l1 ++ p :: l2) ((l1 ++ l2) ++ [p])); [ring|]. rewrite <- Permutation_middle. apply Permutation_cons_append.
    - intros y [Y _]. rewrite repeat_length in Y. rewrite step_down by exact Y.
      assert (X : forall l : list nat, strauss_density y * g y * (1 / 2 * (/ INR (S m) * rsum l (fun i => Q2R (Qmin1 (down (lost y i))) * f (delete_nth i y)))) =
        rsum l (fun i => 1 / 2 * / INR (S m) * (strauss_density y * g y * Q2R (Qmin1 (down (lost y i))) * f (delete_nth i y)))).
      { induction l as [|i l I]; [unfold rsum; cbn; ring|]. rewrite !rsum_cons, <- I. ring. }
      apply X. }
  rewrite R1. clear R1.
  rewrite (all_ext G w ok _ _ (fun x => (1 / 2 * C) * kept (fun p => strauss_density x * f x * (Q2R (Qmin1 (up (Delta p x))) * g (x ++ [p]))))).
  2:{ intros x [X _]. rewrite repeat_length in X. rewrite C2 by exact X. rewrite kept_scale. ring. }
  rewrite all_scale, <- kept_all_swap.
  transitivity (1 / 2 * C * A * (INR (S m) * kept (fun p => pts m (fun x => strauss_density x * f x * (Q2R (Qmin1 (up (Delta p x))) * g (x ++ [p])))))); [ring|].
  transitivity (1 / 2 * C * A * (INR n * kept (fun p => pts m (fun x => Theta p x)))); [|ring]. f_equal. rewrite <- !kept_scale. apply kept_ext. intros p _. rewrite <- !all_scale. apply all_ext. intros x _.
  unfold Theta. pose proof (balance (Delta p x)) as B.
  transitivity (strauss_density x * f x * g (x ++ [p]) * (INR (S m) * Q2R (Qmin1 (up (Delta p x))))); [ring|]. rewrite B. ring.
Qed.
End Moves.
