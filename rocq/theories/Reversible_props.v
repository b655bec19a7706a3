(** ** C141: the moves of [strauss] are reversible for the Strauss density *)
From Coq Require Import Reals ZArith QArith Qround Qminmax Qpower Qreals List Bool Arith Lia Lra Permutation.
From Verif Require Import Base BaseLemmas Spec Quadrat_model Geometry_model Random_model Random_spec Random_proofs Random_props RandomLaw_props Joint_spec Joint_proofs
  Null_spec Null_proofs Null_props Binomial_proofs HardCore_props Reversible_proofs.
Import ListNotations.
Local Open Scope R_scope.

(** The law of the numbers gives the moves between [m] and [m + 1] points their nominal
    probabilities, as the continuous uniform law does. *)
Record fair_law (G : list Q) (w : Q -> R) (n m : nat) (gamma : Q) : Prop := {
  fl_law : is_law G w;
  fl_unit : forall u, In u G -> (0 <= u < 1)%Q;
  fl_half : mean1 G w (fun u => yes (Qltb u (1#2))) = 1 / 2;
  fl_index : forall i, (i <= m)%nat -> mean1 G w (fun v => yes (Nat.eqb (Z.to_nat (Qfloor (v * (inject_Z (Z.of_nat m) + 1)))) i)) = / INR (S m);
  fl_ratio : forall t a, (t <= m)%nat ->
    (a == inject_Z (Z.of_nat n) * Qpower gamma (Z.of_nat t) / (inject_Z (Z.of_nat m) + 1) \/ a == (inject_Z (Z.of_nat m) + 1) / (inject_Z (Z.of_nat n) * Qpower gamma (Z.of_nat t)))%Q ->
    mean1 G w (fun u => yes (Qltb u (Qmin 1 a))) = Q2R (Qmin 1 a) }.
(** gamma to the number of close pairs. *)
Definition is_density (gamma r : Q) (d : list pt -> R) : Prop := forall x k, ClosePairs r x k -> d x = Q2R gamma ^ k.
(** The expectation of [F] over [k] independent candidates that are all acceptable. *)
Notation pattern G w h k F := (kept_all G w (h_contains h) (repeat (box_candidate (h_bbox h)) k) F).
(** The expectation of [F] after one move from [x], on [L] numbers. *)
Notation moved G w h n gamma r L x F := (mean G w L (fun us => of_run (mh_loop h (Z.of_nat n) gamma r 1 x us) F)).
Definition of_size (k : nat) (g : list pt -> R) (x : list pt) : R := if Nat.eqb (List.length x) k then g x else 0.

Lemma power_R : forall q k, Q2R (Qpower q (Z.of_nat k)) = Q2R q ^ k.
Proof.
  intros q k. induction k as [|k IH]; [unfold Q2R; cbn; lra|]. cbn [pow]. rewrite <- IH, <- Q2R_mult. apply Qeq_eqR. rewrite Nat2Z.inj_succ. unfold Z.succ. rewrite Z.add_comm.
  destruct k as [|k]; [cbn; ring|]. rewrite Qpower_plus'; [reflexivity|lia].
Qed.
Lemma density_is : forall gamma r d, is_density gamma r d -> forall x, d x = strauss_density gamma r x.
Proof. intros gamma r d D x. destruct (pairs_exist r x) as [k K]. rewrite (D x k K). unfold strauss_density. rewrite (pairs_count _ _ _ K), power_R. reflexivity. Qed.

(** Between patterns of m and m + 1 points, the flow under the density
    [n^k/k! * gamma^(close pairs)] is the same in both directions.  The acceptable
    candidates have mass [A]; [drawn] is the probability that a proposed point and one more
    number can be drawn from [L] numbers. *)
Theorem C141_balance : forall G w h n m gamma r d f g L L', fair_law G w n m gamma -> (0 < gamma)%Q -> (1 <= n <= m)%nat -> (1 <= h_area h < 2)%Q ->
  is_density gamma r d -> (forall x y, Permutation x y -> f x = f y) -> (forall x y, Permutation x y -> g x = g y) -> (3 <= L')%nat ->
  INR (m + 1) * kept G w (box_candidate (h_bbox h)) (h_contains h) always *
    pattern G w h m (fun x => d x * f x * moved G w h n gamma r (S L) x (of_size (m + 1) g)) =
  INR n * mean G w L (fun us => of_run (rbind (poisson h (Some 1%Q) SNone us) (fun _ us => draw1 us)) always) *
    pattern G w h (m + 1) (fun y => d y * g y * moved G w h n gamma r L' y (of_size m f)).
Proof.
  intros G w h n m gamma r d f g L L' [F1 F2 F3 F4 F5] GP [N M] [A1 A2] D SF SG HL. destruct L' as [|[|[|L']]]; try lia. rewrite Nat.add_1_r.
  assert (AR : Qtrunc (h_area h * 1) = 1%Z).
  { unfold Qtrunc. rewrite (Qfloor_comp (h_area h * 1) (h_area h)) by ring. replace (Qle_bool 0 (h_area h * 1)) with true.
    - pose proof (Qfloor_le (h_area h)) as X. pose proof (Qlt_floor (h_area h)) as Y. assert (1 <= Qfloor (h_area h))%Z by (change 1%Z with (Qfloor 1); apply Qfloor_resp_le; exact A1).
      assert (Qfloor (h_area h) < 2)%Z by (rewrite Zlt_Qlt; eapply Qle_lt_trans; [exact X|exact A2]). lia.
    - symmetry. apply Qle_bool_iff. setoid_rewrite Qmult_1_r. eapply Qle_trans; [|exact A1]. discriminate. }
  pose proof (balanced G w h n m gamma r F1 F2 GP N M AR F3 F4 (fun t T => F5 t _ T (or_introl (Qeq_refl _))) (fun t T => F5 t _ T (or_intror (Qeq_refl _))) L L' f g SF SG) as B.
  assert (SZ : forall k (q : list pt -> R) L0 x, mean G w L0 (fun us => of_run (mh_loop h (Z.of_nat n) gamma r 1 x us) (fun y => size_is k y * q y)) =
                moved G w h n gamma r L0 x (of_size k q)).
  { intros k q L0 x. apply mean_ext. intro us. destruct (mh_loop _ _ _ _ _ x us) as [y| |]; try reflexivity. cbn [of_run]. unfold size_is, of_size, yes. destruct (Nat.eqb _ _); ring. }
  unfold drawn in B. etransitivity; [|etransitivity; [exact B|]].
  - f_equal. apply all_ext. intros x _. rewrite SZ, (density_is _ _ _ D). reflexivity.
  - f_equal. apply all_ext. intros x _. rewrite SZ, (density_is _ _ _ D). reflexivity.
Qed.
Print Assumptions C141_balance.

(** A move leaves the pattern alone, adds a point at its end, or removes one of more than n. *)
Theorem C141_moves : forall h n gamma r x us y rest, unit_stream us -> (1 <= h_area h < 2)%Q -> (n <= List.length x)%nat -> mh_loop h (Z.of_nat n) gamma r 1 x us = Val y rest ->
  y = x \/ (exists p, y = x ++ [p]) \/ (exists l1 p l2, x = l1 ++ p :: l2 /\ y = l1 ++ l2 /\ (n < List.length x)%nat).
Proof.
  intros h n gamma r x us y rest U [A1 A2] N H. cbn [mh_loop] in H. destruct (Z.ltb_spec (Z.of_nat (List.length x)) (Z.of_nat n)); [lia|].
  apply rbind_val in H. destruct H as [y' [us1 [H E]]]. injection E as <- _. apply rbind_val in H. destruct H as [u [us2 [D H]]]. destruct us as [|u0 us]; [discriminate|]. injection D as <- <-.
  destruct (Qltb u0 (1#2)).
  - apply C87_birth_size in H. destruct H as [->|[l [-> LN]]]; [left; reflexivity|]. right. left.
    assert (T : Qtrunc (h_area h) = 1%Z).
    { unfold Qtrunc. replace (Qle_bool 0 (h_area h)) with true by (symmetry; apply Qle_bool_iff; eapply Qle_trans; [|exact A1]; discriminate).
      assert (1 <= Qfloor (h_area h))%Z by (change 1%Z with (Qfloor 1); apply Qfloor_resp_le; exact A1).
      assert (Qfloor (h_area h) < 2)%Z by (rewrite Zlt_Qlt; eapply Qle_lt_trans; [apply Qfloor_le|exact A2]). lia. }
    rewrite T in LN. destruct l as [|p [|q l]]; cbn in LN; try lia. exists p. reflexivity.
  - unfold death in H. destruct (Z.ltb_spec (Z.of_nat n) (Z.of_nat (List.length x))) as [L|L]; [|injection H as -> _; left; reflexivity].
    apply rbind_val in H. destruct H as [v [us3 [D H]]]. destruct (Qeq_bool _ 0); [discriminate|]. apply rbind_val in H. destruct H as [u' [us4 [D' H]]]. injection H as <- _.
    destruct (Qltb u' _); [|left; reflexivity]. right. right. destruct us as [|v0 us]; [discriminate|]. injection D as <- _.
    destruct (delete_nth_one (Z.to_nat (Qfloor (v0 * Qlen x))) x) as [l1 [p [l2 [E1 [E2 _]]]]].
    + inversion U as [|? ? _ U1]; subst. inversion U1 as [|? ? [V0 V1] _]; subst.
      assert (X : (v0 * Qlen x < inject_Z (Z.of_nat (List.length x)))%Q).
      { unfold Qlen. setoid_replace (inject_Z (Z.of_nat (List.length x))) with (1 * inject_Z (Z.of_nat (List.length x)))%Q at 2 by ring. apply Qmult_lt_compat_r; [|exact V1]. change 0%Q with (inject_Z 0). rewrite <- Zlt_Qlt. lia. }
      pose proof (Qfloor_le (v0 * Qlen x)) as FL. assert (F1 : (Qfloor (v0 * Qlen x) < Z.of_nat (List.length x))%Z) by (rewrite Zlt_Qlt; eapply Qle_lt_trans; eauto). lia.
    + exists l1, p, l2. split; [exact E1|]. split; [exact E2|lia].
Qed.
Print Assumptions C141_moves.

(** In a larger window a birth adds several points, which no single move can take away. *)
Definition double : hull := bbox_hull (mkbox 0 0 2 1).
Theorem C141_one_way_refuted :
  (forall h n gamma r m y us x rest, (2 <= h_area h)%Q -> (n <= m)%nat -> Z.of_nat (List.length y) = (Z.of_nat m + Qtrunc (h_area h))%Z ->
     mh_loop h (Z.of_nat n) gamma r 1 y us = Val x rest -> List.length x <> m) /\
  h_area double = 2%Q /\ coins 6 (mh_loop double 2 (1#2) (1#8) 1 [(0, 0); (1, 1)]%Q) (fun y => Nat.eqb (List.length y) 4) = 7 / 16.
Proof.
  split; [|split; [reflexivity|count_runs]]. intros h n gamma r m y us x rest A M Y H E.
  assert (T : (2 <= Qtrunc (h_area h))%Z).
  { unfold Qtrunc. replace (Qle_bool 0 (h_area h)) with true by (symmetry; apply Qle_bool_iff; eapply Qle_trans; [|exact A]; discriminate). change 2%Z with (Qfloor 2). apply Qfloor_resp_le. exact A. }
  cbn [mh_loop] in H. destruct (Z.ltb_spec (Z.of_nat (List.length y)) (Z.of_nat n)); [lia|].
  apply rbind_val in H. destruct H as [y' [us1 [H E']]]. injection E' as <- _. apply rbind_val in H. destruct H as [u [us2 [_ H]]]. destruct (Qltb u (1#2)).
  - apply birth_length with (k := List.length y) in H; [|reflexivity]. lia.
  - unfold death in H. destruct (Z.of_nat n <? Z.of_nat (List.length y))%Z; [|injection H as <- _; lia].
    apply rbind_val in H. destruct H as [v [us3 [_ H]]]. destruct (Qeq_bool _ 0); [discriminate|]. apply rbind_val in H. destruct H as [u' [us4 [_ H]]]. apply (f_equal (fun o => match o with Val l _ => l | _ => y end)) in H. cbv beta iota in H. subst y'.
    destruct (Qltb u' _); [|lia]. destruct (le_lt_dec (List.length y) (Z.to_nat (Qfloor (v * Qlen y)))) as [B|B].
    + assert (X : forall i (l : list pt), (List.length l <= i)%nat -> delete_nth i l = l).
      { clear. induction i as [|i IH]; intros [|p l] L; cbn in *; try reflexivity; try lia. rewrite IH by lia. reflexivity. }
      rewrite X in E by exact B. lia.
    + destruct (delete_nth_one _ y B) as [l1 [p [l2 [E1 [E2 _]]]]]. rewrite E2 in E. rewrite E1 in Y. rewrite app_length in *. cbn [List.length] in Y. lia.
Qed.
Print Assumptions C141_one_way_refuted.

(** Sixths, two points wanted, two points present, gamma = 1/2. *)
Definition sixths : list Q := [0; 1#6; 1#3; 1#2; 2#3; 5#6]%Q.
Notation die := (fun _ : Q => / INR (List.length sixths)).
Example C141_case : fair_law sixths die 2 2 (1#2) /\
  moved sixths die unit_square 2 (1#2) (1#4) 4 [(0, 0); (0, 1#6)]%Q (of_size 3 always) = 384 / 1296 /\
  moved sixths die unit_square 2 (1#2) (1#4) 3 [(0, 0); (0, 1#6); (1#2, 1#2)]%Q (of_size 2 always) = 1 / 2.
Proof.
  assert (SM : forall F, mean1 sixths die F = (F 0%Q + F (1#6)%Q + F (1#3)%Q + F (1#2)%Q + F (2#3)%Q + F (5#6)%Q) / 6) by (intro F; unfold mean1; cbn; lra).
  split; [constructor|].
  - split; [intros; cbn; lra|]. rewrite SM. lra.
  - intros u U. repeat (destruct U as [<-|U]; [split; [discriminate|reflexivity]|]). destruct U.
  - rewrite SM. cbn. lra.
  - intros i I. rewrite SM. replace (INR 3) with 3 by (cbn; lra). destruct i as [|[|[|i]]]; try lia; cbn; change (Pos.to_nat 1) with 1%nat; change (Pos.to_nat 2) with 2%nat; cbn; lra.
  - intros t a T H. rewrite SM.
    assert (X : exists b, (Qmin 1 a == b)%Q /\ In b [2#3; 1#3; 1#6; 1]%Q).
    { assert (E : forall b, (Qmin 1 a == b)%Q -> In b [2#3; 1#3; 1#6; 1]%Q -> exists b, (Qmin 1 a == b)%Q /\ In b [2#3; 1#3; 1#6; 1]%Q) by eauto.
      destruct t as [|[|[|t]]]; try lia; (destruct H as [H|H]; [|apply (E 1%Q); [rewrite H; vm_compute; reflexivity|cbn; auto]]).
      - apply (E (2#3)%Q); [rewrite H; vm_compute; reflexivity|cbn; auto].
      - apply (E (1#3)%Q); [rewrite H; vm_compute; reflexivity|cbn; auto].
      - apply (E (1#6)%Q); [rewrite H; vm_compute; reflexivity|cbn; auto]. }
    destruct X as [b [B IB]]. rewrite (Qeq_eqR _ _ B). rewrite !(fun u => Qltb_eq u _ _ B). repeat (destruct IB as [<-|IB]; [unfold Q2R; cbn; lra|]). destruct IB.
  - split.
    + transitivity (mean sixths die 4 (fun us => of_run (mh_loop unit_square 2 (1#2) (1#4) 1 [(0, 0); (0, 1#6)]%Q us) (fun y => yes (Nat.eqb (List.length y) 3)))).
      * apply mean_ext. intro us. destruct (mh_loop _ _ _ _ _ _ us); reflexivity.
      * count_runs.
    + transitivity (mean sixths die 3 (fun us => of_run (mh_loop unit_square 2 (1#2) (1#4) 1 [(0, 0); (0, 1#6); (1#2, 1#2)]%Q us) (fun y => yes (Nat.eqb (List.length y) 2)))).
      * apply mean_ext. intro us. destruct (mh_loop _ _ _ _ _ _ us); reflexivity.
      * count_runs.
Qed.
