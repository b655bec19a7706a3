(** C130: the analytic p-value of the Knox test at thresholds that tell no two
    pairs apart. *)
From Coq Require Import ZArith QArith Qreals Reals List Arith Lia Lra.
From Verif Require Import Base BaseLemmas Spec Quadrat_model Spacetime_model Spacetime_spec Pairs_proofs Spacetime_proofs Spacetime_props
  Poisson_model Poisson_props Extreme_spec Extreme_props.
Import ListNotations.
Local Open Scope R_scope.

Lemma none_card : forall c r k, NoneClose c r -> Card (SPair c r) k -> k = 0%nat.
Proof.
  intros c r k A [l [_ [I <-]]]. destruct l as [|ij l]; [reflexivity|]. exfalso.
  destruct (proj1 (I ij) (or_introl eq_refl)) as [X Y]. apply (A (fst ij) (snd ij)); try lia. exact Y.
Qed.
Lemma all_card : forall c r k, AllClose c r -> Card (SPair c r) k -> INR k = INR (length c) * (INR (length c) - 1) / 2.
Proof.
  intros c r k A C. rewrite (card_spair _ _ _ C).
  rewrite (upper_ext _ (fun _ _ => 1%nat)).
  - pose proof (upper_one (length c)) as U. apply (f_equal INR) in U. rewrite !mult_INR in U. change (INR 2) with 2 in U.
    destruct (length c) as [|m]; [cbn in *; lra|]. rewrite minus_INR in U by lia. change (INR 1) with 1 in U. lra.
  - intros i j H. unfold nb. rewrite (proj2 (within_iff r _ _) (A i j ltac:(lia) ltac:(lia) ltac:(lia))), andb_true_r.
    replace (Nat.eqb j i) with false by (symmetry; apply Nat.eqb_neq; lia). reflexivity.
Qed.

(** No pair close: p-value 0, whereas the permutation p-value is 1. All pairs
    close in space: the probability that a Poisson number exceeds its own mean,
    the number of pairs close in time. *)
Theorem C130_poisson_refuted : forall ball, Ball ball -> forall s t delta tau perms k b,
  knox_global ball s t delta tau perms = Ok k -> (2 <= length s)%nat -> Card (SPair t tau) b ->
  (NoneClose s delta \/ NoneClose t tau -> p_value_poisson k = Some 0) /\
  (AllClose s delta -> exists p, p_value_poisson k = Some p /\ at_least (INR b) (S b) p).
Proof.
  intros ball HB s t delta tau perms k b H N2 CB.
  destruct (proj1 (C62_knox_total ball s t delta tau [])) as [a CA].
  destruct (proj1 (proj2 (C62_knox_total ball s t delta tau []))) as [c CC].
  destruct (C92_poisson_tail ball HB _ _ _ _ _ _ _ _ _ H CA CB CC) as (_ & X). destruct (X N2) as (p & PV & _ & AL & _). split.
  - intro U. rewrite PV. f_equal.
    destruct (C92_upper_tail_refuted ball HB _ _ _ _ _ _ _ _ _ _ H CA CB CC PV) as (_ & _ & Z). apply Z.
    destruct U as [U|U]; [left; apply (none_card _ _ _ U CA)|right; apply (none_card _ _ _ U CB)].
  - intro U. exists p. split; [exact PV|].
    destruct (C62_knox_counts ball HB _ _ _ _ _ _ _ _ _ H CA CB CC) as (NS & NT & NST & _).
    assert (BC : c = b).
    { rewrite (card_stpair _ _ _ _ _ CC), (card_spair _ _ _ CB).
      destruct (knox_inv ball HB _ _ _ _ _ _ H) as [E _]. rewrite <- E. apply upper_ext. intros i j Q. unfold nbst, nb at 1.
      rewrite (proj2 (within_iff delta _ _) (U i j ltac:(lia) ltac:(lia) ltac:(lia))), andb_true_r.
      replace (Nat.eqb j i) with false by (symmetry; apply Nat.eqb_neq; lia). reflexivity. }
    subst c. replace (INR b) with (INR a * INR b / (INR (length s) * (INR (length s) - 1) / 2)); [exact AL|].
    rewrite (all_card _ _ _ U CA).
    assert (L2 : 2 <= INR (length s)) by (change 2 with (INR 2); apply le_INR; exact N2). field. lra.
Qed.
Print Assumptions C130_poisson_refuted.

(** Three events at one place at times 0, 1 and 2. *)
Example C130_case_poisson : exists k p, knox_global ball_down [[0; 0]; [0; 0]; [0; 0]]%Q [[0]; [1]; [2]]%Q 1 1 [] = Ok k /\
  p_value_poisson k = Some p /\ at_least 2 3 p.
Proof.
  destruct (proj1 (proj2 (proj2 (C62_knox_total ball_down [[0; 0]; [0; 0]; [0; 0]]%Q [[0]; [1]; [2]]%Q 1 1 []))) eq_refl) as [k K].
  destruct (C130_poisson_refuted ball_down ball_down_ok _ _ _ _ _ _ 2 K ltac:(cbn; lia)) as [_ X].
  - exists [(0, 1); (1, 2)]%nat. split; [repeat constructor; cbn; intuition congruence|]. split; [|reflexivity].
    intros [i j]. unfold SPair, Close. cbn [fst snd List.length In]. split.
    + intros [Q|[Q|[]]]; injection Q as <- <-; (split; [lia|]); split; vm_compute; discriminate.
    + intros [R1 [_ R2]]. destruct i as [|[|i]], j as [|[|[|j]]]; try lia; auto.
  - destruct (X (proj1 (proj2 C130_case))) as (p & P & A). exists k, p. split; [exact K|]. split; [exact P|exact A].
Qed.
