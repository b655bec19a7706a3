(** Theorems about Ripley's L, which needs real square roots. *)
From Coq Require Import Reals ZArith QArith Qreals List Lra Lia.
From Verif Require Import Base BaseLemmas Spec Quadrat_model DistStats_model DistStats_spec Pairs_proofs DistStats_proofs DistStats_props.
Import ListNotations.
Local Open Scope R_scope.

(** distance_statistics.py 492-504: one value of [l] for the K value [k] at the
    support value [s]; K values are finite (C54). *)
Definition l_value (linearized : bool) (k s : Q) : R :=
  let v := sqrt (Q2R k / PI) in
  if linearized then v - Q2R s else v.

(** [l] on top of [k]; None stands for a K value that is not finite. *)
Definition l_at (linearized : bool) (n : nat) (area : Q) (d : list Q) (s : Q) : option R :=
  match k_value n area d s with Fin k => Some (l_value linearized k s) | _ => None end.

Lemma Q2R_nonneg : forall q, (0 <= q)%Q -> 0 <= Q2R q.
Proof. intros q H. rewrite <- RMicromega.Q2R_0. apply Qle_Rle. exact H. Qed.

(** ** C56 *)
Theorem C56_l_of_k : forall n area d s c, (1 <= n)%nat -> (0 <= area)%Q -> Counts (fun x => (x < s)%Q) d c ->
  exists l, l_at false n area d s = Some l /\ 0 <= l /\
    PI * (l * l) * (INR n * INR n) = Q2R area * 2 * INR c /\
    l_at true n area d s = Some (l - Q2R s).
Proof.
  intros n area d s c N A C. destruct (C54_k_value n area d s N A) as [q [Q1 [Q2 Q3]]].
  unfold l_at. rewrite Q1. exists (sqrt (Q2R q / PI)). split; [reflexivity|].
  split; [apply sqrt_pos|]. split; [|reflexivity].
  pose proof PI_RGT_0 as P. apply Q2R_nonneg in Q3.
  rewrite sqrt_sqrt by (apply Rmult_le_pos; [exact Q3|apply Rlt_le, Rinv_0_lt_compat; exact P]).
  specialize (Q2 c C). apply Qeq_eqR in Q2. rewrite !Q2R_mult in Q2.
  assert (Z : forall m, Q2R (inject_Z (Z.of_nat m)) = INR m).
  { intros m. unfold Q2R, inject_Z. simpl. rewrite INR_IZR_INZ. field. }
  rewrite !Z in Q2. replace (Q2R 2) with 2 in Q2 by (unfold Q2R; simpl; field).
  rewrite <- Q2. field. lra.
Qed.
Print Assumptions C56_l_of_k.

Theorem C56_monotone : forall n area D s1 s2 l1 l2, (1 <= n)%nat -> (0 <= area)%Q -> (s1 <= s2)%Q ->
  l_at false n area (pdist n D) s1 = Some l1 -> l_at false n area (pdist n D) s2 = Some l2 -> l1 <= l2.
Proof.
  intros n area D s1 s2 l1 l2 N A S H1 H2.
  destruct (C54_shape n area D s1 s2 N A) as [a [b [A1 [B1 [M _]]]]].
  unfold l_at in *. rewrite A1 in H1. rewrite B1 in H2. inversion H1; inversion H2; subst.
  apply sqrt_le_1_alt. apply Rmult_le_compat_r.
  - apply Rlt_le, Rinv_0_lt_compat, PI_RGT_0.
  - apply Qle_Rle. auto.
Qed.
Print Assumptions C56_monotone.

(** L never exceeds sqrt(area*(n-1)/(n*pi)), so beyond that distance the linearised
    form is negative. *)
Theorem C56_bounded : forall n area D s l, (1 <= n)%nat -> (0 <= area)%Q ->
  l_at false n area (pdist n D) s = Some l -> PI * (l * l) * INR n <= Q2R area * (INR n - 1).
Proof.
  intros n area D s l N A H. destruct (C54_shape n area D s s N A) as [a [b [A1 [_ [_ [_ [U _]]]]]]].
  destruct (C54_k_value n area (pdist n D) s N A) as [q [Q1 [_ Q3]]]. rewrite A1 in Q1. inversion Q1; subst q.
  unfold l_at in H. rewrite A1 in H. inversion H; subst. unfold l_value.
  pose proof PI_RGT_0 as P. apply Q2R_nonneg in Q3.
  rewrite sqrt_sqrt by (apply Rmult_le_pos; [exact Q3|apply Rlt_le, Rinv_0_lt_compat; exact P]).
  apply Qle_Rle in U. rewrite !Q2R_mult in U.
  assert (Z : forall z, Q2R (inject_Z z) = IZR z) by (intros z; unfold Q2R, inject_Z; simpl; field).
  rewrite !Z in U. rewrite minus_IZR, <- INR_IZR_INZ in U.
  replace (PI * (Q2R a / PI) * INR n) with (Q2R a * INR n) by (field; lra). exact U.
Qed.
Print Assumptions C56_bounded.

Example C56_case : exists l, l_at false 3 (9#1) (1%Q :: 3%Q :: 2%Q :: nil) (5#2) = Some l /\ PI * (l * l) * 9 = 36.
Proof.
  destruct (C56_l_of_k 3 (9#1) (1%Q :: 3%Q :: 2%Q :: nil) (5#2) 2) as [l [H1 [_ [H2 _]]]].
  - lia.
  - discriminate.
  - repeat constructor; compute; congruence.
  - exists l. split; [exact H1|]. simpl INR in H2. replace (Q2R (9#1)) with 9 in H2 by (unfold Q2R; simpl; field). lra.
Qed.
