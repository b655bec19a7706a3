(** Theorems about the covariance argument of [normal]. *)
From Coq Require Import Reals Lra Lia.
Local Open Scope R_scope.

(** random.py 239-247: the covariance matrix used, entries (row, column) with
    indices 0 and 1 given as booleans. *)
Definition mat := bool -> bool -> R.
Inductive covariance : Type := CovNone (width height : R) | CovNumber (q : R) | CovMatrix (m : mat).
Definition scalar_cov (q : R) : mat := fun i j => if Bool.eqb i j then q else 0.
Definition effective_cov (c : covariance) : mat :=
  match c with
  | CovNone w h => scalar_cov (Rmax (w / 2) (h / 2) ^ 2)
  | CovNumber q => scalar_cov q
  | CovMatrix m => m
  end.

(** random.py 274-275.  numpy broadcasts both vectors along the last axis. *)
Definition sd (m : mat) (j : bool) : R := sqrt (m j j).
Definition cor (m : mat) : mat := fun i j => (1 / sd m j) * m i j * (1 / sd m j).

(** A correlation matrix of a covariance matrix. *)
Definition correlation_of (m r : mat) : Prop := forall i j, r i j * (sqrt (m i i) * sqrt (m j j)) = m i j.

(** ** C81 *)
(** The matrix handed to the generator is a correlation matrix exactly when the two
    variances agree or the covariance is zero. *)
Theorem C81_scaling : forall m, 0 < m true true -> 0 < m false false -> m true false = m false true ->
  (forall i, cor m i i = 1) /\
  (forall i j, cor m i j * m j j = m i j) /\
  (correlation_of m (cor m) <-> (m true false = 0 \/ m true true = m false false)) /\
  (cor m true false = cor m false true <-> (m true false = 0 \/ m true true = m false false)).
Proof.
  intros m P Q S. assert (D : forall j, 0 < m j j) by (intros [|]; auto).
  assert (SS : forall j, 0 < sd m j) by (intros j; apply sqrt_lt_R0; auto).
  assert (SQ : forall j, sd m j * sd m j = m j j) by (intros j; apply sqrt_sqrt; apply Rlt_le; auto).
  assert (V : forall i j, cor m i j * m j j = m i j).
  { intros i j. unfold cor. rewrite <- SQ. field. specialize (SS j). lra. }
  assert (EQ : sd m true = sd m false <-> m true true = m false false).
  { split; intros H.
    - rewrite <- !SQ, H. reflexivity.
    - unfold sd. rewrite H. reflexivity. }
  split; [|split; [exact V|split]].
  - intros i. apply Rmult_eq_reg_r with (m i i); [rewrite V; ring|]. specialize (D i). lra.
  - split.
    + intros C. specialize (C true false). fold (sd m true) in C. fold (sd m false) in C.
      unfold cor in C. destruct (Req_dec (m true false) 0) as [Z|Z]; [auto|right]. apply EQ.
      pose proof (SS true). pose proof (SS false).
      replace (1 / sd m false * m true false * (1 / sd m false) * (sd m true * sd m false))
        with (m true false * (sd m true / sd m false)) in C by (field; lra).
      assert (R1 : sd m true / sd m false = 1).
      { apply Rmult_eq_reg_l with (m true false); auto. rewrite C. ring. }
      replace (sd m true) with (sd m true / sd m false * sd m false) by (field; lra). rewrite R1. ring.
    + intros H i j. fold (sd m i). fold (sd m j). pose proof (SS i). pose proof (SS j).
      destruct (Bool.bool_dec i j) as [->|N].
      * rewrite SQ. apply V.
      * destruct H as [H|H].
        -- assert (Z : m i j = 0) by (destruct i, j; try congruence; rewrite <- ?S; auto; rewrite S in *; auto).
           unfold cor. rewrite Z. ring.
        -- apply EQ in H. assert (E : sd m i = sd m j) by (destruct i, j; congruence).
           rewrite E, SQ. apply V.
  - split.
    + intros H. destruct (Req_dec (m true false) 0) as [Z|Z]; [auto|right].
      pose proof (V true false) as V1. pose proof (V false true) as V2. rewrite H in V1. rewrite <- S in V2.
      assert (C0 : cor m false true <> 0) by (intros X; rewrite X in V2; lra).
      apply Rmult_eq_reg_l with (cor m false true); auto. lra.
    + intros H. pose proof (V true false) as V1. pose proof (V false true) as V2. rewrite <- S in V2.
      pose proof (D true). pose proof (D false). destruct H as [H|H].
      * rewrite H in *. apply Rmult_integral in V1. apply Rmult_integral in V2. destruct V1, V2; lra.
      * rewrite H in V2. apply Rmult_eq_reg_r with (m false false); lra.
Qed.
Print Assumptions C81_scaling.

(** Variances 4 and 1 with covariance 1: the true correlation is 1/2, the matrix used
    has off-diagonal entries 1 and 1/4. *)
Theorem C81_not_symmetric_refuted : 
  let m : mat := fun i j => match i, j with false, false => 4 | true, true => 1 | _, _ => 1 end in
  cor m false true = 1 /\ cor m true false = 1 / 4 /\ ~ correlation_of m (cor m).
Proof.
  intros m. assert (P : 0 < m true true) by (simpl; lra). assert (Q : 0 < m false false) by (simpl; lra).
  destruct (C81_scaling m P Q eq_refl) as [_ [V [C _]]].
  pose proof (V false true) as V1. pose proof (V true false) as V2. simpl in V1, V2.
  split; [lra|]. split; [lra|]. intros H. apply C in H. simpl in H. lra.
Qed.
Print Assumptions C81_not_symmetric_refuted.

(** A number is documented as a standard deviation; it is used as the variance, so
    the standard deviation of each coordinate is its square root. *)
Theorem C81_number_is_variance : forall q j, 0 <= q ->
  sd (effective_cov (CovNumber q)) j * sd (effective_cov (CovNumber q)) j = q /\
  (sd (effective_cov (CovNumber q)) j = q <-> (q = 0 \/ q = 1)).
Proof.
  intros q j Q. unfold sd, effective_cov, scalar_cov. rewrite Bool.eqb_reflx.
  pose proof (sqrt_sqrt q Q) as S. pose proof (sqrt_pos q) as P. split; [exact S|]. split.
  - intros E. rewrite E in S. assert (H : q * (q - 1) = 0) by lra. apply Rmult_integral in H. lra.
  - intros [-> | ->]; [apply sqrt_0|apply sqrt_1].
Qed.
Print Assumptions C81_number_is_variance.

(** By default the standard deviation is half the longer side of the box. *)
Theorem C81_default : forall w h j, 0 <= w -> 0 <= h ->
  sd (effective_cov (CovNone w h)) j = Rmax w h / 2.
Proof.
  intros w h j W H. unfold sd, effective_cov, scalar_cov. rewrite Bool.eqb_reflx.
  replace (Rmax (w / 2) (h / 2) ^ 2) with (Rsqr (Rmax w h / 2)).
  - apply sqrt_Rsqr. unfold Rmax. destruct (Rle_dec w h); lra.
  - unfold Rsqr, Rmax. destruct (Rle_dec w h); destruct (Rle_dec (w/2) (h/2)); lra.
Qed.
Print Assumptions C81_default.
