(** Proofs for C120. *)
From Coq Require Import ZArith QArith List Bool Arith Lia Lqa Permutation Sorting.Sorted.
From Verif Require Import Base BaseLemmas Spec Quadrat_model Spacetime_model Spacetime_spec Pairs_proofs Spacetime_proofs
  Spacetime2_proofs KnoxLocal_props KnoxSym_spec.
Import ListNotations.
Local Open Scope Q_scope.

Lemma perm_relabel : forall n pi, perm_of n pi -> relabel n (old pi).
Proof.
  intros n pi P. unfold relabel, old. destruct (perm_facts _ _ P) as [L _]. rewrite <- L at 1. rewrite map_nth_seq. exact P.
Qed.
Lemma close_shape : forall pi k r r' c c' i j, 0 < k -> r' == k * r -> same_shape pi k c c' ->
  (i < List.length c)%nat -> (j < List.length c)%nat ->
  (Close r' (row c' i) (row c' j) <-> Close r (row c (old pi i)) (row c (old pi j))).
Proof.
  intros pi k r r' c c' i j K R [_ H] Hi Hj. unfold Close. rewrite (H i j Hi Hj), R.
  assert (E : k * r * (k * r) == k * k * (r * r)) by ring. rewrite E.
  assert (KK : 0 < k * k) by nra. split; intros [A B]; split.
  - nra.
  - apply Qmult_le_l in B; auto.
  - nra.
  - apply Qmult_le_l; auto.
Qed.
Lemma nb_shape : forall n pi k r r' c c' i j, perm_of n pi -> List.length c = n -> 0 < k -> r' == k * r -> same_shape pi k c c' ->
  (i < n)%nat -> (j < n)%nat -> nb c' r' i j = nb c r (old pi i) (old pi j).
Proof.
  intros n pi k r r' c c' i j P L K R S Hi Hj. destruct (perm_facts _ _ P) as [_ [_ I]]. unfold nb. f_equal.
  - f_equal. destruct (Nat.eqb_spec j i) as [->|D]; [rewrite Nat.eqb_refl; reflexivity|]. symmetry. apply Nat.eqb_neq.
    intro X. apply D. apply I; auto.
  - apply eq_true_iff_eq. rewrite !within_iff. apply (close_shape pi k); auto; lia.
Qed.

Section Two.
Variables (ball ball' : list vec -> Q -> nat -> list nat).
Hypothesis HB : Ball ball.
Hypothesis HB' : Ball ball'.
Variables (n : nat) (pi : list nat) (ks kt delta tau delta' tau' : Q) (s t s' t' : list vec).
Hypothesis P : perm_of n pi.
Hypothesis Ls : List.length s = n.
Hypothesis Lt : List.length t = n.
Hypothesis Ks : 0 < ks.
Hypothesis Kt : 0 < kt.
Hypothesis Ds : delta' == ks * delta.
Hypothesis Dt : tau' == kt * tau.
Hypothesis Ss : same_shape pi ks s s'.
Hypothesis St : same_shape pi kt t t'.

Let Ls' : List.length s' = n. Proof. rewrite (proj1 Ss). exact Ls. Qed.
Let Lt' : List.length t' = n. Proof. rewrite (proj1 St). exact Lt. Qed.

Lemma nbs : forall i j, (i < n)%nat -> (j < n)%nat -> nb s' delta' i j = nb s delta (old pi i) (old pi j).
Proof using P Ls Ks Ds Ss. intros. apply (nb_shape n pi ks); auto. Qed.
Lemma nbt : forall i j, (i < n)%nat -> (j < n)%nat -> nb t' tau' i j = nb t tau (old pi i) (old pi j).
Proof using P Lt Kt Dt St. intros. apply (nb_shape n pi kt); auto. Qed.
Lemma nbb : forall i j, (i < n)%nat -> (j < n)%nat -> nbst s' t' delta' tau' i j = nbst s t delta tau (old pi i) (old pi j).
Proof using P Ls Ks Ds Ss Lt Kt Dt St. intros. unfold nbst. rewrite nbs, nbt by auto. reflexivity. Qed.
Lemma old_lt : forall i, (i < n)%nat -> (old pi i < n)%nat.
Proof using P. clear - P. intros i H. apply (relabel_lt n); auto. apply perm_relabel; auto. Qed.

Lemma total_shape : forall (f f' : nat -> nat -> bool), (forall i j, (i < n)%nat -> (j < n)%nat -> f' i j = f (old pi i) (old pi j)) ->
  total (fun i j => ind (f' i j)) n = total (fun i j => ind (f i j)) n.
Proof using P.
  clear - P.
  intros f f' H. rewrite <- (total_relabel (fun i j => ind (f i j)) n (old pi) (perm_relabel _ _ P)).
  unfold total. apply list_sum_map_ext. intros i Hi. apply in_seq in Hi. apply list_sum_map_ext. intros j Hj. apply in_seq in Hj.
  rewrite H by lia. reflexivity.
Qed.
Lemma row_shape : forall (f f' : nat -> nat -> bool) i, (forall i j, (i < n)%nat -> (j < n)%nat -> f' i j = f (old pi i) (old pi j)) ->
  (i < n)%nat -> list_sum (map (fun j => ind (f' i j)) (seq 0 n)) = list_sum (map (fun j => ind (f (old pi i) j)) (seq 0 n)).
Proof using P.
  clear - P.
  intros f f' i H Hi. rewrite <- (relabel_sum n (old pi) (fun j => ind (f (old pi i) j)) (perm_relabel _ _ P)).
  apply list_sum_map_ext. intros j Hj. apply in_seq in Hj. rewrite H by lia. reflexivity.
Qed.

(** Times relabelled before and after. *)
Lemma nb_conjugate : forall rids rids' i j, conjugate n pi rids rids' -> (i < n)%nat -> (j < n)%nat ->
  nb (permuted t' rids') tau' i j = nb (permuted t rids) tau (old pi i) (old pi j).
Proof using P Lt Kt Dt St Lt'.
  intros rids rids' i j (C1 & C2 & C3) Hi Hj.
  destruct (perm_facts _ _ C2) as [_ [B2 _]].
  rewrite (nb_permuted t' tau' rids') by (rewrite ?Lt'; auto). rewrite (nb_permuted t tau rids) by (rewrite ?Lt; auto using old_lt).
  rewrite nbt by auto. rewrite !C3 by auto. reflexivity.
Qed.
Lemma nbst_conjugate : forall rids rids' i j, conjugate n pi rids rids' -> (i < n)%nat -> (j < n)%nat ->
  nbst s' (permuted t' rids') delta' tau' i j = nbst s (permuted t rids) delta tau (old pi i) (old pi j).
Proof using P Ls Ks Ds Ss Lt Kt Dt St Lt'. intros. unfold nbst. rewrite nbs by auto. rewrite (nb_conjugate rids rids') by auto. reflexivity. Qed.
Lemma perm_shape : forall rids rids', conjugate n pi rids rids' ->
  knox_perm (neighbors ball' s' delta') (neighbors ball' t' tau') rids' = knox_perm (neighbors ball s delta) (neighbors ball t tau) rids.
Proof using HB HB' P Ls Ks Ds Ss Lt Kt Dt St Lt' Ls'.
  intros rids rids' C. destruct C as (C1 & C2 & C3). unfold knox_perm. rewrite !neighbors_length, Ls, Ls'. do 2 f_equal.
  change nsum with list_sum.
  transitivity (total (fun i j => ind (nbst s' (permuted t' rids') delta' tau' i j)) n).
  { unfold total. apply list_sum_map_ext. intros i Hi. apply in_seq in Hi. cbv zeta.
    rewrite (perm_count ball' HB' s' t' delta' tau' rids' i); rewrite ?Ls'; auto; try congruence; lia. }
  transitivity (total (fun i j => ind (nbst s (permuted t rids) delta tau i j)) n).
  { apply total_shape. intros i j Hi Hj. apply nbst_conjugate; auto. repeat split; auto. }
  symmetry. unfold total. apply list_sum_map_ext. intros i Hi. apply in_seq in Hi. cbv zeta.
  rewrite (perm_count ball HB s t delta tau rids i); rewrite ?Ls; auto; try congruence; lia.
Qed.
Lemma perms_shape : forall perms perms', Forall2 (conjugate n pi) perms perms' ->
  map (knox_perm (neighbors ball' s' delta') (neighbors ball' t' tau')) perms' =
  map (knox_perm (neighbors ball s delta) (neighbors ball t tau)) perms.
Proof using HB HB' P Ls Ks Ds Ss Lt Kt Dt St Lt' Ls'.
  intros perms perms' F. induction F as [|a b l l' C F IH]; [reflexivity|]. cbn [map]. rewrite IH, (perm_shape a b C). reflexivity.
Qed.
Lemma conjugate_conditional : forall rids rids' i, conjugate n pi rids rids' -> (i < n)%nat ->
  conjugate n pi (conditional rids (old pi i)) (conditional rids' i).
Proof using P.
  clear - P.
  intros rids rids' i (C1 & C2 & C3) Hi. pose proof (old_lt i Hi) as Oi.
  destruct (perm_facts _ _ P) as [_ [_ I]]. destruct (perm_facts _ _ C1) as [L1 [B1 _]]. destruct (perm_facts _ _ C2) as [L2 [B2 _]].
  split; [apply conditional_perm; auto|]. split; [apply conditional_perm; auto|].
  intros j Hj. pose proof (old_lt j Hj) as Oj. rewrite !conditional_nth by lia.
  assert (E : forall a b, (a < n)%nat -> (b < n)%nat -> Nat.eqb (old pi a) (old pi b) = Nat.eqb a b).
  { intros a b Ha Hb. destruct (Nat.eqb_spec a b) as [->|D]; [apply Nat.eqb_refl|]. apply Nat.eqb_neq. intro X. apply D, I; auto. }
  rewrite <- (C3 j Hj), !E by auto. destruct (Nat.eqb j i); [reflexivity|]. destruct (Nat.eqb (nth j rids' 0%nat) i); [|reflexivity]. apply C3; auto.
Qed.
Lemma local_shape : forall rids rids' i, conjugate n pi rids rids' -> (i < n)%nat ->
  local_count (neighbors ball' s' delta') (neighbors ball' t' tau') rids' i =
  local_count (neighbors ball s delta) (neighbors ball t tau) rids (old pi i).
Proof using HB HB' P Ls Ks Ds Ss Lt Kt Dt St Lt' Ls'.
  intros rids rids' i C Hi. pose proof (conjugate_conditional _ _ _ C Hi) as CC. pose proof (old_lt i Hi) as Oi.
  destruct C as (C1 & C2 & C3). destruct (conditional_perm _ _ _ C2 Hi) as [_ F2]. destruct (conditional_perm _ _ _ C1 Oi) as [_ F1].
  destruct CC as (D1 & D2 & D3).
  assert (X1 := perm_count ball HB s t delta tau (conditional rids (old pi i)) (old pi i)). rewrite F1, Ls, Lt in X1. specialize (X1 eq_refl D1 Oi).
  assert (X2 := perm_count ball' HB' s' t' delta' tau' (conditional rids' i) i). rewrite F2, Ls', Lt' in X2. specialize (X2 eq_refl D2 Hi).
  unfold local_count. cbv zeta. rewrite X1, X2.
  apply (row_shape (nbst s (permuted t (conditional rids (old pi i))) delta tau) _ i); auto.
  intros a b Ha Hb. apply nbst_conjugate; auto. repeat split; auto.
Qed.
End Two.
