(** Sums over index pairs: ordered pairs, unordered pairs, relabelling. *)
From Coq Require Import List Arith Lia Permutation.
Import ListNotations.

Definition total (g : nat -> nat -> nat) (n : nat) : nat :=
  list_sum (map (fun i => list_sum (map (g i) (seq 0 n))) (seq 0 n)).
Definition upper (g : nat -> nat -> nat) (n : nat) : nat :=
  list_sum (map (fun i => list_sum (map (g i) (seq (S i) (n - S i)))) (seq 0 n)).
Definition diagonal (g : nat -> nat -> nat) (n : nat) : nat :=
  list_sum (map (fun i => g i i) (seq 0 n)).

Lemma list_sum_app' : forall a b, list_sum (a ++ b) = list_sum a + list_sum b.
Proof. induction a; simpl; intros; auto. rewrite IHa. lia. Qed.
Lemma list_sum_map_plus : forall A (f g : A -> nat) l,
  list_sum (map (fun x => f x + g x) l) = list_sum (map f l) + list_sum (map g l).
Proof. induction l; simpl; auto. rewrite IHl. lia. Qed.
Lemma list_sum_map_ext : forall A (f g : A -> nat) l,
  (forall x, In x l -> f x = g x) -> list_sum (map f l) = list_sum (map g l).
Proof.
  induction l; simpl; intros H; [reflexivity|]. rewrite (H a) by auto. rewrite IHl; auto.
Qed.
Lemma list_sum_perm : forall a b, Permutation a b -> list_sum a = list_sum b.
Proof. induction 1; simpl; lia. Qed.
Lemma list_sum_const : forall A (l : list A) c, list_sum (map (fun _ => c) l) = length l * c.
Proof. induction l; simpl; intros; [reflexivity|]. rewrite IHl. reflexivity. Qed.
Lemma list_sum_le : forall A (f g : A -> nat) l, (forall x, In x l -> f x <= g x) ->
  list_sum (map f l) <= list_sum (map g l).
Proof.
  induction l; simpl; intros H; [lia|]. specialize (H a (or_introl eq_refl)) as H1.
  assert (list_sum (map f l) <= list_sum (map g l)) by (apply IHl; auto). lia.
Qed.

Lemma seq_S' : forall n, seq 0 (S n) = seq 0 n ++ [n].
Proof. intros. rewrite seq_S. reflexivity. Qed.

Lemma upper_S : forall g n, upper g (S n) = upper g n + list_sum (map (fun i => g i n) (seq 0 n)).
Proof.
  intros g n. unfold upper. rewrite seq_S', map_app, list_sum_app'.
  assert (E : list_sum (map (fun i => list_sum (map (g i) (seq (S i) (S n - S i)))) [n]) = 0).
  { cbn [map list_sum fold_right]. replace (S n - S n) with 0 by lia. reflexivity. }
  rewrite E, Nat.add_0_r. rewrite <- list_sum_map_plus. apply list_sum_map_ext.
  intros i Hi. apply in_seq in Hi. replace (S n - S i) with (S (n - S i)) by lia.
  rewrite seq_S, map_app, list_sum_app'. replace (S i + (n - S i)) with n by lia. simpl. lia.
Qed.
Lemma total_S : forall g n, total g (S n) =
  total g n + list_sum (map (fun i => g i n) (seq 0 n)) + list_sum (map (g n) (seq 0 n)) + g n n.
Proof.
  intros g n. unfold total. rewrite !seq_S', map_app, list_sum_app'.
  assert (E : list_sum (map (fun i => list_sum (map (g i) (seq 0 n ++ [n]))) (seq 0 n)) =
    list_sum (map (fun i => list_sum (map (g i) (seq 0 n)) + g i n) (seq 0 n))).
  { apply list_sum_map_ext. intros. rewrite map_app, list_sum_app'. simpl. lia. }
  rewrite E, list_sum_map_plus. cbn [map list_sum fold_right].
  rewrite map_app. fold (list_sum (map (g n) (seq 0 n) ++ map (g n) [n])).
  change (fold_right Nat.add 0) with list_sum. rewrite list_sum_app'. simpl. lia.
Qed.

(** Ordered pairs are twice the unordered ones plus the diagonal. *)
Lemma total_upper : forall g n, (forall i j, i < n -> j < n -> g i j = g j i) ->
  total g n = diagonal g n + 2 * upper g n.
Proof.
  induction n; intros H; [reflexivity|].
  rewrite total_S, upper_S, IHn by (intros; apply H; lia).
  unfold diagonal at 2. rewrite seq_S', map_app, list_sum_app'.
  change (list_sum (map (fun i => g i i) (seq 0 n))) with (diagonal g n).
  assert (E : list_sum (map (g n) (seq 0 n)) = list_sum (map (fun i => g i n) (seq 0 n))).
  { apply list_sum_map_ext. intros x Hx. apply in_seq in Hx. apply H; lia. }
  rewrite E. simpl. lia.
Qed.

(** A relabelling of 0..n-1. *)
Definition relabel (n : nat) (s : nat -> nat) : Prop := Permutation (map s (seq 0 n)) (seq 0 n).

Lemma relabel_lt : forall n s i, relabel n s -> i < n -> s i < n.
Proof.
  intros n s i R H. assert (In (s i) (seq 0 n)).
  { apply (Permutation_in _ R). apply in_map. apply in_seq. lia. }
  apply in_seq in H0. lia.
Qed.
Lemma relabel_sum : forall n s (f : nat -> nat), relabel n s ->
  list_sum (map (fun i => f (s i)) (seq 0 n)) = list_sum (map f (seq 0 n)).
Proof.
  intros n s f R. rewrite <- (map_map s f). apply list_sum_perm. apply Permutation_map. exact R.
Qed.
Lemma total_relabel : forall g n s, relabel n s -> total (fun i j => g (s i) (s j)) n = total g n.
Proof.
  intros g n s R. unfold total.
  rewrite <- (relabel_sum n s (fun i => list_sum (map (g i) (seq 0 n))) R).
  apply list_sum_map_ext. intros i _. apply (relabel_sum n s (g (s i)) R).
Qed.
Lemma diagonal_relabel : forall g n s, relabel n s -> diagonal (fun i j => g (s i) (s j)) n = diagonal g n.
Proof. intros g n s R. apply (relabel_sum n s (fun i => g i i) R). Qed.

Lemma upper_relabel : forall g n s, relabel n s -> (forall i j, i < n -> j < n -> g i j = g j i) ->
  upper (fun i j => g (s i) (s j)) n = upper g n.
Proof.
  intros g n s R H.
  pose proof (total_upper g n H) as E1.
  assert (E2 : total (fun i j => g (s i) (s j)) n =
    diagonal (fun i j => g (s i) (s j)) n + 2 * upper (fun i j => g (s i) (s j)) n).
  { apply total_upper. intros. apply H; apply relabel_lt; auto. }
  rewrite total_relabel, diagonal_relabel in E2 by auto. lia.
Qed.

Lemma upper_le : forall g n, (forall i j, i < n -> j < n -> g i j <= 1) -> 2 * upper g n <= n * (n - 1).
Proof.
  induction n; intros H; [reflexivity|]. rewrite upper_S.
  assert (A : 2 * upper g n <= n * (n - 1)) by (apply IHn; intros; apply H; lia).
  assert (B : list_sum (map (fun i => g i n) (seq 0 n)) <= list_sum (map (fun _ => 1) (seq 0 n))).
  { apply list_sum_le. intros x Hx. apply in_seq in Hx. apply H; lia. }
  rewrite list_sum_const, seq_length in B. destruct n; simpl in *; lia.
Qed.
