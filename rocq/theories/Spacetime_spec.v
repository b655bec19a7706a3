(** Specifications for space-time interaction. *)
From Coq Require Import ZArith QArith List Arith Lia Permutation.
From Verif Require Import Base Spacetime_model.
Import ListNotations.
Local Open Scope Q_scope.

(** Exactly [k] objects have the property [P]. *)
Definition Card {A : Type} (P : A -> Prop) (k : nat) : Prop :=
  exists l, NoDup l /\ (forall x, In x l <-> P x) /\ List.length l = k.
Lemma Card_unique : forall A (P : A -> Prop) k m, Card P k -> Card P m -> k = m.
Proof.
  intros A P k m [l [N1 [I1 <-]]] [l' [N2 [I2 <-]]].
  apply Permutation_length. apply NoDup_Permutation; auto. intros x. rewrite I1, I2. tauto.
Qed.
Lemma Card_ext : forall A (P Q : A -> Prop) k, (forall x, P x <-> Q x) -> Card P k -> Card Q k.
Proof. intros A P Q k H [l [N [I L]]]. exists l. repeat split; auto; intro X; [apply H, I|apply I, H]; auto. Qed.

(** Euclidean distance at most r, coordinate by coordinate. *)
Fixpoint sqdist (p q : vec) : Q :=
  match p, q with
  | a :: p', b :: q' => (a - b) * (a - b) + sqdist p' q'
  | _, _ => 0
  end.
Definition Close (r : Q) (p q : vec) : Prop := 0 <= r /\ sqdist p q <= r * r.

(** What query_ball_tree promises. *)
Definition Ball (ball : list vec -> Q -> nat -> list nat) : Prop :=
  forall c r i j, (i < List.length c)%nat ->
    (In j (ball c r i) <-> (j < List.length c)%nat /\ Close r (row c i) (row c j)).

(** Unordered pairs of events that are close in space, in time, in both. *)
Definition SPair (s : list vec) (delta : Q) (ij : nat * nat) : Prop :=
  (fst ij < snd ij < List.length s)%nat /\ Close delta (row s (fst ij)) (row s (snd ij)).
Definition STPair (s t : list vec) (delta tau : Q) (ij : nat * nat) : Prop :=
  SPair s delta ij /\ Close tau (row t (fst ij)) (row t (snd ij)).
(** Events close to event [i] in space and time. *)
Definition Near (s t : list vec) (delta tau : Q) (i j : nat) : Prop :=
  (j < List.length s)%nat /\ j <> i /\ Close delta (row s i) (row s j) /\ Close tau (row t i) (row t j).

(** A permutation of 0..n-1. *)
Definition perm_of (n : nat) (rids : list nat) : Prop := Permutation rids (seq 0 n).
(** Times after relabelling: event i gets the time of event rids[i]. *)
Definition permuted (t : list vec) (rids : list nat) : list vec := map (row t) rids.

(** All ways to take [k] elements of a list. *)
Fixpoint choose {A : Type} (k : nat) (l : list A) : list (list A) :=
  match k, l with
  | O, _ => [[]]
  | S _, [] => []
  | S k', a :: l' => map (cons a) (choose k' l') ++ choose k l'
  end.
(** Probability that a uniformly drawn k-subset of [l] has at least [x] elements with [f]. *)
Definition prob_at_least {A : Type} (l : list A) (f : A -> bool) (k x : nat) : Q :=
  Qnat (count (fun S => Nat.leb x (count f S)) (choose k l)) / Qnat (List.length (choose k l)).
(** The times as numbers. *)
Definition time_of (t : list vec) (i : nat) : Q := nth 0 (row t i) 0.
