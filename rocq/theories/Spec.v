(** General specification vocabulary shared by the property files. *)
From Coq Require Import List Bool ZArith.
Import ListNotations.

(** [Counts P l n]: exactly [n] positions of the list [l] hold an element with
    property [P]. *)
Inductive Counts {A : Type} (P : A -> Prop) : list A -> nat -> Prop :=
| Counts_nil : Counts P [] 0
| Counts_yes : forall x l n, P x -> Counts P l n -> Counts P (x :: l) (S n)
| Counts_no : forall x l n, ~ P x -> Counts P l n -> Counts P (x :: l) n.

Lemma Counts_unique : forall A (P : A -> Prop) l n m, Counts P l n -> Counts P l m -> n = m.
Proof.
  intros A P l n m H. revert m. induction H; intros m H1; inversion H1; subst; auto; try tauto.
Qed.

Lemma Counts_filter : forall A (P : A -> Prop) (f : A -> bool) l,
  (forall x, In x l -> (f x = true <-> P x)) -> Counts P l (length (filter f l)).
Proof.
  induction l; simpl; intros; [constructor|].
  destruct (f a) eqn:E; simpl.
  - constructor. apply H; auto. apply IHl; auto.
  - constructor. intro. assert (f a = true) by (apply H; auto). congruence. apply IHl; auto.
Qed.

Lemma Counts_ext : forall A (P Q : A -> Prop) l n,
  (forall x, In x l -> (P x <-> Q x)) -> Counts P l n -> Counts Q l n.
Proof.
  intros A P Q l n H C. induction C as [|x l n Hx C IH|x l n Hx C IH].
  - constructor.
  - constructor. apply (H x); simpl; auto. apply IH. intros; apply H; simpl; auto.
  - apply Counts_no. intro X. apply Hx. apply (H x); simpl; auto. apply IH. intros; apply H; simpl; auto.
Qed.
