(** Size of a test: how often its p-value is small when the data are drawn in the same
    way as the simulations. *)
From Coq Require Import ZArith QArith List Bool Arith.
From Verif Require Import Base Spacetime_model.
Import ListNotations.
Local Open Scope Q_scope.

(** All lists of [m] members of [E]. *)
Fixpoint tuples {A : Type} (m : nat) (E : list A) : list (list A) :=
  match m with
  | O => [[]]
  | S m' => flat_map (fun x => map (cons x) (tuples m' E)) E
  end.
(** All ways to draw the data and [P] simulations from [E]. *)
Definition draws {A : Type} (E : list A) (P : nat) : list (A * list A) := list_prod E (tuples P E).
(** Share of the members of [L] with [f]. *)
Definition rate {A : Type} (f : A -> bool) (L : list A) : Q := Qnat (count f L) / Qnat (List.length L).
(** The p-value is reported and at most [alpha]. *)
Definition small (alpha : Q) (p : option Q) : bool :=
  match p with Some q => Qle_bool q alpha | None => false end.
(** [ge x y]: x is at least y. *)
Definition total_order {V : Type} (ge : V -> V -> bool) (L : list V) : Prop :=
  (forall x y, In x L -> In y L -> ge x y = true \/ ge y x = true) /\
  (forall x y z, In x L -> In y L -> In z L -> ge x y = true -> ge y z = true -> ge x z = true).
(** No two entries (at different places) are tied. *)
Fixpoint untied {V : Type} (ge : V -> V -> bool) (l : list V) : bool :=
  match l with
  | [] => true
  | x :: t => forallb (fun y => negb (ge x y && ge y x)) t && untied ge t
  end.
Definition no_tie {V : Type} (ge : V -> V -> bool) (d : V * list V) : bool := untied ge (fst d :: snd d).

(** In-place shuffles of the column of times: event i gets the time of event g[i]; and the
    columns after each of several shuffles. *)
Definition shuffle (g : list nat) (t : list Q) : list Q := map (fun j => nth j t 0) g.
Fixpoint after (t : list Q) (gs : list (list nat)) : list (list Q) :=
  match gs with
  | [] => []
  | g :: gs' => shuffle g t :: after (shuffle g t) gs'
  end.
