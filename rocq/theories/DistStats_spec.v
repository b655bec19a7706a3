(** Specifications for the distance statistics. *)
From Coq Require Import ZArith QArith List Bool Permutation.
From Verif Require Import Base Spec DistStats_model.
Import ListNotations.
Local Open Scope Q_scope.

(** A support whose values do not decrease. *)
Definition nondecreasing (e : list Q) : Prop :=
  forall i j, (i <= j < List.length e)%nat -> nth i e 0 <= nth j e 0.

(** The distances counted at support value number k: from the first support value
    up to value k, which itself is included only when it is the last one. *)
Definition counted (e : list Q) (k : nat) (x : Q) : Prop :=
  nth 0 e 0 <= x /\
  (if Nat.eqb (S k) (List.length e) then x <= nth k e 0 else x < nth k e 0).

(** A square symmetric matrix D given as rows. *)
Definition matrix (n : nat) (D : nat -> nat -> Q) : list (list Q) :=
  map (fun i => map (D i) (seq 0 n)) (seq 0 n).

(** Smallest value of a list. *)
Definition least (m : Q) (l : list Q) : Prop := (exists x, In x l /\ x == m) /\ forall x, In x l -> m <= x.

(** Evenly spaced values. *)
Definition evenly (a b : Q) (l : list Q) : Prop :=
  forall i, (i < List.length l)%nat ->
    nth i l 0 * inject_Z (Z.of_nat (List.length l) - 1) ==
    a * inject_Z (Z.of_nat (List.length l) - 1 - Z.of_nat i) + b * inject_Z (Z.of_nat i).

(** The longest prefix of valid numbers. *)
Definition valid_prefix (l p : list xq) : Prop :=
  exists rest, l = p ++ rest /\ (forall x, In x p -> exists q, x = Fin q) /\
    match rest with [] => True | x :: _ => forall q, x <> Fin q end.
