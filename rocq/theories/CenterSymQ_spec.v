(** Specifications: linear changes of coordinates. *)
From Coq Require Import ZArith QArith List.
From Verif Require Import Base.
Local Open Scope Q_scope.

(** A linear map followed by a shift. *)
Record linmap : Type := mklin { m11 : Q; m12 : Q; m21 : Q; m22 : Q; dx : Q; dy : Q }.
Definition linear (m : linmap) (p : pt) : pt :=
  (m11 m * fst p + m12 m * snd p + dx m, m21 m * fst p + m22 m * snd p + dy m).
