(** The order of extended numbers, for the specification of comparisons. *)
From Coq Require Import QArith.
From Verif Require Import Base.
Local Open Scope Q_scope.

(** [at_least a b]: [a] is [b] or larger; NaN is comparable to nothing. *)
Inductive at_least : xq -> xq -> Prop :=
| al_fin : forall x y, y <= x -> at_least (Fin x) (Fin y)
| al_top : forall b, b <> NaN -> at_least PInf b
| al_bottom : forall a, a <> NaN -> at_least a NInf.
