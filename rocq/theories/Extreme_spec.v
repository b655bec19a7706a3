(** What C130 is about: thresholds that tell no two pairs of events apart. *)
From Coq Require Import ZArith QArith List Arith.
From Verif Require Import Base Spacetime_model Spacetime_spec.
Import ListNotations.
Local Open Scope Q_scope.

(** Any two different events are close; no two are. *)
Definition AllClose (c : list vec) (r : Q) : Prop :=
  forall i j, (i < List.length c)%nat -> (j < List.length c)%nat -> i <> j -> Close r (row c i) (row c j).
Definition NoneClose (c : list vec) (r : Q) : Prop :=
  forall i j, (i < List.length c)%nat -> (j < List.length c)%nat -> i <> j -> ~ Close r (row c i) (row c j).
Definition Uninformative (c : list vec) (r : Q) : Prop := AllClose c r \/ NoneClose c r.

(** A nearest neighbour search with k at most the number of other events: k
    different other events. *)
Definition KOthers (knn : list vec -> nat -> nat -> list nat) : Prop :=
  forall c k i, (k < List.length c)%nat -> (i < List.length c)%nat ->
    NoDup (knn c k i) /\ List.length (knn c k i) = k /\ forall j, In j (knn c k i) -> (j < List.length c)%nat /\ j <> i.

(** Events with at least as many close events in time as event i. *)
Definition AtLeastAsBusy (t : list vec) (tau : Q) (i j : nat) : Prop :=
  (j < List.length t)%nat /\
  exists a b, Card (fun e => (e < List.length t)%nat /\ e <> i /\ Close tau (row t i) (row t e)) a /\
    Card (fun e => (e < List.length t)%nat /\ e <> j /\ Close tau (row t j) (row t e)) b /\ (a <= b)%nat.
