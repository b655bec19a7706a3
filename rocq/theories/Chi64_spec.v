(** The chi-square statistic of counts. *)
From Coq Require Import Reals ZArith List.
From Verif Require Import Area64_spec.
Import ListNotations.
Local Open Scope R_scope.

Definition points (c : list Z) : Z := fold_right Z.add 0%Z c.
Definition even_share (c : list Z) : R := IZR (points c) / INR (length c).
Definition chi2 (c : list Z) : R := total (map (fun k => (IZR k - even_share c) ^ 2 / even_share c) c).
(** Counts of at least one point. *)
Definition counted (c : list Z) : Prop := Forall (fun k => (0 <= k)%Z) c /\ (1 <= points c)%Z.
