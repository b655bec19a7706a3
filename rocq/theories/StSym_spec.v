(** Specifications for C128: the modified Knox, Jacquez and Mantel tests on the same events
    described differently (see KnoxSym_spec for [old], [same_shape] and [conjugate]). *)
From Coq Require Import ZArith QArith Qreals Reals List Bool.
From Verif Require Import Base Spacetime_model Spacetime_spec Spacetime3_props PermMean_props KnoxSym_spec.
Import ListNotations.

(** [r'] undoes [r]: giving event i the time of event r[i] is, up to the numbering of the
    events, giving event i the place of event r'[i]. *)
Definition inverse (n : nat) (r r' : list nat) : Prop :=
  perm_of n r /\ perm_of n r' /\ forall i, (i < n)%nat -> nth (nth i r' 0%nat) r 0%nat = i.
(** [knn] lists nearest neighbours in the rows [c]. *)
Definition Knows (knn : list vec -> nat -> nat -> list nat) (k : nat) (c : list vec) : Prop :=
  forall i, (i < List.length c)%nat -> KNearest c k i (knn c k i).

Local Open Scope R_scope.
(** A correlation coefficient that is undefined for constant lists and otherwise the exact
    coefficient passed through some function, a rounding for instance. *)
Definition coefficient (rd : R -> xq) (x y : list R) : xq :=
  if Req_EM_T (dot (dev x) (dev x)) 0 then NaN
  else if Req_EM_T (dot (dev y) (dev y)) 0 then NaN else rd (corr x y).
(** Euclidean distance, and the transformation [(d + con) ** pow] of a positive number. *)
Definition edist (p q : vec) : R := sqrt (Q2R (sqdist p q)).
Definition closeness (con pow d : R) : R := Rpower (d + con) pow.
(** mantel(s, t, permutations, scon, spow, tcon, tpow). *)
Definition mantel_test (rd : R -> xq) (scon spow tcon tpow : R) (s t : list vec) (perms : list (list nat)) : xq * option Q :=
  mantel 0 (closeness tcon tpow) (closeness scon spow) (coefficient rd) (matrix edist t) (matrix edist s) perms.
(** The transformation is applied to positive numbers only. *)
Definition apart (con : R) (c : list vec) : Prop := forall i j, (j < i < List.length c)%nat -> 0 < edist (row c i) (row c j) + con.
