(** Real numbers for C143. *)
From Coq Require Import Reals List.
From Verif Require Import F64_model K64_model.
Local Open Scope R_scope.
(** The estimate of K for a count of pairs in a box of sides w and h, and its L. *)
Definition K_of (n c : nat) (w h : R) : R := 2 * INR c * (w * h) / (INR n * INR n).
Definition L_of (n c : nat) (w h : R) : R := sqrt (K_of n c w h / PI).
