(** Values held by an integer type, and the results meant. *)
From Coq Require Import ZArith Reals List.
From Verif Require Import CenterR_model Ints_model.
Import ListNotations.
Local Open Scope Z_scope.

Definition Fits (t : itype) (z : Z) : Prop :=
  if signed t then - 2 ^ (width t - 1) <= z < 2 ^ (width t - 1) else 0 <= z < 2 ^ width t.
Definition real_pt (p : ipt) : rpt := (IZR (fst p), IZR (snd p)).
Definition sqd (c p : ipt) : Z := (fst p - fst c) * (fst p - fst c) + (snd p - snd c) * (snd p - snd c).
(** Number of listed pairs whose times differ by at most [tau]. *)
Definition CloseTimes (times : list Z) (tau : Z) (ij : nat * nat) : Prop :=
  - tau <= nth (fst ij) times 0 - nth (snd ij) times 0 <= tau.
