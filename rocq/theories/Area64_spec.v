(** Exact areas of rings of floats. *)
From Coq Require Import Reals ZArith List Arith.
From Flocq Require Import Core.
From Verif Require Import F64_model F64_proofs.
Import ListNotations.
Local Open Scope R_scope.

Definition total (l : list R) : R := fold_right Rplus 0 l.
(** Coordinates of vertex i, counted round the ring. *)
Definition vx (h : list fpt) (i : nat) : R := V (fst (nth (i mod length h) h (fint 0, fint 0))).
Definition vy (h : list fpt) (i : nat) : R := V (snd (nth (i mod length h) h (fint 0, fint 0))).
(** The signed area, and the sum of the absolute products in it. *)
Definition ring_area (h : list fpt) : R :=
  total (map (fun i => vx h i * vy h (S i) - vx h (S i) * vy h i) (seq 0 (length h))) / 2.
Definition ring_size (h : list fpt) : R :=
  total (map (fun i => Rabs (vx h i * vy h (S i)) + Rabs (vx h (S i) * vy h i)) (seq 0 (length h))).
Definition finite_ring (h : list fpt) : Prop := h <> [] /\ Forall (fun p => fin (fst p) /\ fin (snd p)) h.
(** Numbers that are integer multiples of 2^e. *)
Definition multiple (e : Z) (x : f64) : Prop := exists k, V x = IZR k * bpow radix2 e.
