(** Specifications for the centres of a point pattern. *)
From Coq Require Import ZArith QArith Qabs List.
From Verif Require Import Base Spec.
Import ListNotations.
Local Open Scope Q_scope.

(** Squared Euclidean distance. *)
Definition sqd (p c : pt) : Q := (fst p - fst c) * (fst p - fst c) + (snd p - snd c) * (snd p - snd c).
(** Total squared distance, and total weighted squared distance. *)
Definition ssd (pts : list pt) (c : pt) : Q := Qsum (map (fun p => sqd p c) pts).
Definition wssd (wpts : list (Q * pt)) (c : pt) : Q := Qsum (map (fun wp => fst wp * sqd (snd wp) c) wpts).
(** Manhattan distance and its total. *)
Definition cityblock (p c : pt) : Q := Qabs (fst p - fst c) + Qabs (snd p - snd c).
Definition scity (pts : list pt) (c : pt) : Q := Qsum (map (fun p => cityblock p c) pts).

Definition pt_same (p q : pt) : Prop := fst p == fst q /\ snd p == snd q.

(** Translation by [d] and scaling by [k]. *)
Definition shift (d p : pt) : pt := (fst p + fst d, snd p + snd d).
Definition scale (k : Q) (p : pt) : pt := (k * fst p, k * snd p).

(** [v] is the element of rank [k] (from 0) of the list: at most [k] elements
    are smaller, more than [k] are at most [v]. *)
Definition ranked (l : list Q) (k : nat) (v : Q) : Prop :=
  exists a b, Counts (fun x => x < v) l a /\ Counts (fun x => x <= v) l b /\ (a <= k < b)%nat.
(** The median: the middle element, or half the sum of the two middle elements. *)
Definition is_median (l : list Q) (m : Q) : Prop :=
  let n := List.length l in
  (Nat.Odd n /\ ranked l (n / 2) m) \/
  (Nat.Even n /\ exists a b, ranked l (n / 2 - 1) a /\ ranked l (n / 2) b /\ m == (a + b) / 2).
