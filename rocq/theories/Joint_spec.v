(** Streams of independent random numbers with a finite law, and what is expected of
    simulated patterns. *)
From Coq Require Import Reals QArith List.
From Verif Require Import Base Quadrat_model Random_model Random_spec.
Import ListNotations.
Local Open Scope R_scope.

Section Law.
(** Each number is one of [G]; [w u] is the probability of [u]. *)
Variables (G : list Q) (w : Q -> R).
Definition mean1 (F : Q -> R) : R := fold_right Rplus 0 (map (fun u => w u * F u) G).
Definition is_law : Prop := (forall u, In u G -> 0 <= w u) /\ mean1 (fun _ => 1) = 1.
(** The expectation of F over streams of L independent numbers. *)
Fixpoint mean (L : nat) (F : list Q -> R) : R :=
  match L with O => F [] | S L' => mean1 (fun u => mean L' (fun us => F (u :: us))) end.
(** The expectation of f over one candidate, restricted to the acceptable ones. *)
Definition kept (mk : Q -> Q -> pt) (ok : pt -> bool) (f : pt -> R) : R :=
  mean1 (fun u => mean1 (fun v => if ok (mk u v) then f (mk u v) else 0)).
End Law.

Definition always {A : Type} (_ : A) : R := 1.
(** The value of F if the run ends with a result, 0 otherwise. *)
Definition of_run {A : Type} (r : run A) (F : A -> R) : R := match r with Val a _ => F a | _ => 0 end.
(** f1(p1) * f2(p2) * ... *)
Definition prod (l : list R) : R := fold_right Rmult 1 l.
Definition prod_at (fs : list (pt -> R)) (ps : list pt) : R := prod (map (fun fp => fst fp (snd fp)) (combine fs ps)).
(** z to the number of points in B. *)
Definition power_count (z : R) (B : pt -> bool) (ps : list pt) : R := z ^ List.length (filter B ps).
Definition indicator (B : pt -> bool) (p : pt) : R := if B p then 1 else 0.
(** How many of the numbers [us] a run has used; all of them if it did not end. *)
Definition used {A : Type} (us : list Q) (r : run A) : R :=
  match r with Val _ rest => INR (List.length us) - INR (List.length rest) | _ => INR (List.length us) end.
