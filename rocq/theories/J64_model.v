(** Ripley's J on binary64: distance_statistics.py 333-382 (j) and 1069-1079 (_truncate),
    for F and G on the same support. *)
From Coq Require Import ZArith List Bool.
From Flocq Require Import BinarySingleNaN.
From Verif Require Import Base F64_model G64_model.
Import ListNotations.

(** 364-367: one value of [(1 - gstats) / (1 - fstats)], NaN where both are 1. *)
Definition is_one (x : f64) : bool := @Beqb 53 1024 x (fint 1).
Definition hazard64 (g f : f64) : f64 :=
  if is_one g && is_one f then B754_nan else fdiv (fsub (fint 1) g) (fsub (fint 1) f).
(** 337-367 for distances [dg] of the points to their neighbours and [df] of the
    empty-space points to the points. *)
Definition j64 (dg df support : list f64) : res (list f64) :=
  let! f := g64 df support in
  let! g := g64 dg support in
  Ok (map (fun gf => hazard64 (fst gf) (snd gf)) (combine g f)).
(** 1069-1079: the values before the first infinite one or NaN. *)
Fixpoint take_finite (l : list f64) : list f64 :=
  match l with
  | [] => []
  | x :: t => if is_finite x then x :: take_finite t else []
  end.
