(** Supports and the G function on binary64: distance_statistics.py 84-99, 284-287
    (f, 197-200, is the same with other distances). *)
From Coq Require Import ZArith List Bool.
From Flocq Require Import BinarySingleNaN.
From Verif Require Import Base Quadrat_model DistStats_model F64_model Hex64_model.
Import ListNotations.

(** numpy.linspace(a, b, num) for num >= 0, in its own order of operations: the
    step is b - a over num - 1; if the step is zero the indices are divided
    first; the last value is set to b. *)
Definition is_zero (x : f64) : bool := match x with B754_zero _ => true | _ => false end.
Definition linspace_inner (a b : f64) (num i : nat) : f64 :=
  let delta := fsub b a in
  let div := fint (Z.of_nat num - 1) in
  let y := fint (Z.of_nat i) in
  if Nat.leb num 1 then fmul y delta
  else let step := fdiv delta div in
       if is_zero step then fmul (fdiv y div) delta else fmul y step.
Definition linspace64 (a b : f64) (num : nat) : list f64 :=
  map (fun i => if Nat.leb 2 num && Nat.eqb (S i) num then b else fadd (linspace_inner a b num i) a) (seq 0 num).

(** numpy.histogram with an array of edges: ValueError if an edge is larger than
    the next; values below each edge are counted, at the last edge values up to it. *)
Fixpoint mono64 (e : list f64) : bool :=
  match e with
  | a :: ((b :: _) as t) => negb (flt b a) && mono64 t
  | _ => true
  end.
Fixpoint cum_counts64 (d edges : list f64) : list Z :=
  match edges with
  | [] => []
  | [e] => [Z.of_nat (length (filter (fun x => negb (flt e x)) d))]
  | e :: t => Z.of_nat (length (filter (fun x => flt x e) d)) :: cum_counts64 d t
  end.
(** 284-287: [[0, *fracs]]. *)
Definition g64 (d support : list f64) : res (list f64) :=
  if mono64 support then
    let counts := diff (cum_counts64 d support) in
    Ok (fint 0 :: map (fun c => fdiv (fint c) (fint (Zsum counts))) (cumsum counts))
  else Raise ValueError.

(** 86-91: the support for a number of values, from the nearest-neighbour distances. *)
Definition default_support64 (d : list f64) (num : nat) : list f64 := linspace64 (fint 0) (fmaximum d) num.
