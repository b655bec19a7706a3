(** Ripley's L on binary64.  distance_statistics.py 492-504 (l), 620 (the comparison of
    a test).  The estimate of K is [k64] of K64_model. *)
From Coq Require Import ZArith List Bool.
From Flocq Require Import BinarySingleNaN.
From Verif Require Import F64_model K64_model Chi64_model.
Import ListNotations.

(** numpy.pi is 884279719003555 2^-48. *)
Definition pi64 : f64 := fdyadic 884279719003555 (-48).
(** 500 [numpy.sqrt(k_estimate / numpy.pi)]. *)
Definition root64 (k : f64) : f64 := fsqrt (fdiv k pi64).
Definition l64 (l : list fpt) (d : f64) : f64 := root64 (k64 l d).
(** 502-503 [_l - support]. *)
Definition linear64 (l : list fpt) (d : f64) : f64 := fsub (l64 l d) d.
(** 620 [(simulations_array >= observed_statistic).sum(axis=0)] at one distance, for a
    statistic of patterns. *)
Definition reached64 (stat : list fpt -> f64 -> f64) (obs : list fpt) (sims : list (list fpt)) (d : f64) : nat :=
  as_extreme64 (stat obs d) (map (fun s => stat s d) sims).
