(** Weighted mean centre and total distance on binary64.  centrography.py 440-445
    (weighted_mean_center) and 834-839 (dtot), on arrays of floats with as many weights
    as points.  Weights and products are added in any order (Area64_model.v); products
    are rounded before they are added, as numpy does without fused multiply-add. *)
From Coq Require Import ZArith List.
From Verif Require Import F64_model K64_model Area64_model.
Import ListNotations.

(** 443: [weights * 1.0 / weights.sum()], for the sum [s]. *)
Definition share64 (s x : f64) : f64 := fdiv (fmul x (fint 1)) s.
(** 445: the products that np.dot adds for one column [x] of the points. *)
Definition parts64 (s : f64) (w x : list f64) : list f64 := map (fun p => fmul (share64 s (fst p)) (snd p)) (combine w x).

(** 835-837: one distance for each point. *)
Definition dists64 (c : fpt) (l : list fpt) : list f64 := map (fun p => dist64 p c) l.
