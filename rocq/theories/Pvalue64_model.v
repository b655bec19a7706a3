(** p-values on binary64 and their comparison with a critical value.  Rounding as in
    [Float_model]. *)
From Coq Require Import Reals ZArith.
From Flocq Require Import Core.
From Verif Require Import Float_model.
Local Open Scope R_scope.

(** [(c + 1) / (n + 1)] for a count [c] of [n] permutations: spacetime.py 281, 394, 509,
    640, 845, 1084, distance_statistics.py 620-623, quadrat_statistics.py 683-685. *)
Definition pseudo64 (c n : Z) : R := rnd (rnd (IZR c + 1) / rnd (IZR n + 1)).

(** distance_statistics.py 624: [numpy.minimum(p, 1 - p)]. *)
Definition folded64 (p : R) : R := Rmin p (rnd (1 - p)).
Definition ripley64 (c n : Z) : R := folded64 (pseudo64 c n).

(** spacetime.py 278-281 [knox]: the count is folded, not the p-value. *)
Definition knox64 (larger n : Z) : R :=
  pseudo64 (if Z.ltb (n - larger) larger then n - larger else larger) n.

(** spacetime.py 809 (cdf of the Poisson distribution) and 1090-1092 (mean of cdf values
    of hypergeometric distributions), on the binary64 number computed for it. *)
Definition upper64 (cdf : R) : R := rnd (1 - cdf).

(** A critical value a/b, such as 0.05, as read by Python. *)
Definition crit64 (a b : Z) : R := rnd (IZR a / IZR b).
(** spacetime.py 1398, 1425, 1496, 1499, 1589, 1594: [p <= crit]. *)
Definition significant (p crit : R) : bool := if Rle_dec p crit then true else false.
