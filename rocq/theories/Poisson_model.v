(** Model of the analytic p-value of pointpats/spacetime.py [_knox]. *)
From Coq Require Import ZArith QArith Qround Qreals Reals List.
From Verif Require Import Base Spacetime_model.
Local Open Scope R_scope.

(** scipy's [poisson.cdf(x, mu)] for mu >= 0: the sum of the probabilities of the
    values up to [floor x]. *)
Definition poisson_pmf (mu : R) (i : nat) : R := exp (- mu) * (/ INR (fact i) * mu ^ i).
Definition poisson_cdf (x : Q) (mu : R) : R :=
  let k := Qfloor x in
  if (k <? 0)%Z then 0 else sum_f_R0 (poisson_pmf mu) (Z.to_nat k).

(** spacetime.py 809: [1 - poisson.cdf(nst_tot, expected[0, 0])]; None is NaN, for
    an expected table of NaN. *)
Definition p_value_poisson (k : knox_out) : option R :=
  match k_exp k with
  | Some (e, _, _, _) => Some (1 - poisson_cdf (k_nst k) (Q2R e))
  | None => None
  end.
