(** The chi-square statistic of QStatistic on binary64.  quadrat_statistics.py 641-685. *)
From Coq Require Import ZArith List Bool.
From Flocq Require Import BinarySingleNaN.
From Verif Require Import F64_model Area64_model.
Import ListNotations.

(** 641: the counts as floats. *)
Definition counts64 (c : list Z) : list f64 := map fint c.
(** 644 and 647: the mean of [k] counts, for the order [ts] of adding them. *)
Definition expected64 (ts : tree) (k : nat) : f64 := fdiv (tsum ts) (fint (Z.of_nat k)).
(** 644 (scipy.stats.chisquare) and 649: the contribution of one cell. *)
Definition term64 (m : f64) (c : Z) : f64 := let d := fsub (fint c) m in fdiv (fmul d d) m.
(** 644 and 679: scipy.stats.chisquare adds the contributions; numpy's orders of adding
    start from the first number or from zero. *)
Definition Chi64 (c : list Z) (x : f64) : Prop := exists ts t, Adds ts (counts64 c) /\ Adds t (map (term64 (expected64 ts (length c))) c) /\
  (length (leaves ts) <= S (length c))%nat /\ (length (leaves t) <= S (length c))%nat /\ x = tsum t.
(** 683: [chi2_realizations >= chi2]. *)
Definition fge (a b : f64) : bool := @Bleb 53 1024 b a.
Definition as_extreme64 (x : f64) (sims : list f64) : nat := length (filter (fun y => fge y x) sims).
