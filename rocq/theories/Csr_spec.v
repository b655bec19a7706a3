(** Counts in the regions of a partition, and the Poisson and multinomial
    probabilities. *)
From Coq Require Import Reals QArith List Arith.
From Verif Require Import Base Quadrat_model Joint_spec.
Import ListNotations.
Local Open Scope R_scope.

(** [lab p] is the number of the region of p. *)
Definition counts (lab : pt -> nat) (m : nat) (l : list pt) : list nat :=
  map (fun j => List.length (filter (fun p => Nat.eqb (lab p) j) l)) (seq 0 m).
(** 1 if the regions have the counts [ks], else 0; and the same for several patterns. *)
Definition has_counts (lab : pt -> nat) (ks : list nat) (l : list pt) : R :=
  if list_eq_dec Nat.eq_dec (counts lab (List.length ks) l) ks then 1 else 0.
Definition all_counts (lab : pt -> nat) (kss : list (list nat)) (pss : list (list pt)) : R :=
  prod (map (fun kp => has_counts lab (fst kp) (snd kp)) (combine kss pss)).
Definition total (ks : list nat) : nat := fold_right Nat.add O ks.
Definition in_region (lab : pt -> nat) (j : nat) : pt -> R := indicator (fun p => Nat.eqb (lab p) j).

(** exp(-lam) lam^k / k! *)
Definition pmf (lam : R) (k : nat) : R := exp (- lam) * lam ^ k / INR (fact k).
(** The product of f over the regions and their counts. *)
Definition over_regions (f : nat -> nat -> R) (ks : list nat) : R :=
  prod (map (fun j => f j (nth j ks O)) (seq 0 (List.length ks))).
(** n! prod_j p_j^k_j / k_j! for n the sum of the k_j. *)
Definition multinomial (p : nat -> R) (ks : list nat) : R :=
  INR (fact (total ks)) * over_regions (fun j k => p j ^ k / INR (fact k)) ks.
