(** Data and simulations drawn from one stream of random numbers. *)
From Coq Require Import Reals ZArith QArith List Bool Arith.
From Verif Require Import Base Quadrat_model Geometry_model Random_model Random_spec Joint_spec.
Import ListNotations.
Local Open Scope R_scope.

(** The expectation of [F] over one candidate for each generator, restricted to the
    candidates that are all acceptable. *)
Fixpoint kept_all (G : list Q) (w : Q -> R) (ok : pt -> bool) (mks : list (Q -> Q -> pt)) (F : list pt -> R) : R :=
  match mks with
  | [] => F []
  | mk :: rest => kept G w mk ok (fun p => kept_all G w ok rest (fun l => F (p :: l)))
  end.
(** Cutting a list of points into [s] patterns of [n] points. *)
Fixpoint chunks (n s : nat) (l : list pt) : list (list pt) :=
  match s with O => [] | S s' => firstn n l :: chunks n s' (skipn n l) end.
(** The expectation of [F] over [s] independent patterns of [n] acceptable points. *)
Definition kept_patterns (G : list Q) (w : Q -> R) (h : hull) (n s : nat) (F : list (list pt) -> R) : R :=
  kept_all G w (h_contains h) (repeat (box_candidate (h_bbox h)) (s * n)) (fun l => F (chunks n s l)).
Definition yes (b : bool) : R := if b then 1 else 0.
(** The data are themselves [n] points drawn by [poisson]; the test then goes on with
    the following numbers. *)
Definition experiment {B : Type} (h : hull) (n : nat) (test : list pt -> list Q -> run B) (us : list Q) : run B :=
  rbind (poisson h None (SInt (Z.of_nat n)) us) (fun a us => test (arr_points a) us).
