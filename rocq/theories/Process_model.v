(** Model of pointpats/process.py.  The generator is a list of numbers as in
    Random_model.v; the numbers returned by numpy.random.poisson are given as a
    list of naturals, and numpy.random.shuffle as a function on the rows. *)
From Coq Require Import ZArith QArith Qround List Bool.
From Verif Require Import Base Quadrat_model Geometry_model Random_model Pattern_model.
Import ListNotations.
Local Open Scope Q_scope.

(** An entry of a row: a one-element array (a row of an (n,1) array) or a numpy scalar. *)
Inductive entry : Type := EArr (q : Q) | EScalar (q : Q).

(** [x[0]]: IndexError for a numpy scalar. *)
Definition item0 (e : entry) : res Q :=
  match e with EArr q => Ok q | EScalar _ => Raise IndexError end.

(** Line 147: [Point((x[0], y[0])) for x, y in pnts]. *)
Definition to_points (rows : list (entry * entry)) : res (list pt) :=
  mapM (fun xy => let! x := item0 (fst xy) in let! y := item0 (snd xy) in Ok (x, y)) rows.

(** 126-151 [PointProcess.draw]; [contains] is window.contains_point, 78-79 of
    window.py is the filter.  [n] is a natural number: for a negative number the
    loop is not entered and the result is empty as for 0.
    [fuel] bounds the number of calls of realize. *)
Fixpoint draw_loop (fuel : nat) (contains : pt -> bool)
    (realize : nat -> list Q -> run (list (entry * entry))) (n : nat)
    (sample : list pt) (us : list Q) : run (list pt) :=
  if Nat.ltb (List.length sample) n then
    match fuel with
    | O => Short
    | S fuel' =>
        rbind (realize n us) (fun rows us =>
        rbind (lift (to_points rows) us) (fun pnts us =>
          draw_loop fuel' contains realize n (sample ++ filter contains pnts) us))
    end
  else Val (firstn n sample) us.
Definition draw contains realize n us := draw_loop (S (List.length us)) contains realize n [] us.

(** 105-124 [PointProcess.__init__]: [params] lists parameters[0]["n"],
    parameters[1]["n"], ...; realizations are stored in this order under the keys
    0, 1, ... *)
Fixpoint realizations contains realize (params : list nat) (us : list Q) : run (list (list pt)) :=
  match params with
  | [] => Val [] us
  | n :: params' =>
      rbind (draw contains realize n us) (fun l us =>
      rbind (realizations contains realize params' us) (fun ls us => Val (l :: ls) us))
  end.

(** Lines 115-118 [asPP]: an empty sample is a one-dimensional empty array, of
    which pandas makes a frame with one column. *)
Definition pt_row (p : pt) : drow := [CNum (fst p); CNum (snd p)].
Definition as_pattern (w : window) (l : list pt) : res pattern :=
  fst (pattern_init (match l with [] => 1 | _ => 2 end)%nat (map pt_row l) (Some w) None None).

(** ** PoissonPointProcess *)
(** 256-272 [setup]; [lambdas] is what numpy.random.poisson(n, samples) returned. *)
Definition poisson_params (conditioning : bool) (lambdas : list nat) (n samples : nat) : list nat :=
  if conditioning then lambdas else List.repeat n samples.

(** 274-294 [realize]: n numbers for x, then n numbers for y, as (n,1) arrays. *)
Definition realize_poisson (b : box) (n : nat) (us : list Q) : run (list (entry * entry)) :=
  rbind (draw_block n us) (fun ux us =>
  rbind (draw_block n us) (fun uy us =>
    Val (map (fun xy => (EArr (fst xy), EArr (snd xy)))
             (combine (map (uniform (bxmin b) (bxmax b)) ux) (map (uniform (bymin b) (bymax b)) uy))) us)).

Definition poisson_process (b : box) contains conditioning lambdas n samples us :=
  realizations contains (realize_poisson b) (poisson_params conditioning lambdas n samples) us.

(** ** PoissonClusterPointProcess *)
(** Line 423 [int(np.ceil(n * 1.0 / parents))], as exact division. *)
Definition children_of (n parents : nat) : nat := Z.to_nat (Qceiling (inject_Z (Z.of_nat n) / inject_Z (Z.of_nat parents))).
(** Lines 470-471 [int(n / self.children)]. *)
Definition drawn_parents (n children : nat) : nat :=
  Z.to_nat (Qfloor (inject_Z (Z.of_nat n) / inject_Z (Z.of_nat children))).

(** 428-449 [setup]: parameters and num_parents. *)
Definition cluster_params (conditioning : bool) (lambdas : list nat) (n parents samples : nat)
  : list nat * list nat :=
  if conditioning then (map (fun l => (l * children_of n parents)%nat) lambdas, lambdas)
  else (List.repeat n samples, List.repeat parents samples).

(** 27-68 [runif_in_circle] is uniform_circle without a hull. *)
Definition runif_in_circle (n : nat) (radius : Q) (center : pt) (burn : nat) (us : list Q) : run (list pt) :=
  uniform_circle n radius center burn None us.

Fixpoint children_loop (children : nat) (radius : Q) (cents : list pt) (us : list Q) : run (list (list pt)) :=
  match cents with
  | [] => Val [] us
  | c :: cs =>
      rbind (runif_in_circle children radius c 2 us) (fun l us =>
      rbind (children_loop children radius cs us) (fun ls us => Val (l :: ls) us))
  end.

(** 451-479 [realize]; vstack of no array is a ValueError; rows of a
    two-dimensional array consist of numpy scalars. *)
Definition realize_cluster_rows (b : box) (children : nat) (radius : Q) (keep : bool)
    (shuffle : list pt -> list pt) (n : nat) (us : list Q) : run (list pt) :=
  if Nat.eqb children 0 then Exc ZeroDivisionError else
  let k := drawn_parents n children in
  rbind (draw_block k us) (fun ux us =>
  rbind (draw_block k us) (fun uy us =>
    let cents := combine (map (uniform (bxmin b) (bxmax b)) ux) (map (uniform (bymin b) (bymax b)) uy) in
    rbind (children_loop children radius cents us) (fun pnts us =>
      match pnts with
      | [] => Exc ValueError
      | _ => Val (shuffle ((if keep then cents else []) ++ List.concat pnts)) us
      end))).
Definition realize_cluster b children radius keep shuffle n us : run (list (entry * entry)) :=
  rbind (realize_cluster_rows b children radius keep shuffle n us) (fun res us =>
    Val (map (fun p => (EScalar (fst p), EScalar (snd p))) res) us).

Definition cluster_process (b : box) contains conditioning lambdas n parents radius samples keep shuffle us :=
  if Nat.eqb parents 0 then Exc ZeroDivisionError else
  realizations contains (realize_cluster b (children_of n parents) radius keep shuffle)
    (fst (cluster_params conditioning lambdas n parents samples)) us.
