(** Model of pointpats/distance_statistics.py.  Distances are rational numbers
    supplied by the trees, by pdist or by the caller; no metric is fixed. *)
From Coq Require Import ZArith QArith Qabs Qminmax List Bool String.
From Verif Require Import Base Quadrat_model Geometry_model Random_model.
Import ListNotations.
Local Open Scope Q_scope.

(** ** numpy helpers *)

(** numpy.linspace(a, b, num): ValueError for negative [num]. *)
Definition linspace (a b : Q) (num : Z) : res (list Q) :=
  if (num <? 0)%Z then Raise ValueError
  else if (num =? 1)%Z then Ok [a]
  else Ok (map (fun i => a + inject_Z i * ((b - a) / inject_Z (num - 1))) (zrange num)).

(** Non-decreasing edges (checked by numpy.histogram). *)
Fixpoint mono (e : list Q) : bool :=
  match e with
  | a :: ((b :: _) as t) => Qle_bool a b && mono t
  | _ => true
  end.

(** numpy's cumulative counts: [searchsorted] left for all edges, right for the
    last one. *)
Fixpoint cum_counts (a edges : list Q) : list Z :=
  match edges with
  | [] => []
  | [e] => [Z.of_nat (count (fun x => Qle_bool x e) a)]
  | e :: t => Z.of_nat (count (fun x => Qltb x e) a) :: cum_counts a t
  end.
Fixpoint diff (l : list Z) : list Z :=
  match l with
  | x :: ((y :: _) as t) => (y - x)%Z :: diff t
  | _ => []
  end.
(** numpy.histogram(a, bins=edges): ValueError unless the edges are monotone. *)
Definition histogram (a edges : list Q) : res (list Z) :=
  if mono edges then Ok (diff (cum_counts a edges)) else Raise ValueError.

Fixpoint cumsum_from (acc : Z) (l : list Z) : list Z :=
  match l with
  | [] => []
  | x :: t => (acc + x)%Z :: cumsum_from (acc + x) t
  end.
Definition cumsum (l : list Z) : list Z := cumsum_from 0 l.

(** ** _prepare, 32-110 *)

Inductive support_arg : Type :=
| SupNone
| SupInt (n : Z)
| SupStop (stop : Q)                   (* (stop,) *)
| SupRange (start stop : Q)            (* (start, stop) *)
| SupSteps (start stop : Q) (n : Z)    (* (start, stop, num) *)
| SupArr (l : list Q).                 (* a one-dimensional array or list *)

(** The [distances] argument: None, (p,), (k,p) or more dimensions (flattened). *)
Inductive dist_arg : Type :=
| DNone | D1 (d : list Q) | D2 (k p : nat) (m : list (list Q)) | DN (flat : list Q).

Definition is_none (d : dist_arg) : bool := match d with DNone => true | _ => false end.

(** Lines 84-110.  [nnd]: the nearest-neighbour distances of the coordinates,
    as returned by [k_neighbors(tree, coordinates, 1)]. *)
Definition make_support (nnd : res (list Q)) (s : support_arg) : res (list Q) :=
  let ints n :=
    let! d := nnd in
    match d with
    | [] => Raise ValueError
    | x :: l => linspace 0 (Qmax_list x l) n
    end in
  match s with
  | SupNone => ints 20%Z
  | SupInt n => ints n
  | SupStop b => linspace 0 b 20
  | SupRange a b => linspace a b 20
  | SupSteps a b n => linspace a b n
  | SupArr l => Ok l
  end.

(** The whole of [_prepare]; [edge] tells whether edge_correction is not None,
    [nnd m] computes the nearest-neighbour distances under metric [m].  Result:
    support, metric and hull. *)
Definition prepare (coords : list pt) (s : support_arg) (d : dist_arg) (m : metric) (h : hullarg)
    (edge : bool) (nnd : metric -> res (list Q)) : res (list Q * metric * hullres) :=
  if edge then Raise NotImplementedError
  else
    let! hull := prepare_hull coords h in
    let precomputed := match m with MName x => String.eqb x "precomputed" | _ => false end in
    if is_none d && precomputed then Raise ValueError
    else match m with
         | MOther _ => Raise TypeError
         | _ =>
             let m := if is_none d then m else MName "euclidean" in
             let! sup := make_support (nnd m) s in
             Ok (sup, m, hull)
         end.

(** ** The cumulative functions F and G *)

(** Lines 191-194 and 278-281: histogram, cumulated fractions, leading zero. *)
Definition cdf (d support : list Q) : res (list xq) :=
  let! c := histogram d support in
  Ok (Fin 0 :: map (fun x => xdiv (inject_Z x) (inject_Z (Zsum c))) (cumsum c)).

(** Minimum along the rows / columns of a matrix given by rows. *)
Definition row_mins (m : list (list Q)) : list Q :=
  map (fun r => match r with [] => 0 | x :: l => Qmin_list x l end) m.
Definition col (j : nat) (m : list (list Q)) : list Q := map (fun r => nth j r 0) m.
Definition col_mins (p : nat) (m : list (list Q)) : list Q :=
  map (fun j => match col j m with [] => 0 | x :: l => Qmin_list x l end) (seq 0 p).

(** 151-189: the distances used by [f].  [empty]: distances of 1000 uniform points
    of the hull to their nearest neighbour in the pattern. *)
Definition f_distances (n : nat) (d : dist_arg) (empty : list Q) : res (list Q) :=
  match d with
  | DNone => Ok empty
  | D1 l => Ok l
  | D2 k p m => if Nat.eqb k n then Ok (col_mins p m) else Raise ValueError
  | DN l => Ok l
  end.
Definition f_stat (n : nat) (support : list Q) (d : dist_arg) (empty : list Q) : res (list xq) :=
  let! l := f_distances n d empty in cdf l support.

(** 232-276: the distances used by [g]. [nnd]: nearest-neighbour distances. *)
Definition g_distances (n : nat) (d : dist_arg) (nnd : res (list Q)) : res (list Q) :=
  match d with
  | DNone => nnd
  | D1 l => if Nat.eqb (List.length l) n then Ok l else Raise ValueError
  | D2 k p m => if Nat.eqb k p && Nat.eqb k n then Ok (row_mins m) else Raise ValueError
  | DN _ => Raise ValueError
  end.
Definition g_stat (n : nat) (support : list Q) (d : dist_arg) (nnd : res (list Q)) : res (list xq) :=
  let! l := g_distances n d nnd in cdf l support.

(** ** J, 333-382 *)

Definition x1minus (x : xq) : xq :=
  match x with Fin q => Fin (1 - q) | PInf => NInf | NInf => PInf | NaN => NaN end.
(** Division of extended numbers (signed zeros are not distinguished). *)
Definition xdivx (a b : xq) : xq :=
  match a, b with
  | Fin x, Fin y => xdiv x y
  | Fin _, (PInf | NInf) => Fin 0
  | PInf, Fin y => if Qltb y 0 then NInf else PInf
  | NInf, Fin y => if Qltb y 0 then PInf else NInf
  | _, _ => NaN
  end.
Definition is_one (x : xq) : bool := match x with Fin q => Qeq_bool q 1 | _ => false end.

(** 366-369: one value of the hazard ratio. *)
Definition hazard (g f : xq) : xq :=
  if is_one g && is_one f then NaN else xdivx (x1minus g) (x1minus f).

Definition invalid (x : xq) : bool := match x with Fin _ => false | _ => true end.
(** [is_invalid.argmax()] when some entry is invalid. *)
Fixpoint first_invalid (l : list xq) : nat :=
  match l with
  | [] => 0
  | x :: t => if invalid x then 0 else S (first_invalid t)
  end.

(** 1065-1079 [_truncate]; [rest] with slicing functions as lists of values. *)
Definition truncate2 {A : Type} (support : list A) (r : list xq) : list A * list xq :=
  if existsb invalid r then (firstn (first_invalid r) support, firstn (first_invalid r) r)
  else (support, r).

(** numpy.allclose on arrays of equal length. *)
Definition allclose (a b : list Q) : bool :=
  forallb (fun xy => Qle_bool (Qabs (fst xy - snd xy)) ((1 # 100000000) + (1 # 100000) * Qabs (snd xy)))
    (combine a b).

(** [j]: both functions were evaluated by [f] and [g] on their own supports;
    [interp xs ys at] stands for scipy's interp1d.  [arr_support]: the support
    argument when it is a numpy array. *)
Definition j_stat (arr_support : option (list Q)) (fs gs : list Q * list xq)
    (interp : list Q -> list xq -> list Q -> list xq) (trunc : bool) : list Q * list xq :=
  let '(fsup, fst) := fs in
  let '(gsup, gst) := gs in
  let '(gsup, gst) :=
    match arr_support with
    | Some s => if allclose gsup s then (gsup, gst) else (s, interp gsup gst s)
    | None => (gsup, gst)
    end in
  let fst := if allclose gsup fsup then fst else interp fsup fst gsup in
  let hz := map (fun gf => hazard (Datatypes.fst gf) (snd gf)) (combine gst fst) in
  if trunc then truncate2 gsup hz else (gsup, hz).

(** ** K, 420-448 *)

(** numpy triu_indices_from(m, k=1) applied to a matrix given by rows. *)
Fixpoint triu_from (i : nat) (m : list (list Q)) : list Q :=
  match m with
  | [] => []
  | r :: t => skipn (S i) r ++ triu_from (S i) t
  end.
Definition triu (m : list (list Q)) : list Q := triu_from 0 m.

(** scipy pdist for n points: pairs i < j in lexicographic order. *)
Definition pdist (n : nat) (D : nat -> nat -> Q) : list Q :=
  List.concat (map (fun i => map (D i) (seq (S i) (n - S i))) (seq 0 n)).

Definition k_distances (n : nat) (d : dist_arg) (pd : list Q) : res (list Q) :=
  match d with
  | DNone => Ok pd
  | D1 l => if Nat.eqb (2 * List.length l) (n * (n - 1)) then Ok l else Raise ValueError
  | D2 k p m => if Nat.eqb k p && Nat.eqb k n then Ok (triu m) else Raise ValueError
  | DN _ => Raise ValueError
  end.

(** 444-447: one value of K; [area] is the area of the bounding box. *)
Definition k_value (n : nat) (area : Q) (d : list Q) (s : Q) : xq :=
  let c := Z.of_nat (count (fun x => Qltb x s) d) in
  xdivx (xdiv (inject_Z (c * 2)) (inject_Z (Z.of_nat n)))
        (xdiv (inject_Z (Z.of_nat n)) area).
Definition k_stat (n : nat) (area : Q) (support : list Q) (d : dist_arg) (pd : list Q) : res (list xq) :=
  let! l := k_distances n d pd in Ok (map (k_value n area l) support).

(** ** _ripley_test, 536-634 *)

Inductive calltype : Type := TF | TG | TJ | TK | TL.

(** 553-560: the hull the statistic itself gets to see; G, K and L do not receive
    the user's hull and use the bounding box of the coordinates. *)
Definition stat_hull (c : calltype) (user : hullarg) : hullarg :=
  match c with TF | TJ => user | _ => HNone end.

(** 564: the empty-space points are drawn in the bounding box of the coordinates. *)
Definition empty_space_points (coords : list pt) (us : list Q) : run arr :=
  rbind (lift (compute_mbb coords) us)
        (fun b us => poisson (bbox_hull b) None (STuple [1000%Z; 1%Z]) us).

(** 569: the observed distances of the empty-space points; [query i] answers the
    2-nearest query for empty-space point number [i]. *)
Definition empty_space_distances (query : nat -> row) (rows : nat) : res (list Q) :=
  let! r := k_neighbors query rows 1 in Ok (map fst (List.concat r)).

(** [a >= b] on numpy floats. *)
Definition xge (a b : xq) : bool :=
  match a, b with
  | Fin x, Fin y => Qle_bool y x
  | NaN, _ | _, NaN => false
  | PInf, _ | _, NInf => true
  | _, _ => false
  end.

(** 617-625: p-values; [ns] is n_simulations and [sims] the simulated curves. *)
Definition pvalue (ns : Z) (sims : list (list xq)) (obs : list xq) (j : nat) : Q :=
  let c := Z.of_nat (count (fun r => xge (nth j r NaN) (nth j obs NaN)) sims) in
  let p := inject_Z (c + 1) / inject_Z (ns + 1) in
  Qmin p (1 - p).

Record result : Type := mkresult {
  r_support : list Q; r_statistic : list xq; r_pvalue : list xq; r_sims : option (list (list xq)) }.

(** [sim i]: statistic of the i-th simulated pattern. *)
Definition ripley_test (support : list Q) (obs : list xq) (sim : nat -> list xq) (ns : Z) (keep : bool) : result :=
  let sims := if (ns <=? 0)%Z then [] else map sim (seq 0 (Z.to_nat ns)) in
  let pv := match sims with
            | [] => map (fun _ => NaN) support
            | _ => map (fun j => Fin (pvalue ns sims obs j)) (seq 0 (List.length obs))
            end in
  mkresult support obs pv (if keep then Some sims else None).

(** 862-884 [j_test]: [None] is Python's None (no return statement reached). *)
Definition j_test (r : result) (trunc : bool) : option result :=
  if trunc then
    let bad := existsb invalid (r_statistic r) in
    let k := first_invalid (r_statistic r) in
    let t := if bad
             then mkresult (firstn k (r_support r)) (firstn k (r_statistic r)) (firstn k (r_pvalue r))
                           (option_map (firstn k) (r_sims r))
             else r in
    if Nat.eqb (List.length (r_statistic t)) (List.length (r_statistic r)) then None else Some t
  else Some r.

(** 1044: the pattern a simulation works on; [h] is the hull prepared from the
    user's argument. *)
Definition simulated_pattern (h : hull) (n : nat) (us : list Q) : run arr :=
  poisson h None (SInt (Z.of_nat n)) us.

(** [k] as called by the tests (581 and 1064) on the points [coords] when the
    user's hull argument is [user]; [pd] are the pairwise distances. *)
Definition k_in_test (coords : list pt) (user : hullarg) (support pd : list Q) : res (list xq) :=
  let! r := prepare_hull coords (stat_hull TK user) in
  match r with
  | RBox b => k_stat (List.length coords) (box_area b) support DNone pd
  | _ => Raise TypeError (* not reached: [stat_hull TK] is [HNone] *)
  end.
