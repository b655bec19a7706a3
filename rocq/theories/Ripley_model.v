(** Model of the Ripley tests as a whole: pointpats/distance_statistics.py,
    _ripley_test (536-632), _run_one_ripley_simulation (1031-1066) and the wrappers
    f_test, g_test, k_test, l_test.  The numbers used by the simulations come from one
    stream, as with n_jobs=1; with several workers every worker has its own stream. *)
From Coq Require Import ZArith QArith Qminmax List Bool String Reals Qreals.
From Verif Require Import Base Quadrat_model Geometry_model Random_model DistStats_model.
Import ListNotations.
Local Open Scope Q_scope.

(** The [distances] argument of a test: None, an array, or the pair
    (G distances, F distances) that j_test takes. *)
Inductive test_dist : Type := TDNone | TDArr (d : dist_arg) | TDPair (g f : dist_arg).

Section Tests.
(** scikit-learn, as in [build_best_tree]. *)
Variable sk : option (list string * list string).
(** [query m pts p k]: the answer (distance, index) of a tree built on [pts] with
    metric [m] to the query of the [k] nearest points of [p], for [k <= length pts]. *)
Variable query : metric -> list pt -> pt -> nat -> row.
(** scipy's pdist. *)
Variable dist : metric -> pt -> pt -> Q.
(** Area, bounding box and containment of hull objects other than boxes. *)
Variable shape : list pt -> hullres -> hull.
(** scipy's interp1d, see [j_stat]. *)
Variable interp : list Q -> list xq -> list Q -> list xq.

(** tree.query(qs, k=1): distances only; ValueError when the tree is empty. *)
Definition nearest_distances (m : metric) (pts qs : list pt) : res (list Q) :=
  match pts with
  | [] => Raise ValueError
  | _ => Ok (map (fun p => match query m pts p 1 with e :: _ => fst e | [] => 0 end) qs)
  end.

(** _k_neighbors(tree, qs, k=1): distances only; ValueError when the tree holds
    fewer than two points. *)
Definition other_distances (m : metric) (pts qs : list pt) : res (list Q) :=
  if Nat.ltb (List.length pts) 2 then Raise ValueError
  else empty_space_distances (fun i => query m pts (nth i qs (0, 0)) 2) (List.length qs).

(** The hull object that [poisson] gets to see. *)
Definition hull_seen (coords : list pt) (r : hullres) : hull :=
  match r with
  | RBox b => bbox_hull b
  | RArr (Vec [a; b; c; d]) => bbox_hull (mkbox a b c d)
  | r => shape coords r
  end.

(** A simulated pattern must be a two-dimensional array: scikit-learn raises
    ValueError for the (2,) array of a single point. *)
Definition two_dim (a : arr) : res (list pt) :=
  match a with Arr2 l => Ok l | _ => Raise ValueError end.

Definition nnd (coords : list pt) (m : metric) : res (list Q) := other_distances m coords coords.

(** 119-200 [f], on arrays. *)
Definition f_fun (coords : list pt) (s : support_arg) (d : dist_arg) (m : metric) (h : hullarg) (edge : bool)
    (us : list Q) : run (list Q * list xq) :=
  rbind (lift (prepare coords s d m h edge (nnd coords)) us) (fun smh us =>
  let '(sup, m, h) := smh in
  match d with
  | DNone =>
      rbind (poisson (hull_seen coords h) None (STuple [1000%Z; 1%Z]) us) (fun a us =>
      rbind (lift (two_dim a) us) (fun rs us =>
      rbind (lift (nearest_distances m coords rs) us) (fun e us =>
      rbind (lift (f_stat (List.length coords) sup d e) us) (fun v us => Val (sup, v) us))))
  | _ => rbind (lift (f_stat (List.length coords) sup d []) us) (fun v us => Val (sup, v) us)
  end).

(** 203-287 [g]. *)
Definition g_fun (coords : list pt) (s : support_arg) (d : dist_arg) (m : metric) (edge : bool)
  : res (list Q * list xq) :=
  let! smh := prepare coords s d m HNone edge (nnd coords) in
  let '(sup, m, _) := smh in
  let! v := g_stat (List.length coords) sup d (nnd coords m) in
  Ok (sup, v).

(** 381-445 [k]. *)
Definition k_fun (coords : list pt) (s : support_arg) (d : dist_arg) (m : metric) (edge : bool)
  : res (list Q * list xq) :=
  let! smh := prepare coords s d m HNone edge (nnd coords) in
  let '(sup, m, h) := smh in
  match h with
  | RBox b =>
      let pd := pdist (List.length coords) (fun i j => dist m (nth i coords (0, 0)) (nth j coords (0, 0))) in
      let! v := k_stat (List.length coords) (box_area b) sup d pd in
      Ok (sup, v)
  | _ => Raise TypeError (* not reached: the hull is None *)
  end.

(** 448-502 [l]: [None] stands for a value that is not a number. *)
Definition l_of_k (linearized : bool) (s : Q) (k : xq) : option R :=
  match k with
  | Fin k => let v := sqrt (Q2R k / PI) in Some (if linearized then v - Q2R s else v)%R
  | _ => None
  end.
Definition l_fun (linearized : bool) (coords : list pt) (s : support_arg) (d : dist_arg) (m : metric) (edge : bool)
  : res (list Q * list (option R)) :=
  let! sv := k_fun coords s d m edge in
  let '(sup, ks) := sv in
  Ok (sup, map (fun sk => l_of_k linearized (fst sk) (snd sk)) (combine sup ks)).

(** 290-378 [j], not truncated; [gd], [fd] as unpacked from the argument. *)
Definition j_fun (coords : list pt) (s : support_arg) (gd fd : dist_arg) (m : metric) (h : hullarg) (edge : bool)
    (us : list Q) : run (list Q * list xq) :=
  rbind (f_fun coords s fd m h edge us) (fun fs us =>
  rbind (lift (g_fun coords s gd m edge) us) (fun gs us =>
    Val (j_stat (match s with SupArr l => Some l | _ => None end) fs gs interp false) us)).

(** 562-577 for the observed pattern and 1047-1060 for a simulated one: the distances
    handed to the statistic.  [nn] finds the distances of the empty-space points. *)
Definition test_distances (c : calltype) (nn : metric -> list pt -> list pt -> res (list Q))
    (m : metric) (pts empty : list pt) : res test_dist :=
  match c with
  | TF => let! e := nn m pts empty in Ok (TDArr (D1 e))
  | TJ => let! e := nn m pts empty in
          let! g := other_distances m pts pts in Ok (TDPair (D1 g) (D1 e))
  | _ => Ok TDNone
  end.

(** A statistic as called by the tests: coordinates, support, distances, metric,
    prepared hull, edge correction.  A pair of distances is meant for [j]; the other
    functions prepare their arguments and then ask the pair for its dimension. *)
Definition statistic (V : Type) : Type :=
  list pt -> support_arg -> test_dist -> metric -> hullarg -> bool -> list Q -> run (list Q * list V).
Definition one {A : Type} (prepared : res A) (d : test_dist) : res dist_arg :=
  match d with
  | TDNone => Ok DNone
  | TDArr d => Ok d
  | TDPair _ _ => let! _ := prepared in Raise AttributeError
  end.
Definition stat_F : statistic xq := fun coords s d m h edge us =>
  rbind (lift (one (prepare coords s (D1 []) m h edge (nnd coords)) d) us) (fun d us => f_fun coords s d m h edge us).
Definition stat_G : statistic xq := fun coords s d m _ edge us =>
  rbind (lift (one (prepare coords s (D1 []) m HNone edge (nnd coords)) d) us) (fun d us => lift (g_fun coords s d m edge) us).
Definition stat_K : statistic xq := fun coords s d m _ edge us =>
  rbind (lift (one (prepare coords s (D1 []) m HNone edge (nnd coords)) d) us) (fun d us => lift (k_fun coords s d m edge) us).
Definition stat_L (linearized : bool) : statistic (option R) := fun coords s d m _ edge us =>
  rbind (lift (one (prepare coords s (D1 []) m HNone edge (nnd coords)) d) us) (fun d us => lift (l_fun linearized coords s d m edge) us).
(** 333-336: an array is unpacked along its first axis, which must have two entries; the
    numbers of a one-dimensional array have no dimensions ([DN]).  Arrays of three or
    more dimensions are not modelled (ValueError stands for what happens). *)
Definition unpack (d : dist_arg) : res (dist_arg * dist_arg) :=
  match d with
  | DNone => Ok (DNone, DNone)
  | D1 [g; f] => Ok (DN [g], DN [f])
  | D2 _ _ [g; f] => Ok (D1 g, D1 f)
  | _ => Raise ValueError
  end.
Definition stat_J : statistic xq := fun coords s d m h edge us =>
  match d with
  | TDNone => j_fun coords s DNone DNone m h edge us
  | TDPair g f => j_fun coords s g f m h edge us
  | TDArr d => rbind (lift (unpack d) us) (fun gf us => j_fun coords s (fst gf) (snd gf) m h edge us)
  end.

(** 1031-1066 [_run_one_ripley_simulation]. *)
Definition one_simulation {V : Type} (c : calltype) (stat : statistic V) (n : nat) (h : hull) (hu : hullarg)
    (m : metric) (edge : bool) (empty : list pt) (sup : list Q) (us : list Q) : run (list V) :=
  rbind (simulated_pattern h n us) (fun a us =>
  rbind (lift (two_dim a) us) (fun pts us =>
  rbind (lift (test_distances c nearest_distances m pts empty) us) (fun d us =>
  rbind (stat pts (SupArr sup) d m hu edge us) (fun sv us => Val (snd sv) us)))).
Fixpoint simulations {V : Type} (one : list Q -> run (list V)) (ns : nat) (us : list Q) : run (list (list V)) :=
  match ns with
  | O => Val [] us
  | S ns' => rbind (one us) (fun v us => rbind (simulations one ns' us) (fun vs us => Val (v :: vs) us))
  end.

Record outcome (V : Type) : Type := mkoutcome {
  o_support : list Q; o_statistic : list V; o_pvalue : list xq; o_sims : option (list (list V)) }.
Arguments mkoutcome {V}.
Arguments o_support {V}.
Arguments o_statistic {V}.
Arguments o_pvalue {V}.
Arguments o_sims {V}.

(** 612-626: p-values for values compared by [ge]. *)
Definition pvalue_of {V : Type} (ge : V -> V -> bool) (nan : V) (ns : Z) (sims : list (list V)) (obs : list V)
    (j : nat) : Q :=
  let c := Z.of_nat (count (fun r => ge (nth j r nan) (nth j obs nan)) sims) in
  let p := inject_Z (c + 1) / inject_Z (ns + 1) in
  Qmin p (1 - p).

(** 548-632 [_ripley_test] for an array of coordinates. *)
Definition test_run {V : Type} (ge : V -> V -> bool) (nan : V) (c : calltype) (stat : statistic V)
    (coords : list pt) (s : support_arg) (d : test_dist) (m : metric) (user : hullarg) (edge : bool)
    (keep : bool) (ns : Z) (us : list Q) : run (outcome V) :=
  rbind (lift (build_best_tree sk m) us) (fun _ us =>
  rbind (lift (prepare_hull coords user) us) (fun h us =>
  let hu := as_arg 0 h in
  rbind (match c with
         | TF | TJ => rbind (empty_space_points coords us) (fun a us => lift (two_dim a) us)
         | _ => Val [] us
         end) (fun empty us =>
  rbind (match d with
         | TDNone => lift (test_distances c other_distances m coords empty) us
         | _ => Val d us
         end) (fun d us =>
  rbind (stat coords s d m hu edge us) (fun so us =>
  let '(sup, obs) := so in
  rbind (simulations (one_simulation c stat (List.length coords) (hull_seen coords h) hu m edge empty sup)
                     (Z.to_nat ns) us) (fun sims us =>
    let pv := match sims with
              | [] => map (fun _ => NaN) sup
              | _ => map (fun j => Fin (pvalue_of ge nan ns sims obs j)) (seq 0 (List.length obs))
              end in
    Val (mkoutcome sup obs pv (if keep then Some sims else None)) us)))))).

(** 635-709, 712-784, 878-950, 953-1028: the wrappers. *)
Definition rge (a b : option R) : bool :=
  match a, b with Some x, Some y => if Rle_dec y x then true else false | _, _ => false end.
Definition f_test := test_run xge NaN TF stat_F.
Definition g_test := test_run xge NaN TG stat_G.
Definition k_test := test_run xge NaN TK stat_K.
Definition l_test (linearized : bool) := test_run rge None TL (stat_L linearized).
(** 787-875 without the truncation at the end, which is [DistStats_model.j_test]. *)
Definition j_test_full := test_run xge NaN TJ stat_J.
End Tests.
Arguments mkoutcome {V}.
Arguments o_support {V}.
Arguments o_statistic {V}.
Arguments o_pvalue {V}.
Arguments o_sims {V}.
