(** Model of the [support] argument of f, g, k and l, pointpats/distance_statistics.py
    84-110, in forms other than None, a Python int, a tuple of up to three entries
    and a one-dimensional array: a numpy integer, a float, a longer tuple. *)
From Coq Require Import ZArith QArith Qminmax List Bool String Reals.
From Verif Require Import Base Quadrat_model Geometry_model Random_model DistStats_model Ripley_model.
Import ListNotations.
Local Open Scope Q_scope.

Inductive support_form : Type :=
| SupKnown (s : support_arg)
| SupNumpyInt (n : Z)       (* numpy.int64(n): not an instance of int *)
| SupFloat (q : Q)          (* a float *)
| SupTuple (l : list Q).    (* a tuple of no or of four or more numbers *)

(** What [_prepare] makes of it: an array of one or of no dimensions, or the tuple
    itself, for which no branch of 92-99 applies. *)
Inductive support_obj : Type := ObjArr (l : list Q) | ObjInt (n : Z) | ObjFloat (q : Q) | ObjTuple (l : list Q).

(** Lines 84-110. [nnd]: the nearest-neighbour distances. *)
Definition make_object (nnd : res (list Q)) (s : support_form) : res support_obj :=
  match s with
  | SupKnown s => let! l := make_support nnd s in Ok (ObjArr l)
  | SupNumpyInt n => Ok (ObjInt n)
  | SupFloat q => Ok (ObjFloat q)
  | SupTuple l => Ok (ObjTuple l)
  end.

(** The ends that numpy.histogram chooses for a number of bins. *)
Definition outer_edges (d : list Q) : Q * Q :=
  match d with
  | [] => (0, 1)
  | x :: l =>
      let lo := Qmin_list x l in let hi := Qmax_list x l in
      if Qeq_bool lo hi then (lo - (1 # 2), hi + (1 # 2)) else (lo, hi)
  end.

(** numpy.histogram(d, bins=...): a number of bins must be a positive integer; the
    counts of equally wide bins are those between their edges. *)
Definition bin_edges (d : list Q) (o : support_obj) : res (list Q) :=
  match o with
  | ObjArr l | ObjTuple l => Ok l
  | ObjInt n => if (n <? 1)%Z then Raise ValueError else linspace (fst (outer_edges d)) (snd (outer_edges d)) (n + 1)
  | ObjFloat _ => Raise TypeError
  end.

(** Lines 191-194 and 278-281: the edges of the histogram are returned as support. *)
Definition cdf_bins (d : list Q) (o : support_obj) : res (list Q * list xq) :=
  let! e := bin_edges d o in let! v := cdf d e in Ok (e, v).

(** Lines 443-447: [support.reshape(-1, 1)] of an array of no dimensions has one
    entry; a tuple has no [reshape]. The support that k and l return is then an array
    of no dimensions, here a list of its one entry. *)
Definition k_support (o : support_obj) : res (list Q) :=
  match o with
  | ObjArr l => Ok l
  | ObjInt n => Ok [inject_Z n]
  | ObjFloat q => Ok [q]
  | ObjTuple _ => Raise AttributeError
  end.

Section Functions.
Variable query : metric -> list pt -> pt -> nat -> row.
Variable dist : metric -> pt -> pt -> Q.
Variable shape : list pt -> hullres -> hull.

(** 119-200 [f]; the other arguments are checked first, as for any support. *)
Definition f_form (coords : list pt) (s : support_form) (d : dist_arg) (m : metric) (h : hullarg) (edge : bool)
    (us : list Q) : run (list Q * list xq) :=
  rbind (lift (prepare coords (SupArr []) d m h edge (nnd query coords)) us) (fun smh us =>
  let '(_, m, h) := smh in
  rbind (lift (make_object (nnd query coords m) s) us) (fun o us =>
  match d with
  | DNone =>
      rbind (poisson (hull_seen shape coords h) None (STuple [1000%Z; 1%Z]) us) (fun a us =>
      rbind (lift (two_dim a) us) (fun rs us =>
      rbind (lift (nearest_distances query m coords rs) us) (fun e us =>
      rbind (lift (f_distances (List.length coords) d e) us) (fun l us => lift (cdf_bins l o) us))))
  | _ => rbind (lift (f_distances (List.length coords) d []) us) (fun l us => lift (cdf_bins l o) us)
  end)).

(** 203-287 [g]. *)
Definition g_form (coords : list pt) (s : support_form) (d : dist_arg) (m : metric) (edge : bool)
  : res (list Q * list xq) :=
  let! smh := prepare coords (SupArr []) d m HNone edge (nnd query coords) in
  let '(_, m, _) := smh in
  let! o := make_object (nnd query coords m) s in
  let! l := g_distances (List.length coords) d (nnd query coords m) in
  cdf_bins l o.

(** 381-445 [k]. *)
Definition k_form (coords : list pt) (s : support_form) (d : dist_arg) (m : metric) (edge : bool)
  : res (list Q * list xq) :=
  let! smh := prepare coords (SupArr []) d m HNone edge (nnd query coords) in
  let '(_, m, h) := smh in
  let! o := make_object (nnd query coords m) s in
  match h with
  | RBox b =>
      let! l := k_distances (List.length coords) d
                  (pdist (List.length coords) (fun i j => dist m (nth i coords (0, 0)) (nth j coords (0, 0)))) in
      let! e := k_support o in
      Ok (e, map (k_value (List.length coords) (box_area b) l) e)
  | _ => Raise TypeError (* not reached: the hull is None *)
  end.

(** 448-502 [l]. *)
Definition l_form (linearized : bool) (coords : list pt) (s : support_form) (d : dist_arg) (m : metric) (edge : bool)
  : res (list Q * list (option R)) :=
  let! sv := k_form coords s d m edge in
  let '(sup, ks) := sv in
  Ok (sup, map (fun sk => l_of_k linearized (fst sk) (snd sk)) (combine sup ks)).
End Functions.
