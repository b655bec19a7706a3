(** Model of pointpats/centrography.py: the versions for GeoPandas objects and the
    choice between them and the array versions. *)
From Coq Require Import ZArith QArith Reals List Bool String.
From Verif Require Import Base Centrography_model Center_model CenterR_model Circle_model.
Import ListNotations.

(** Shapely geometries with coordinates of type [P] (a third coordinate is not read). A
    ring is given by its vertices without the closing one; a polygon by its rings, the
    shell first. *)
Inductive geom (P : Type) : Type :=
| GPoint (p : option P)              (* None is POINT EMPTY *)
| GLine (l : list P)
| GPoly (rings : list (list P))
| GMulti (parts : list (geom P)).    (* multi-part geometries and collections *)
Arguments GPoint {P} _.
Arguments GLine {P} _.
Arguments GPoly {P} _.
Arguments GMulti {P} _.

(** The coordinates shapely stores for a ring: the first vertex is repeated. *)
Definition ring_coords {P} (r : list P) : list P :=
  match r with [] => [] | v :: _ => r ++ [v] end.
Fixpoint coords {P} (g : geom P) : list P :=
  match g with
  | GPoint None => []
  | GPoint (Some p) => [p]
  | GLine l => l
  | GPoly rings => flat_map ring_coords rings
  | GMulti parts => flat_map coords parts
  end.
(** [shapely.get_coordinates(points.geometry)]: missing geometries have none. *)
Definition get_coordinates {P} (gs : list (option (geom P))) : list P :=
  flat_map (fun g => match g with Some g => coords g | None => [] end) gs.

(** centrography.py 374-377 [mean_center]; the result is a shapely point. *)
Definition mean_center_geo (gs : list (option (geom pt))) : xq * xq := mean_center (get_coordinates gs).
(** 448-451 [weighted_mean_center]. *)
Definition weighted_mean_center_geo (gs : list (option (geom pt))) (w : list Q) : res (option pt) :=
  weighted_mean_center (get_coordinates gs) w.
(** 519-522 [manhattan_median]. *)
Definition manhattan_median_geo (gs : list (option (geom pt))) : bool * (xq * xq) := manhattan_median (get_coordinates gs).
(** 588-591 [std_distance]. *)
Definition std_distance_geo (gs : list (option (geom rpt))) : option R := std_distance (get_coordinates gs).
(** 907-916 [euclidean_median]: [median] is the array version. *)
Definition euclidean_median_geo {A} (median : list rpt -> A) (gs : list (option (geom rpt))) : A := median (get_coordinates gs).

(** 118-120 [minimum_bounding_rectangle]: the envelope of the collection of all
    geometries. GEOS reads the shell of a polygon only; the envelope is empty, a point, a
    segment or a rectangle. *)
Fixpoint outer_coords {P} (g : geom P) : list P :=
  match g with
  | GPoly (shell :: _) => shell
  | GPoly [] => []
  | GMulti parts => flat_map outer_coords parts
  | g => coords g
  end.
Inductive env : Type := EEmpty | EPoint (p : pt) | ESegment (p q : pt) | ERect (x0 y0 x1 y1 : Q).
Definition envelope (l : list pt) : env :=
  match minimum_bounding_rectangle l with
  | Raise _ => EEmpty
  | Ok (x0, y0, x1, y1) =>
      if Qeq_bool x0 x1 && Qeq_bool y0 y1 then EPoint (x0, y0)
      else if Qeq_bool x0 x1 || Qeq_bool y0 y1 then ESegment (x0, y0) (x1, y1)
      else ERect x0 y0 x1 y1
  end.
Definition bounding_rectangle_geo (gs : list (option (geom pt))) : env :=
  envelope (flat_map (fun g => match g with Some g => outer_coords g | None => [] end) gs).

(** [shapely.multipoints(points.geometry)], used by 224-233 [minimum_rotated_rectangle] and
    307-309 [hull]: missing geometries are skipped, TypeError for anything that is not a
    point. The result is the list of its parts. *)
Fixpoint multipoints {P} (gs : list (option (geom P))) : res (list (option P)) :=
  match gs with
  | [] => Ok []
  | None :: t => multipoints t
  | Some (GPoint p) :: t => let! r := multipoints t in Ok (p :: r)
  | Some _ :: _ => Raise TypeError
  end.
(** [convex_hull m] is [shapely.convex_hull] of a multi-point. *)
Definition hull_geo {P A} (convex_hull : list (option P) -> A) (gs : list (option (geom P))) : res A :=
  let! m := multipoints gs in Ok (convex_hull m).

(** ** dtot, 820-846: [singledispatch] looks at the first argument only. *)
Inductive coord_arg : Type := CPoint (p : rpt) | CArr (p : rpt) | CSeq (p : rpt).
Inductive points_arg : Type := PArr (l : list rpt) | PSeq (l : list rpt) | PLayer (gs : list (option (geom rpt))).
(** [None]: not modelled (an array and a GeoPandas object: pandas' error for
    [points[:, 0]] depends on versions). A layer turned into an array is one-dimensional:
    IndexError; arrays and lists have no [geometry]: AttributeError, which is not
    converted because the registered version was called directly; a list cannot be indexed
    with [:, 0]: TypeError. *)
Definition dtot_any (c : coord_arg) (pts : points_arg) : option (res R) :=
  match c, pts with
  | CPoint p, PLayer gs => Some (Ok (dtot p (get_coordinates gs)))
  | CPoint _, _ => Some (Raise AttributeError)
  | CArr p, PArr l => Some (Ok (dtot p l))
  | CArr _, PSeq _ => Some (Raise TypeError)
  | CArr _, PLayer _ => None
  | CSeq p, PArr l | CSeq p, PSeq l => Some (Ok (dtot p l))
  | CSeq _, PLayer _ => Some (Raise IndexError)
  end.

(** ** minimum_bounding_circle, 1008-1012 *)
(** [shapely.Point(x, y).buffer(r, quad_segs)] for r > 0: the vertices of a regular polygon
    with 4 * quad_segs vertices on the circle, the first at angle 0, clockwise. *)
Local Open Scope R_scope.
Definition buffer_vertex (c : rpt) (r : R) (quad_segs k : nat) : rpt :=
  let a := - (2 * PI * INR k / INR (4 * quad_segs)) in (fst c + r * cos a, snd c + r * sin a).
Definition buffer (c : rpt) (r : R) (quad_segs : nat) : list rpt :=
  map (buffer_vertex c r quad_segs) (seq 0 (4 * quad_segs)).
(** [**buffer_kw] is passed on to [buffer] (16 segments by default in shapely 2). *)
Definition minimum_bounding_circle_geo (numba : bool) (hull : list rpt -> list rpt) (quad_segs : nat)
    (gs : list (option (geom rpt))) : option (res (list rpt)) :=
  match minimum_bounding_circle numba hull (get_coordinates gs) with
  | None => None
  | Some (Raise e) => Some (Raise e)
  | Some (Ok (c, r)) => Some (Ok (buffer c r quad_segs))
  end.
