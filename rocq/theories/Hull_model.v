(** Model of pointpats/geometry.py: [area], [bbox], [contains] and [centroid] for
    scipy's convex hulls. *)
From Coq Require Import ZArith QArith List Bool.
From Verif Require Import Base Quadrat_model Geometry_model.
Import ListNotations.
Local Open Scope Q_scope.

(** The attributes of a two-dimensional scipy.spatial.ConvexHull that are read. *)
Record chull : Type := mkch { ch_points : list pt; ch_vertices : list nat; ch_volume : Q }.

(** [shape.points[shape.vertices]]. *)
Definition ch_exterior (h : chull) : list pt := map (fun i => nth i (ch_points h) (0, 0)) (ch_vertices h).

(** geometry.py 48-55 [area]. *)
Definition ch_area (h : chull) : Q := ch_volume h.
(** geometry.py 91-97 [bbox]. *)
Definition ch_bbox (h : chull) : res box := geo_bbox (Pts (ch_exterior h)).
(** geometry.py 126-146 [contains]: [find_simplex ext p] is the answer of
    [Delaunay(ext).find_simplex(p)], the number of a simplex or -1. *)
Definition ch_contains (find_simplex : list pt -> pt -> Z) (h : chull) (p : pt) : bool :=
  (0 <=? find_simplex (ch_exterior h) p)%Z.
(** geometry.py 180-185 [centroid]. *)
Definition ch_centroid (h : chull) : res pt := geo_centroid (Pts (ch_exterior h)).
