(** Model of the functions of pointpats that build a convex hull with scipy, with the
    exceptions of scipy.spatial.ConvexHull: centrography.py 301-304 [hull] and 988-1005
    [minimum_bounding_circle], pointpattern.py 262-315 [hull], [hull_area],
    [lambda_hull], geometry.py 371-418 [prepare_hull]. *)
From Coq Require Import ZArith QArith List Bool String Reals Qreals.
From Verif Require Import Base Quadrat_model Geometry_model Pattern_model CenterR_model Circle_model.
Import ListNotations.
Local Open Scope Q_scope.

Section Qhull.
(** ConvexHull(points).vertices, the numbers of the vertices, or an exception.
    QhullError is a RuntimeError. *)
Variable qhull : list pt -> res (list nat).

(** centrography.py 301-304: [points[h.vertices]]. *)
Definition hull_array (pts : list pt) : res (list pt) :=
  let! v := qhull pts in Ok (map (fun i => nth i pts (0, 0)) v).

(** pointpattern.py 296-307 (first read; an attribute that raised is not kept). *)
Definition hull_area_array (pts : list pt) : res Q :=
  let! h := hull_array pts in
  match h with
  | [] => Raise IndexError
  | _ => Ok (hull_area_of h)
  end.

(** pointpattern.py 309-315. *)
Definition lambda_hull_array (pts : list pt) : res xq :=
  let! a := hull_area_array pts in Ok (xdiv (inject_Z (Z.of_nat (List.length pts))) a).

(** centrography.py 988-1005, on the exact coordinates. *)
Definition to_r (p : pt) : rpt := (Q2R (fst p), Q2R (snd p)).
Definition circle_array (numba : bool) (pts : list pt) : option (res (rpt * R)) :=
  match hull_array pts with
  | Raise e => Some (Raise e)
  | Ok h => minimum_bounding_circle numba (fun _ => map to_r h) (map to_r pts)
  end.

(** geometry.py 371-418; the other hulls do not call scipy. *)
Definition prepare_hull_array (pts : list pt) (h : hullarg) : res hullres :=
  match prepare_hull pts h with
  | Ok RNewConvex => let! _ := qhull pts in Ok RNewConvex
  | r => r
  end.
End Qhull.
