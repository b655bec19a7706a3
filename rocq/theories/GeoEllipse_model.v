(** Model of pointpats/centrography.py: the GeoPandas version of ellipse, which
    returns the ellipse as a polygon. *)
From Coq Require Import Reals List String.
From Verif Require Import Base CenterR_model.
Import ListNotations.
Local Open Scope R_scope.

(** Smallest and largest element of a non-empty list. *)
Definition rmin_list (x : R) (l : list R) : R := fold_right Rmin x l.
Definition rmax_list (x : R) (l : list R) : R := fold_right Rmax x l.

(** shapely.affinity: the default origin "center" is the centre of the bounding
    box of the geometry. *)
Definition bb_center (l : list rpt) : rpt :=
  match l with
  | [] => (0, 0)
  | p :: t =>
    ((rmin_list (fst p) (map fst t) + rmax_list (fst p) (map fst t)) / 2,
     (rmin_list (snd p) (map snd t) + rmax_list (snd p) (map snd t)) / 2)
  end.

(** [shapely.affinity.scale(geom, xfact, yfact)] on the vertices. *)
Definition scale_poly (xfact yfact : R) (l : list rpt) : list rpt :=
  let c := bb_center l in
  map (fun p => (xfact * fst p + (fst c - fst c * xfact), yfact * snd p + (snd c - snd c * yfact))) l.

(** [shapely.affinity.rotate(geom, angle, use_radians=True)] on the vertices.
    Simplification: shapely replaces sines and cosines below 2.5e-16 by zero,
    which corrects rounding errors and has no counterpart over the reals. *)
Definition rotate_poly (angle : R) (l : list rpt) : list rpt :=
  let c := bb_center l in
  map (fun p =>
    (cos angle * fst p - sin angle * snd p + (fst c - fst c * cos angle + snd c * sin angle),
     sin angle * fst p + cos angle * snd p + (snd c - fst c * sin angle - snd c * cos angle))) l.

(** centrography.py 370-372 and 441-446: the centres. *)
Definition mean_center_r (pts : list rpt) : rpt :=
  (Rsum (map fst pts) / INR (List.length pts), Rsum (map snd pts) / INR (List.length pts)).
Definition weighted_mean_center_r (pts : list rpt) (w : list R) : rpt :=
  (Rsum (map (fun wp => fst wp * 1 / Rsum w * fst (snd wp)) (combine w pts)),
   Rsum (map (fun wp => fst wp * 1 / Rsum w * snd (snd wp)) (combine w pts))).

(** centrography.py 745-768: [disc c] stands for [Point(c).buffer(1)], given by
    the vertices of its boundary. [Ok None] is a polygon with coordinates that are
    not finite. *)
Definition ellipse_polygon (disc : rpt -> list rpt) (pts : list rpt) (weights : option (list R))
    (method : string) (crimestatCorr degfreedCorr : bool) : res (option (list rpt)) :=
  let! r := ellipse pts weights method crimestatCorr degfreedCorr in
  let '(major, minor, rotation) := r in
  let centre := match weights with
                | None => disc (mean_center_r pts)
                | Some w => disc (weighted_mean_center_r pts w)
                end in
  match major, minor with
  | RFin a, RFin b => Ok (Some (rotate_poly rotation (scale_poly a b centre)))
  | _, _ => Ok None
  end.
