(** Model of pointpats/geometry.py: bounding boxes, hulls, dispatch functions,
    nearest-neighbour post-processing. *)
From Coq Require Import ZArith QArith Qabs Qminmax List Bool String Ascii.
From Verif Require Import Base Quadrat_model.
Import ListNotations.
Local Open Scope Q_scope.

(** ** Arrays as shapes: what [bbox], [area], [centroid] dispatch on *)

(** A numpy array argument: a one-dimensional array or an (n,2) array of points. *)
Inductive nparr : Type := Vec (v : list Q) | Pts (p : list pt).

(** geometry.py 80-88 [bbox] for arrays: (4,) passes through, points give
    minima/maxima ([min] of zero rows raises ValueError; a 1-d array of another
    length gives two numpy scalars that cannot be unpacked: TypeError). *)
Definition geo_bbox (a : nparr) : res box :=
  match a with
  | Vec [x0; y0; x1; y1] => Ok (mkbox x0 y0 x1 y1)
  | Vec [] => Raise ValueError
  | Vec _ => Raise TypeError
  | Pts p => compute_mbb p
  end.

(** geometry.py 58-65 [area] for arrays: [len(shape)] must be 4; an array of
    four points passes the assertion but then yields an array, not a number;
    that case is outside the model (only boxes are used by the library). *)
Definition geo_area (a : nparr) : res Q :=
  match a with
  | Vec [x0; y0; x1; y1] => Ok (Qabs ((x1 - x0) * (y1 - y0)))
  | _ => Raise AssertionError
  end.

Definition box_area (b : box) : Q := Qabs ((bxmax b - bxmin b) * (bymax b - bymin b)).

(** geometry.py 113-123 [contains] for a bounding box. *)
Definition box_contains (b : box) (p : pt) : bool :=
  (Qle_bool (bxmin b) (fst p) && Qle_bool (fst p) (bxmax b)) &&
  (Qle_bool (bymin b) (snd p) && Qle_bool (snd p) (bymax b)).

(** geometry.py 158-177 [centroid] for arrays. *)
Definition geo_centroid (a : nparr) : res pt :=
  match a with
  | Pts p => Ok (Qmean (map fst p), Qmean (map snd p))
  | Vec [x0; y0; x1; y1] => Ok (Qmean [x0; x1], Qmean [y0; y1])
  | Vec _ => Raise AssertionError
  end.

(** ** Hulls as seen by the simulators *)
(** [h_area], [h_bbox], [h_contains] stand for the singledispatch functions
    [area], [bbox], [contains] applied to the hull object; for polygons these
    are computed by GEOS and are arbitrary here.  [h_np] tells whether the area
    is a numpy float (division by zero gives inf) or a Python float. *)
Record hull : Type := mkhull {
  h_area : Q; h_bbox : box; h_contains : pt -> bool; h_np : bool }.

(** The hull given by a (4,) bounding box array. *)
Definition bbox_hull (b : box) : hull := mkhull (box_area b) b (box_contains b) true.

(** ** prepare_hull, geometry.py 371-418 *)
Inductive hullarg : Type :=
| HNone                       (* None *)
| HArr (a : nparr)            (* numpy.ndarray *)
| HShapely (id : nat)         (* Polygon, MultiPolygon or any shapely.Geometry *)
| HStr (s : string)
| HConvexHull (id : nat)      (* scipy.spatial.ConvexHull *)
| HOther (id : nat).          (* any other object *)

(** What comes back; the geometry computed by scipy / libpysal is opaque. *)
Inductive hullres : Type :=
| RBox (b : box) | RArr (a : nparr) | RShapely (id : nat) | RConvexHull (id : nat)
| RNewConvex | RNewAlpha.

Fixpoint starts_with (pre s : string) : bool :=
  match pre, s with
  | EmptyString, _ => true
  | String c pre', String c' s' => Ascii.eqb c c' && starts_with pre' s'
  | _, EmptyString => false
  end.

(** UTF-8 encoding of the Greek letter alpha (U+03B1). *)
Definition alpha_utf8 : string :=
  String (ascii_of_nat 206) (String (ascii_of_nat 177) EmptyString).

Definition prepare_hull (coords : list pt) (h : hullarg) : res hullres :=
  match h with
  | HArr (Vec v) => if Nat.eqb (List.length v) 4 then Ok (RArr (Vec v)) else Raise AssertionError
  | HArr (Pts p) => Raise AssertionError
  | HNone => let! b := compute_mbb coords in Ok (RBox b)
  | HShapely i => Ok (RShapely i)
  | HStr s =>
      if String.eqb s "bbox" then let! b := compute_mbb coords in Ok (RBox b)
      else if starts_with "convex" s then Ok RNewConvex
      else if starts_with "alpha" s || starts_with alpha_utf8 s then Ok RNewAlpha
      else Raise ValueError
  | HConvexHull i => Ok (RConvexHull i)
  | HOther _ => Raise ValueError
  end.

(** The prepared hull used again as a hull argument. [new] numbers freshly
    built objects. *)
Definition as_arg (new : nat) (r : hullres) : hullarg :=
  match r with
  | RBox b => HArr (Vec [bxmin b; bymin b; bxmax b; bymax b])
  | RArr a => HArr a
  | RShapely i => HShapely i
  | RConvexHull i => HConvexHull i
  | RNewConvex => HConvexHull new
  | RNewAlpha => HShapely new
  end.

(** ** build_best_tree, geometry.py 267-333 *)
Inductive metric : Type := MName (s : string) | MCallable (id : nat) | MOther (id : nat).
Inductive tree : Type :=
| SkKDTree (m : metric) | SkBallTree (m : metric) | ScipyKDTree.

(** [sklearn = Some (kd, ball)] when scikit-learn is importable, with the two
    lists of valid metric names; [None] otherwise. *)
Definition build_best_tree (sklearn : option (list string * list string)) (m : metric) : res tree :=
  let named l := match m with MName s => existsb (String.eqb s) l | _ => false end in
  match sklearn with
  | Some (kd, ball) =>
      if named kd then Ok (SkKDTree m)
      else if named ball then Ok (SkBallTree m)
      else match m with MCallable _ => Ok (SkBallTree m) | _ => Raise KeyError end
  | None =>
      if named ["l2"; "euclidean"]%string then Ok ScipyKDTree else Raise KeyError
  end.

(** ** k_neighbors, geometry.py 336-367 *)

(** One row of the query result: pairs (distance, index). *)
Definition row := list (Q * nat).

(** Lines 361-366 for row number [i]: positions with another index are kept;
    if all k+1 are other points, the last one is dropped. *)
Definition kn_row (k i : nat) (r : row) : row :=
  let others := filter (fun di => negb (Nat.eqb (snd di) i)) r in
  if Nat.eqb (List.length others) (k + 1)
  then filter (fun di => negb (Nat.eqb (snd di) i)) (removelast r)
  else others.

(** [flat.reshape(n, k)] for a flat array of n*k entries. *)
Fixpoint chunks {A : Type} (n k : nat) (l : list A) : list (list A) :=
  match n with
  | O => []
  | S n' => firstn k l :: chunks n' k (skipn k l)
  end.

(** The whole function: [query] is the answer of the tree to the k+1 query for
    each of the [n] coordinates.  The boolean mask flattens the kept entries; the
    reshape to (n,k) raises ValueError when their number is not n*k. *)
Definition k_neighbors (query : nat -> row) (n k : nat) : res (list row) :=
  let flat := List.concat (map (fun i => kn_row k i (query i)) (seq 0 n)) in
  if forallb (fun i => Nat.eqb (List.length (query i)) (k + 1)) (seq 0 n) then
    if Nat.eqb (List.length flat) (n * k) then Ok (chunks n k flat) else Raise ValueError
  else Raise AssertionError.
