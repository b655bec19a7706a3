(** Model of the functions of pointpats/centrography.py and
    pointpats/geometry.py on array-likes of any shape: numpy arrays of 0, 1 or 2
    dimensions with any number of columns, Python numbers and (nested) lists,
    and GeoPandas layers of points with or without a height. The models of
    [Center_model], [CenterR_model], [Centrography_model] and [Geometry_model]
    are the case of two columns. Exact rationals stand for float64. Arrays with
    zero columns and with more than two dimensions are outside the model. *)
From Coq Require Import ZArith QArith Qabs Qminmax List Bool Arith.
From Verif Require Import Base Centrography_model Center_model.
Import ListNotations.
Local Open Scope Q_scope.

(** A numpy array: 0-d, 1-d, or 2-d with [k] columns. *)
Inductive arr (A : Type) : Type :=
| A0 (x : A)
| A1 (l : list A)
| A2 (k : nat) (rows : list (list A)).
Arguments A0 {A}.
Arguments A1 {A}.
Arguments A2 {A}.

Definition arr_wf {A} (a : arr A) : Prop :=
  match a with
  | A2 k rows => (1 <= k)%nat /\ Forall (fun r => List.length r = k) rows
  | _ => True
  end.

(** A Python number, a list (or tuple) of numbers, a list of lists of numbers. *)
Inductive seqarg (A : Type) : Type :=
| SNum (x : A)
| SList (l : list A)
| SRows (rows : list (list A)).
Arguments SNum {A}.
Arguments SList {A}.
Arguments SRows {A}.

(** [np.asarray]: rows of different lengths raise ValueError; the empty list is
    an array of one dimension. *)
Definition asarray {A} (s : seqarg A) : res (arr A) :=
  match s with
  | SNum x => Ok (A0 x)
  | SList l => Ok (A1 l)
  | SRows [] => Ok (A1 [])
  | SRows (r :: rows) =>
      if forallb (fun r' => Nat.eqb (List.length r') (List.length r)) rows
      then Ok (A2 (List.length r) (r :: rows))
      else Raise ValueError
  end.

(** What is passed as [points]: an array, a Python sequence, or a GeoPandas
    layer of points, each given by its two or three coordinates. *)
Inductive pointsarg (A : Type) : Type :=
| PArr (a : arr A)
| PSeq (s : seqarg A)
| PLayer (geoms : list (list A)).
Arguments PArr {A}.
Arguments PSeq {A}.
Arguments PLayer {A}.

(** [shapely.get_coordinates(points.geometry)]: heights are left out. *)
Definition layer_coords {A} (geoms : list (list A)) : arr A := A2 2 (map (firstn 2) geoms).

(** centrography.py 98-102, 362-366, 433-437, 503-507, 574-578, 664-668 (the
    same lines in each function): a sequence is turned into an array and passed
    to the array version; an AttributeError becomes NotImplementedError. *)
Definition via_asarray {A B} (f : arr A -> res B) (s : seqarg A) : res B :=
  match (let! a := asarray s in f a) with
  | Raise AttributeError => Raise NotImplementedError
  | r => r
  end.

(** 374-377, 448-451, 519-522, 588-591: a layer is turned into the array of its
    coordinates (the shapely Point made of the result is read as its two
    coordinates). *)
Definition dispatch {A B} (f : arr A -> res B) (p : pointsarg A) : res B :=
  match p with
  | PArr a => f a
  | PSeq s => via_asarray f s
  | PLayer g => f (layer_coords g)
  end.

(** A result: a number, or one number per column. *)
Inductive out : Type := Num (v : xq) | Row (l : list xq).

(** Column [j]. *)
Definition col {A} (d : A) (j : nat) (rows : list (list A)) : list A := map (fun r => nth j r d) rows.
Definition per_column {A B} (d : A) (f : list A -> B) (k : nat) (rows : list (list A)) : list B :=
  map (fun j => f (col d j rows)) (seq 0 k).

(** centrography.py 369-371 [mean_center]: [points.mean(axis=0)]; there is no
    axis 0 in an array of no dimensions (AxisError, which is a ValueError). *)
Definition col_mean (l : list Q) : xq := xdiv (Qsum l) (Qlen l).
Definition mean_center_arr (a : arr Q) : res out :=
  match a with
  | A0 _ => Raise ValueError
  | A1 l => Ok (Num (col_mean l))
  | A2 k rows => Ok (Row (per_column 0 col_mean k rows))
  end.

(** 440-445 [weighted_mean_center]: [len(points)] of an array of no dimensions
    raises TypeError, an impossible [w.shape] ValueError. The product of the
    weights, divided by their sum, with a column: not finite when the weights of
    at least one point sum to zero ([NaN] stands for every such result), 0 when
    there are no points. *)
Definition col_wmean (w : list Q) (l : list Q) : xq :=
  match l with
  | [] => Fin 0
  | _ => if Qeq_bool (Qsum w) 0 then NaN
         else Fin (Qsum (map (fun wx => fst wx / Qsum w * snd wx) (combine w l)))
  end.
Definition weighted_mean_center_arr (w : list Q) (a : arr Q) : res out :=
  match a with
  | A0 _ => Raise TypeError
  | A1 l => if Nat.eqb (List.length w) (List.length l) then Ok (Num (col_wmean w l)) else Raise ValueError
  | A2 k rows =>
      if Nat.eqb (List.length w) (List.length rows)
      then Ok (Row (per_column 0 (col_wmean w) k rows)) else Raise ValueError
  end.

(** 510-516 [manhattan_median]; the first component records the warning. *)
Definition manhattan_median_arr (a : arr Q) : res (bool * out) :=
  match a with
  | A0 _ => Raise TypeError
  | A1 l => Ok (Nat.eqb (Nat.modulo (List.length l) 2) 0, Num (np_median l))
  | A2 k rows => Ok (Nat.eqb (Nat.modulo (List.length rows) 2) 0, Row (per_column 0 np_median k rows))
  end.

(** Python's [min] and [max] of a column that is not empty. *)
Definition col_py_min (l : list Q) : Q := match l with [] => 0 | x :: t => py_min x t end.
Definition col_py_max (l : list Q) : Q := match l with [] => 0 | x :: t => py_max x t end.

(** 105-115 [minimum_bounding_rectangle]: [x, y = zip( *points )] iterates over
    the rows - TypeError when they are numbers or there is nothing to iterate
    over - and needs exactly two columns and at least one row. *)
Definition minimum_bounding_rectangle_arr (a : arr Q) : res (Q * Q * Q * Q) :=
  match a with
  | A0 _ => Raise TypeError
  | A1 [] => Raise ValueError
  | A1 _ => Raise TypeError
  | A2 _ [] => Raise ValueError
  | A2 k rows =>
      if Nat.eqb k 2
      then Ok (col_py_min (col 0 0 rows), col_py_min (col 0 1 rows), col_py_max (col 0 0 rows), col_py_max (col 0 1 rows))
      else Raise ValueError
  end.

(** ** geometry.py *)
(** numpy's [min] and [max] of a column that is not empty. *)
Definition lmin (l : list Q) : Q := match l with [] => 0 | x :: t => Qmin_list x t end.
Definition lmax (l : list Q) : Q := match l with [] => 0 | x :: t => Qmax_list x t end.

(** 80-88 [bbox]: [len(shape)] of an array of no dimensions raises TypeError,
    the minimum of no rows ValueError, unpacking a number TypeError. *)
Definition bbox_arr (a : arr Q) : res (arr Q) :=
  match a with
  | A0 _ => Raise TypeError
  | A1 l => if Nat.eqb (List.length l) 4 then Ok a
            else match l with [] => Raise ValueError | _ => Raise TypeError end
  | A2 _ [] => Raise ValueError
  | A2 k rows => Ok (A1 (per_column 0 lmin k rows ++ per_column 0 lmax k rows))
  end.
(** 69-77: anything that is not an array goes through [numpy.asarray]. *)
Definition bbox_seq (s : seqarg Q) : res (arr Q) := let! a := asarray s in bbox_arr a.

(** 58-65 [area]: the first dimension must have 4 entries; they can be rows. *)
Definition rect_area (x0 y0 x1 y1 : Q) : Q := Qabs ((x1 - x0) * (y1 - y0)).
Definition area_arr (a : arr Q) : res (arr Q) :=
  match a with
  | A0 _ => Raise TypeError
  | A1 [x0; y0; x1; y1] => Ok (A0 (rect_area x0 y0 x1 y1))
  | A1 _ => Raise AssertionError
  | A2 k [r0; r1; r2; r3] =>
      Ok (A1 (map (fun j => rect_area (nth j r0 0) (nth j r1 0) (nth j r2 0) (nth j r3 0)) (seq 0 k)))
  | A2 _ _ => Raise AssertionError
  end.
(** 35-45: no [area] attribute, so the array version. *)
Definition area_seq (s : seqarg Q) : res (arr Q) := let! a := asarray s in area_arr a.

(** 113-123 [contains] for an array of one dimension (of any length). *)
Definition contains_vec (l : list Q) (x y : Q) : res bool :=
  match l with
  | xmin :: ymin :: xmax :: ymax :: _ =>
      Ok ((Qle_bool xmin x && Qle_bool x xmax) && (Qle_bool ymin y && Qle_bool y ymax))
  | _ => Raise IndexError
  end.
(** 103-110: for a sequence. *)
Definition contains_seq (s : seqarg Q) (x y : Q) : res bool := Raise NotImplementedError.

(** 158-177 [centroid]: the mean centre of an array of points, squeezed (one
    column gives a number); otherwise the middle of a box. *)
Definition centroid_arr (a : arr Q) : res out :=
  match a with
  | A2 k rows =>
      let! m := mean_center_arr a in
      Ok (match m with Row [v] => Num v | o => o end)
  | A1 [xmin; ymin; xmax; ymax] => Ok (Row [Fin (Qmean [xmin; xmax]); Fin (Qmean [ymin; ymax])])
  | A1 _ => Raise AssertionError
  | A0 _ => Raise TypeError
  end.
(** 149-155: a sequence has no [centroid]. *)
Definition centroid_seq (s : seqarg Q) : res out := Raise AttributeError.
