(** Ripley's K and the nearest-neighbour distances on binary64.
    distance_statistics.py 407-445 (k), geometry.py 58-65, 81-88 (area and bounding box),
    336-366 (k_neighbors).  scipy's pdist and tree queries add the squared differences
    of the columns from first to last and take the root.  Comparisons with NaN are
    false here; numpy's minimum and maximum of a column with NaN are NaN. *)
From Coq Require Import ZArith List Bool.
From Flocq Require Import BinarySingleNaN.
From Verif Require Import F64_model.
Import ListNotations.

(** scipy's euclidean distance. *)
Definition sq64 (p q : fpt) : f64 :=
  let dx := fsub (fst p) (fst q) in let dy := fsub (snd p) (snd q) in fadd (fmul dx dx) (fmul dy dy).
Definition dist64 (p q : fpt) : f64 := fsqrt (sq64 p q).
(** pdist: one distance for each pair, in order. *)
Fixpoint pdist64 (l : list fpt) : list f64 :=
  match l with [] => [] | p :: t => map (dist64 p) t ++ pdist64 t end.
(** 437 [(upper_tri_distances < support).sum()]. *)
Definition closer64 (l : list fpt) (d : f64) : nat := length (filter (fun x => flt x d) (pdist64 l)).

(** geometry.py 88: minima and maxima of the columns. *)
Definition fmin (a b : f64) : f64 := if flt b a then b else a.
Definition fmax (a b : f64) : f64 := if flt a b then b else a.
Definition col_min (c : fpt -> f64) (p : fpt) (l : list fpt) : f64 := fold_left (fun m q => fmin m (c q)) l (c p).
Definition col_max (c : fpt -> f64) (p : fpt) (l : list fpt) : f64 := fold_left (fun m q => fmax m (c q)) l (c p).
Definition fabs : f64 -> f64 := @Babs 53 1024.
(** geometry.py 64-65. *)
Definition area64 (l : list fpt) : f64 :=
  match l with
  | [] => fint 0
  | p :: t => let width := fsub (col_max fst p t) (col_min fst p t) in
              let height := fsub (col_max snd p t) (col_min snd p t) in fabs (fmul width height)
  end.
(** 438-439: the estimate at one distance. *)
Definition k64 (l : list fpt) (d : f64) : f64 :=
  let n := fint (Z.of_nat (length l)) in
  fdiv (fdiv (fint (Z.of_nat (closer64 l d * 2))) n) (fdiv n (area64 l)).

(** The distance from [p] to the nearest of the points [q :: l]. *)
Definition nearest64 (p q : fpt) (l : list fpt) : f64 := fold_left (fun m r => fmin m (dist64 p r)) l (dist64 p q).
