(** Model of pointpats/centrography.py: mean_center, weighted_mean_center and
    manhattan_median (array versions). Exact rationals stand for float64. *)
From Coq Require Import ZArith QArith List Bool.
From Verif Require Import Base.
Import ListNotations.
Local Open Scope Q_scope.

(** centrography.py 369-371 [mean_center]: [points.mean(axis=0)]; the mean of no
    points is 0/0, that is NaN. *)
Definition mean_center (pts : list pt) : xq * xq :=
  (xdiv (Qsum (map fst pts)) (Qlen pts), xdiv (Qsum (map snd pts)) (Qlen pts)).

(** centrography.py 440-445 [weighted_mean_center]: the weights are divided by
    their sum, given the shape (1, len(points)) - ValueError when that is not
    possible - and multiplied with the points. [Ok None] stands for a result
    that is not finite (weights of at least one point summing to zero); the
    product of no weights with no points is (0, 0). *)
Definition weighted_mean_center (pts : list pt) (weights : list Q) : res (option pt) :=
  if Nat.eqb (List.length weights) (List.length pts) then
    let s := Qsum weights in
    if Qeq_bool s 0 then match pts with [] => Ok (Some (0, 0)) | _ => Ok None end
    else
      let w := map (fun v => v / s) weights in
      Ok (Some (Qsum (map (fun wp => fst wp * fst (snd wp)) (combine w pts)),
                Qsum (map (fun wp => fst wp * snd (snd wp)) (combine w pts))))
  else Raise ValueError.

(** numpy's sort of a column. *)
Fixpoint insert (x : Q) (l : list Q) : list Q :=
  match l with
  | [] => [x]
  | y :: t => if Qle_bool x y then x :: l else y :: insert x t
  end.
Definition qsort (l : list Q) : list Q := fold_right insert [] l.

(** numpy.median of one column: the middle element of the sorted column, or the
    mean of the two middle elements; NaN for an empty column. *)
Definition np_median (l : list Q) : xq :=
  let n := List.length l in
  let s := qsort l in
  match n with
  | O => NaN
  | _ => if Nat.even n
         then Fin (Qmean [nth (n / 2 - 1) s 0; nth (n / 2) s 0])
         else Fin (nth (n / 2) s 0)
  end.

(** centrography.py 510-516 [manhattan_median]: a warning for an even number of
    points, then the median of each column. The first component records the
    warning. *)
Definition manhattan_median (pts : list pt) : bool * (xq * xq) :=
  (Nat.eqb (Nat.modulo (List.length pts) 2) 0, (np_median (map fst pts), np_median (map snd pts))).
