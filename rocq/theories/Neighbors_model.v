(** Model of pointpats/pointpattern.py: nearest-neighbour distances and their
    summaries, find_pairs and knn_other. Distances are real numbers, squared
    distances of rational points rational numbers. *)
From Coq Require Import ZArith QArith Qreals Reals List Bool Arith.
From Verif Require Import Base CenterR_model.
Import ListNotations.

(** scipy's KDTree of [n] points asked for [m] neighbours: missing neighbours have
    index [n] and distance infinity. [query m] is the answer for [m <= n]. *)
Definition padded (query : nat -> list (Q * nat)) (n m : nat) : list (xr * nat) :=
  map (fun e => (RFin (sqrt (Q2R (fst e))), snd e)) (query (Nat.min m n)) ++ repeat (RInf, n) (m - n).

(** pointpattern.py 322-343 [knn], with any number of points. *)
Definition knn_any (query : nat -> nat -> list (Q * nat)) (n : nat) (k : Z) : res (list (list (xr * nat))) :=
  if (k <? 1)%Z then Raise ValueError
  else Ok (map (fun i => skipn 1 (padded (fun m => query m i) n (Z.to_nat k + 1))) (seq 0 n)).

(** 345-352 [_nn_sum]: the n x 1 array of distances. *)
Definition nnd (query : nat -> nat -> list (Q * nat)) (n : nat) : res (list (list xr)) :=
  let! rows := knn_any query n 1 in Ok (map (map fst) rows).

(** Smaller / larger of two numbers that are not NaN, and a sum. *)
Definition xr_min (a b : xr) : xr :=
  match a, b with
  | RFin x, RFin y => RFin (Rmin x y)
  | RFin x, _ => RFin x
  | _, b => b
  end.
Definition xr_max (a b : xr) : xr :=
  match a, b with RFin x, RFin y => RFin (Rmax x y) | _, _ => RInf end.
Definition xr_plus (a b : xr) : xr :=
  match a, b with RFin x, RFin y => RFin (x + y) | _, _ => RInf end.

(** 354-376 [_min_nnd], [_max_nnd], [_mean_nnd]: over all entries of the array;
    minimum and maximum of an empty array raise ValueError, its mean is NaN. *)
Definition min_nnd (query : nat -> nat -> list (Q * nat)) (n : nat) : res xr :=
  let! a := nnd query n in
  match concat a with [] => Raise ValueError | x :: l => Ok (fold_right xr_min x l) end.
Definition max_nnd (query : nat -> nat -> list (Q * nat)) (n : nat) : res xr :=
  let! a := nnd query n in
  match concat a with [] => Raise ValueError | x :: l => Ok (fold_right xr_max x l) end.
Definition mean_nnd (query : nat -> nat -> list (Q * nat)) (n : nat) : res xr :=
  let! a := nnd query n in
  match concat a with
  | [] => Ok RNan
  | l => Ok (match fold_right xr_plus (RFin 0) l with
             | RFin s => RFin (s / INR (List.length l))
             | x => x
             end)
  end.

(** 378-394 [find_pairs]. *)
Definition find_pairs (query_pairs : R -> list (nat * nat)) (r : R) : list (nat * nat) := query_pairs r.

(** 396-425 [knn_other]. What is passed as [other]: an object with an attribute
    [points] (a point pattern), a list, or anything else (an array, a tuple, a data
    frame), which has neither. *)
Inductive other_arg : Type := OPattern (pts : list pt) | OList (pts : list pt) | OElse (pts : list pt).
(** scipy drops the last axis of the answer when k = 1. *)
Inductive answer : Type := Flat (l : list (xr * nat)) | Rows (l : list (list (xr * nat))).
Definition tree_answer (query : pt -> nat -> list (Q * nat)) (n : nat) (pts : list pt) (k : Z) : answer :=
  let rows := map (fun p => padded (query p) n (Z.to_nat k)) pts in
  if (k =? 1)%Z then Flat (concat rows) else Rows rows.
Definition knn_other (query : pt -> nat -> list (Q * nat)) (n : nat) (other : other_arg) (k : Z) : res answer :=
  if (k <? 1)%Z then Raise ValueError
  else match other with
       | OPattern pts => Ok (tree_answer query n pts k)
       | OList pts => Ok (tree_answer query n pts k)
       | OElse _ => Raise AttributeError
       end.
