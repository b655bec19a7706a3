(** Model of pointpats/centrography.py (array versions), rational part. *)
From Coq Require Import ZArith QArith Qabs List Bool.
From Verif Require Import Base.
Import ListNotations.
Local Open Scope Q_scope.

(** Python's [min] and [max] of a non-empty sequence: the first extreme value. *)
Definition py_min (x : Q) (l : list Q) : Q := fold_left (fun m y => if Qltb y m then y else m) l x.
Definition py_max (x : Q) (l : list Q) : Q := fold_left (fun m y => if Qltb m y then y else m) l x.

(** centrography.py 105-115 [minimum_bounding_rectangle]: ValueError for no
    points (nothing to unpack in [x, y = zip(...)]). *)
Definition minimum_bounding_rectangle (pts : list pt) : res (Q * Q * Q * Q) :=
  match pts with
  | [] => Raise ValueError
  | p :: l => Ok (py_min (fst p) (map fst l), py_min (snd p) (map snd l),
                  py_max (fst p) (map fst l), py_max (snd p) (map snd l))
  end.
