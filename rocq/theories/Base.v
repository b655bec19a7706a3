(** Shared vocabulary of the model: Python exceptions as values, exact rational
    numbers, numpy's extended floats, integer ranges and insertion-ordered
    dictionaries.  Nothing in this file is specific to pointpats. *)
From Coq Require Import ZArith QArith Qround Qminmax List Bool Lia Lqa String.
Import ListNotations.
Local Open Scope Q_scope.

(** Python exceptions raised by the modelled code. *)
Inductive exn : Type :=
| ValueError | TypeError | KeyError | IndexError | AttributeError
| NotImplementedError | RuntimeError | OverflowError | ZeroDivisionError
| NameError | ImportError | AssertionError | PlainException.

Inductive res (A : Type) : Type :=
| Ok : A -> res A
| Raise : exn -> res A.
Arguments Ok {A} _.
Arguments Raise {A} _.

Definition bind {A B : Type} (r : res A) (f : A -> res B) : res B :=
  match r with Ok a => f a | Raise e => Raise e end.
Notation "'let!' x ':=' r 'in' b" := (bind r (fun x => b))
  (at level 200, x pattern, right associativity).

Definition is_ok {A} (r : res A) : bool :=
  match r with Ok _ => true | Raise _ => false end.

(** [for x in l: acc = f acc x] where the body may raise. *)
Fixpoint foldM {A B : Type} (f : B -> A -> res B) (l : list A) (acc : B) : res B :=
  match l with
  | [] => Ok acc
  | x :: t => bind (f acc x) (fun acc' => foldM f t acc')
  end.

Fixpoint mapM {A B : Type} (f : A -> res B) (l : list A) : res (list B) :=
  match l with
  | [] => Ok []
  | x :: t => bind (f x) (fun y => bind (mapM f t) (fun ys => Ok (y :: ys)))
  end.

(** Points of the plane. *)
Definition pt : Type := (Q * Q)%type.

(** Strict comparison as a boolean ([Qle_bool], [Qeq_bool] are in the library). *)
Definition Qltb (a b : Q) : bool := negb (Qle_bool b a).

(** Sum, length and mean of a list of numbers (np.sum, np.mean). *)
Definition Qsum (l : list Q) : Q := fold_right Qplus 0 l.
Definition Qlen {A : Type} (l : list A) : Q := inject_Z (Z.of_nat (List.length l)).
Definition Qmean (l : list Q) : Q := Qsum l / Qlen l.

(** np.min / np.max of the non-empty list [x :: l]. *)
Definition Qmin_list (x : Q) (l : list Q) : Q := fold_left Qmin l x.
Definition Qmax_list (x : Q) (l : list Q) : Q := fold_left Qmax l x.

(** Python [int(q)] on a finite float: rounding towards zero. *)
Definition Qtrunc (q : Q) : Z := if Qle_bool 0 q then Qfloor q else Qceiling q.

(** Number of elements satisfying a boolean test. *)
Definition count {A : Type} (f : A -> bool) (l : list A) : nat :=
  List.length (filter f l).

Definition Zsum (l : list Z) : Z := fold_right Z.add 0%Z l.

(** [range(n)] for an arbitrary (possibly negative) integer. *)
Definition zrange (n : Z) : list Z := map Z.of_nat (seq 0 (Z.to_nat n)).

(** numpy float64 values that matter here: finite, two infinities, NaN.
    Signed zeros are not distinguished (0/0 = nan, a/0 = sign(a)*inf). *)
Inductive xq : Type := Fin (q : Q) | PInf | NInf | NaN.

Definition xdiv (a b : Q) : xq :=
  if Qeq_bool b 0 then
    (if Qeq_bool a 0 then NaN else if Qltb 0 a then PInf else NInf)
  else Fin (a / b).

(** numpy float floor division [a // b] for finite [a]. *)
Definition xfloordiv (a : Q) (b : xq) : xq :=
  match b with
  | Fin b => if Qeq_bool b 0 then xdiv a 0 else Fin (inject_Z (Qfloor (a / b)))
  | PInf => if Qltb a 0 then Fin (-1) else Fin 0
  | NInf => if Qltb 0 a then Fin (-1) else Fin 0
  | NaN => NaN
  end.

(** Python [int(x)] on a float. *)
Definition xint (x : xq) : res Z :=
  match x with
  | Fin q => Ok (Qtrunc q)
  | PInf | NInf => Raise OverflowError
  | NaN => Raise ValueError
  end.

(** [x == z] for an integer [z] (NaN and infinities are never equal). *)
Definition xeqz (x : xq) (z : Z) : bool :=
  match x with Fin q => Qeq_bool q (inject_Z z) | _ => false end.

(** [x - 1]. *)
Definition xpred (x : xq) : xq :=
  match x with Fin q => Fin (q - 1) | y => y end.

(** Insertion-ordered dictionaries from integers to integers. *)
Definition zdict : Type := list (Z * Z).

Fixpoint dget (d : zdict) (k : Z) : option Z :=
  match d with
  | [] => None
  | (k', v) :: t => if Z.eqb k k' then Some v else dget t k
  end.

(** [d[k] += 1]: KeyError when the key is absent. *)
Fixpoint dincr (d : zdict) (k : Z) : res zdict :=
  match d with
  | [] => Raise KeyError
  | (k', v) :: t =>
      if Z.eqb k k' then Ok ((k', (v + 1)%Z) :: t)
      else bind (dincr t k) (fun t' => Ok ((k', v) :: t'))
  end.

(** [d[k] = v]: overwrite in place or append. *)
Fixpoint dset (d : zdict) (k v : Z) : zdict :=
  match d with
  | [] => [(k, v)]
  | (k', v') :: t => if Z.eqb k k' then (k', v) :: t else (k', v') :: dset t k v
  end.

Definition dkeys (d : zdict) : list Z := map fst d.
Definition dvals (d : zdict) : list Z := map snd d.
