(** Binary64 arithmetic for a few places where rounding decides the result.
    Rounding is Flocq's round-to-nearest-even with gradual underflow (53 bits,
    smallest positive number 2^-1074).  Overflow is not represented: exponents are
    not bounded above. *)
From Coq Require Import Reals ZArith List Bool.
From Flocq Require Import Core.
Local Open Scope R_scope.

Definition fexp64 : Z -> Z := FLT_exp (-1074) 53.
Definition rnd (x : R) : R := round radix2 fexp64 ZnearestE x.
Definition isfloat (x : R) : Prop := generic_format radix2 fexp64 x.

(** C's fmod for a >= 0 and b > 0; it is exact. *)
Definition fmod (a b : R) : R := a - b * IZR (Zfloor (a / b)).
(** numpy's (and Python's) floor division of floats, a >= 0 and b > 0: the quotient
    (a - mod)/b, each operation rounded, is moved to the nearest integer. *)
Definition floordiv (a b : R) : Z :=
  let m := fmod a b in
  let d := rnd (rnd (a - m) / b) in
  let f := Zfloor d in
  if Rlt_dec (1 / 2) (rnd (d - IZR f)) then (f + 1)%Z else f.

(** quadrat_statistics.py 184-200: cell size from the number of cells, and number
    of cells from the cell size, along one axis. *)
Definition cell_size (lo hi : R) (m : Z) : R := rnd (rnd (hi - lo) / IZR m).
Definition cell_number (lo hi w : R) : Z := Zceil (rnd (rnd (hi - lo) / w)).

(** quadrat_statistics.py 214-220: cell index of a coordinate along one axis. *)
Definition cell_index (x lo w : R) (m : Z) : Z :=
  let i := floordiv (rnd (x - lo)) w in
  if Z.eqb i m then (i - 1)%Z else i.

(** random.py 66-120 with quadrat_statistics.py 658: the number of points simulated
    for a pattern of n points in a window of the given area,
    [int((n / area) * area)]. *)
Definition simulated_size (n : Z) (area : R) : Z := Ztrunc (rnd (rnd (IZR n / area) * area)).
