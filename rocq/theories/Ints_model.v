(** Arithmetic on numpy arrays of machine integers: the functions of pointpats that
    multiply coordinates or times before they become floats.
    centrography.py 581-585 (std_distance) and 834-839 (dtot), geometry.py 58-65 (area
    of a bounding box), spacetime.py 260-268 (knox).
    numpy arithmetic on an integer type keeps the last [width] bits.  Results of
    divisions and square roots are real numbers; their rounding is not modelled. *)
From Coq Require Import ZArith Reals List Bool.
From Verif Require Import CenterR_model.
Import ListNotations.

Record itype : Type := mkint { signed : bool; width : Z }.
Definition int32 : itype := mkint true 32.
Definition int16 : itype := mkint true 16.
Definition int64 : itype := mkint true 64.
Definition uint8 : itype := mkint false 8.
Definition uint16 : itype := mkint false 16.

Local Open Scope Z_scope.
Definition wrap (t : itype) (z : Z) : Z :=
  if signed t then (z + 2 ^ (width t - 1)) mod 2 ^ width t - 2 ^ (width t - 1) else z mod 2 ^ width t.
Definition isub (t : itype) (a b : Z) : Z := wrap t (a - b).
Definition iadd (t : itype) (a b : Z) : Z := wrap t (a + b).
Definition imul (t : itype) (a b : Z) : Z := wrap t (a * b).
(** numpy.abs; the least signed number is its own absolute value. *)
Definition iabs (t : itype) (a : Z) : Z := wrap t (Z.abs a).
(** sum(axis=0): short integers are added in the 64-bit type of the same sign. *)
Definition wide (t : itype) : itype := mkint (signed t) (Z.max (width t) 64).
Definition isum (t : itype) (l : list Z) : Z := fold_right (iadd (wide t)) 0 l.

Notation ipt := (Z * Z)%type.

(** std_distance, 581-585; None stands for NaN. mean(axis=0) adds in float64. *)
Definition std_distance_int (t : itype) (pts : list ipt) : option R :=
  match pts with
  | [] => None
  | _ =>
    let n := INR (List.length pts) in
    let mx := (Rsum (map (fun p : ipt => IZR (fst p)) pts) / n)%R in
    let my := (Rsum (map (fun p : ipt => IZR (snd p)) pts) / n)%R in
    let sx := IZR (isum t (map (fun p => imul t (fst p) (fst p)) pts)) in
    let sy := IZR (isum t (map (fun p => imul t (snd p) (snd p)) pts)) in
    let v := ((sx / n - mx * mx) + (sy / n - my * my))%R in
    if Rlt_dec v 0 then None else Some (sqrt v)
  end.

(** dtot, 834-839, for a place and points of the same type. *)
Definition dtot_terms (t : itype) (c : ipt) (pts : list ipt) : list Z :=
  map (fun p => let xd := isub t (fst p) (fst c) in let yd := isub t (snd p) (snd c) in
                iadd t (imul t xd xd) (imul t yd yd)) pts.
Definition dtot_int (t : itype) (c : ipt) (pts : list ipt) : option R :=
  let l := dtot_terms t c pts in
  if existsb (fun z => z <? 0) l then None else Some (Rsum (map (fun z => sqrt (IZR z)) l)).

(** area of a bounding box, geometry.py 58-65. *)
Definition area_int (t : itype) (xmin ymin xmax ymax : Z) : Z :=
  let width := isub t xmax xmin in let height := isub t ymax ymin in iabs t (imul t width height).

(** knox, spacetime.py 260-268: the number of pairs of [ids] close in time. *)
Definition knox_int (t : itype) (times : list Z) (ids : list (nat * nat)) (tau : Z) : nat :=
  List.length (filter (fun ij => let d := isub t (nth (fst ij) times 0) (nth (snd ij) times 0) in imul t d d <=? tau * tau) ids).
