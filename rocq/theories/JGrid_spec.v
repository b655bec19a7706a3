(** Specification of J on the grids of its two parts. *)
From Coq Require Import ZArith QArith Qabs List Bool String.
From Verif Require Import Base Quadrat_model Geometry_model DistStats_model.
Import ListNotations.
Local Open Scope Q_scope.

(** The value at x of the polygon through the points (nth j xs, nth j ys): between two
    grid values on the straight line, not a number if an end is not one; on a grid value
    the ordinate there. *)
Definition on_polygon (xs : list Q) (ys : list xq) (x : Q) (v : xq) : Prop :=
  exists j, (j < List.length xs)%nat /\
    ((x == nth j xs 0 /\ v = nth j ys NaN) \/
     ((S j < List.length xs)%nat /\ nth j xs 0 < x < nth (S j) xs 0 /\
      match nth j ys NaN, nth (S j) ys NaN with
      | Fin y0, Fin y1 => exists q, v = Fin q /\
          (q - y0) * (nth (S j) xs 0 - nth j xs 0) == (y1 - y0) * (x - nth j xs 0)
      | _, _ => v = NaN
      end)).

(** n equally spaced values from 0 to top. *)
Definition even_grid (top : Q) (n : nat) (e : list Q) : Prop :=
  List.length e = n /\ forall i, (i < n)%nat ->
    nth i e 0 * inject_Z (Z.of_nat (n - 1)) == inject_Z (Z.of_nat i) * top.

(** Tops that numpy.allclose takes for the same, relative to the second. *)
Definition near (b a : Q) : Prop := Qabs (b - a) <= (1 # 100000000) + (1 # 100000) * a.

(** The number of steps of a support argument that is a step count. *)
Definition step_count (s : support_arg) : option Z :=
  match s with SupNone => Some 20%Z | SupInt n => Some n | _ => None end.
(** Given distances are taken to be Euclidean. *)
Definition metric_used (m : metric) (d : dist_arg) : metric :=
  if is_none d then m else MName "euclidean".
