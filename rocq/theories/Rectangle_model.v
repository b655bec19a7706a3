(** Model of minimum_rotated_rectangle in centrography.py over the reals. *)
From Coq Require Import Reals Ratan List Bool ZArith.
From Flocq Require Import Core.
From Verif Require Import Base Float_model.
Import ListNotations.
Local Open Scope R_scope.

Definition rpoint : Type := (R * R)%type.
(** math.atan2; the sign of zero is not represented. *)
Definition atan2 (y x : R) : R :=
  if Rlt_dec 0 x then atan (y / x)
  else if Rlt_dec x 0 then (if Rlt_dec y 0 then atan (y / x) - PI else atan (y / x) + PI)
  else if Rlt_dec 0 y then PI / 2 else if Rlt_dec y 0 then - (PI / 2) else 0.
(** math.degrees *)
Definition degrees (a : R) : R := a * 180 / PI.
(** Python's [a % b] for b > 0 without rounding. *)
Definition rmod (a b : R) : R := a - b * IZR (Zfloor (a / b)).

(** centrography.py 199-209, _get_mrr_angle: indexing a list of corners. *)
Definition mrr_angle (out : list rpoint) : res R :=
  match out with
  | p0 :: p1 :: _ => Ok (rmod (degrees (atan2 (snd p1 - snd p0) (fst p1 - fst p0))) 90)
  | _ => Raise IndexError
  end.

(** centrography.py 212-221 (arrays).  [coords] is
    shapely.get_coordinates(shapely.minimum_rotated_rectangle(...)): the closed ring of
    a rectangle, the two ends of a segment for collinear points, one point otherwise. *)
Definition rotated_rectangle (coords : list rpoint) (return_angle : bool) : res (list rpoint * option R) :=
  let out := removelast coords in
  if return_angle then let! a := mrr_angle out in Ok (rev out, Some a) else Ok (rev out, None).
(** 224-233 (GeoPandas objects): the geometry itself and the angle. *)
Definition rotated_rectangle_geo (coords : list rpoint) (return_angle : bool) : res (list rpoint * option R) :=
  if return_angle then let! a := mrr_angle (removelast coords) in Ok (coords, Some a) else Ok (coords, None).

(** [d % 90] on binary64: fmod is exact, the correction of a negative remainder is rounded. *)
Definition mod90_float (d : R) : R :=
  let m := d - 90 * IZR (Ztrunc (d / 90)) in
  if Rlt_dec m 0 then rnd (m + 90) else m.
