(** Specifications for spread measures of a point pattern. *)
From Coq Require Import Reals List.
From Verif Require Import Base CenterR_model.
Import ListNotations.
Local Open Scope R_scope.

(** Arithmetic mean of a quantity over a list. *)
Definition mean_of {A : Type} (f : A -> R) (l : list A) : R := Rsum (map f l) / INR (length l).
Definition rshift (d p : rpt) : rpt := (fst p + fst d, snd p + snd d).
Definition rscale (k : R) (p : rpt) : rpt := (k * fst p, k * snd p).
(** Euclidean distance. *)
Definition rdist (p q : rpt) : R := sqrt ((fst p - fst q) ^ 2 + (snd p - snd q) ^ 2).

(** Weighted mean of a quantity over weighted points. *)
Definition wmean (f : rpt -> R) (wpts : list (R * rpt)) : R :=
  Rsum (map (fun wp => fst wp * f (snd wp)) wpts) / Rsum (map fst wpts).
(** Weighted variance of the points in the direction with angle [phi]
    (counter-clockwise from the x axis): the weighted mean of the squared
    coordinate, along that direction, relative to the weighted mean centre. *)
Definition along (phi : R) (p : rpt) : R := fst p * cos phi + snd p * sin phi.
Definition variance_along (phi : R) (wpts : list (R * rpt)) : R :=
  wmean (fun p => (along phi p - wmean (along phi) wpts) ^ 2) wpts.
