(** What is assumed of the libraries behind minimum_bounding_circle, and discs. *)
From Coq Require Import Reals ZArith List.
From Flocq Require Import Core BinarySingleNaN.
From Verif Require Import F64_model F64_proofs.
Import ListNotations.
Local Open Scope R_scope.

(** arccos is accurate from -1 to 1 and NaN elsewhere. *)
Definition ArccosOk (arccos : f64 -> f64) : Prop :=
  (forall x, fin x -> -1 <= V x <= 1 -> fin (arccos x) /\ Rabs (V (arccos x) - acos (V x)) <= bpow radix2 (-40)) /\
  (forall x, fin x -> V x < -1 \/ 1 < V x -> arccos x = B754_nan) /\ arccos B754_nan = B754_nan.
(** Dot products are exact for small integers, accurate for squares, and the signs of
    zeros and of both vectors do not matter. *)
Definition DotOk (dot : fpt -> fpt -> f64) : Prop :=
  (forall a b c d i j k l, fin a -> fin b -> fin c -> fin d -> V a = IZR i -> V b = IZR j -> V c = IZR k -> V d = IZR l ->
     (Z.abs i <= 2 ^ 20)%Z -> (Z.abs j <= 2 ^ 20)%Z -> (Z.abs k <= 2 ^ 20)%Z -> (Z.abs l <= 2 ^ 20)%Z ->
     fin (dot (a, b) (c, d)) /\ V (dot (a, b) (c, d)) = IZR (i * k + j * l)) /\
  (forall a b, fin a -> fin b -> Rabs (V a) <= bpow radix2 400 -> Rabs (V b) <= bpow radix2 400 -> bpow radix2 (-900) <= V a * V a + V b * V b ->
     fin (dot (a, b) (a, b)) /\ Rabs (V (dot (a, b) (a, b)) - (V a * V a + V b * V b)) <= bpow radix2 (-50) * (V a * V a + V b * V b)) /\
  (forall a b c d, fin a -> fin b -> fin c -> fin d -> V c = - V a -> V d = - V b -> V (dot (c, d) (c, d)) = V (dot (a, b) (a, b))).

(** [is_clockwise] is right for triangles with small integer coordinates. *)
Definition ClockwiseOk (is_clockwise : list fpt -> bool) : Prop :=
  forall a b c d e f, (Z.abs a <= 2 ^ 20)%Z -> (Z.abs b <= 2 ^ 20)%Z -> (Z.abs c <= 2 ^ 20)%Z -> (Z.abs d <= 2 ^ 20)%Z -> (Z.abs e <= 2 ^ 20)%Z -> (Z.abs f <= 2 ^ 20)%Z ->
  is_clockwise [(fint a, fint b); (fint c, fint d); (fint e, fint f)] = ((a * d - b * c) + (c * f - d * e) + (e * b - f * a) <? 0)%Z.

(** A finite point, and the points that a disc covers. *)
Definition fin_pt (p : fpt) : Prop := fin (fst p) /\ fin (snd p).
Definition small_pt (p : fpt) : Prop := fin_pt p /\ Rabs (V (fst p)) <= bpow radix2 399 /\ Rabs (V (snd p)) <= bpow radix2 399.
Definition dist2 (p q : fpt) : R := (V (fst p) - V (fst q)) ^ 2 + (V (snd p) - V (snd q)) ^ 2.
Definition covers (cx cy rho : R) (l : list fpt) : Prop :=
  Forall (fun p => (V (fst p) - cx) ^ 2 + (V (snd p) - cy) ^ 2 <= rho ^ 2) l.
