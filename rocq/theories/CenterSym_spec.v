(** Specifications: similarities of the plane. *)
From Coq Require Import Reals List Permutation.
From Verif Require Import Base CenterR_model CenterR_spec.
Import ListNotations.
Local Open Scope R_scope.

(** A change of coordinates that keeps shapes: turned by the angle [s_turn], scaled by
    [s_scale], shifted, and reflected first if [s_flip]. *)
Record similarity : Type := mksim { s_scale : R; s_turn : R; s_flip : bool; s_shift : rpt }.
Definition flip_sign (s : similarity) : R := (if s_flip s then -1 else 1).
Definition similar (s : similarity) (p : rpt) : rpt :=
  let x := fst p in let y := (flip_sign s * snd p) in
  (s_scale s * (x * cos (s_turn s) - y * sin (s_turn s)) + fst (s_shift s),
   s_scale s * (x * sin (s_turn s) + y * cos (s_turn s)) + snd (s_shift s)).

(** Weighted points listed in another order, with weights in another unit. *)
Definition similar_weighted (c : R) (s : similarity) (wpts wpts' : list (R * rpt)) : Prop :=
  Permutation (map (fun wp => (c * fst wp, similar s (snd wp))) wpts) wpts'.
