(** Binary64 arithmetic with overflow and NaN (Flocq's model of IEEE 754), and the
    functions of centrography.py that average columns on it. *)
From Coq Require Import ZArith List Bool.
From Flocq Require Import Core BinarySingleNaN.
Import ListNotations.

Definition f64 : Type := binary_float 53 1024.
Definition fadd : f64 -> f64 -> f64 := @Bplus 53 1024 eq_refl eq_refl mode_NE.
Definition fsub : f64 -> f64 -> f64 := @Bminus 53 1024 eq_refl eq_refl mode_NE.
Definition fmul : f64 -> f64 -> f64 := @Bmult 53 1024 eq_refl eq_refl mode_NE.
Definition fdiv : f64 -> f64 -> f64 := @Bdiv 53 1024 eq_refl eq_refl mode_NE.
Definition fsqrt : f64 -> f64 := @Bsqrt 53 1024 eq_refl eq_refl mode_NE.
(** The float nearest to m 2^e, and the float of an integer. *)
Definition fdyadic (m e : Z) : f64 := @binary_normalize 53 1024 eq_refl eq_refl mode_NE m e false.
Definition fint (z : Z) : f64 := fdyadic z 0.
Definition flt : f64 -> f64 -> bool := @Bltb 53 1024.

Notation fpt := (f64 * f64)%type.

(** numpy's [sum(axis=0)] of an array in row order: the rows are added from the
    first to the last; zero for no rows. *)
Definition fsum (l : list f64) : f64 :=
  match l with
  | [] => fint 0
  | x :: t => fold_left fadd t x
  end.
(** numpy's [mean(axis=0)]: the sum over the number of rows. *)
Definition fmean (l : list f64) : f64 := fdiv (fsum l) (fint (Z.of_nat (length l))).

(** centrography.py 369-371 [mean_center]. *)
Definition mean_center64 (pts : list fpt) : fpt := (fmean (map fst pts), fmean (map snd pts)).

(** centrography.py 581-585 [std_distance]: first the number under the root. *)
Definition variance64 (l : list f64) : f64 :=
  let m := fmean l in
  fsub (fdiv (fsum (map (fun x => fmul x x) l)) (fint (Z.of_nat (length l)))) (fmul m m).
Definition radicand64 (pts : list fpt) : f64 := fadd (variance64 (map fst pts)) (variance64 (map snd pts)).
Definition std_distance64 (pts : list fpt) : f64 := fsqrt (radicand64 pts).
