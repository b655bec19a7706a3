(** Model of j as called (pointpats/distance_statistics.py 290-378): the grids on which
    F and G come back and scipy's interp1d, which is applied when they differ. *)
From Coq Require Import ZArith QArith Qabs Qminmax List Bool String.
From Verif Require Import Base Quadrat_model Geometry_model Random_model DistStats_model Ripley_model.
Import ListNotations.
Local Open Scope Q_scope.

(** The straight line through (x0, y0) and (x1, y1) at x; NaN when an end is not a
    number (infinite values of F or G do not occur). *)
Definition line_at (x0 x1 : Q) (y0 y1 : xq) (x : Q) : xq :=
  match y0, y1 with
  | Fin a, Fin b => Fin ((b - a) / (x1 - x0) * (x - x0) + a)
  | _, _ => NaN
  end.
(** numpy.interp on a sorted grid: the last grid value at or below x decides; on a grid
    value the given ordinate itself is returned. *)
Fixpoint interp_at (xs : list Q) (ys : list xq) (x : Q) : xq :=
  match xs, ys with
  | x0 :: ((x1 :: _) as xt), y0 :: ((y1 :: _) as yt) =>
      if Qle_bool x1 x then interp_at xt yt x
      else if Qeq_bool x x0 then y0 else line_at x0 x1 y0 y1 x
  | _, y0 :: _ => y0
  | _, [] => NaN
  end.
(** interp1d(xs, ys, fill_value=1)(at): bounds_error is left at its default, so a value
    outside the grid raises ValueError and the fill value is never used. *)
Definition out_of_range (xs at_ : list Q) : bool :=
  match xs with
  | [] => negb (Nat.eqb (List.length at_) 0)
  | x0 :: _ => existsb (fun x => Qltb x x0 || Qltb (last xs x0) x) at_
  end.

Section J.
Variable query : metric -> list pt -> pt -> nat -> row.
Variable shape : list pt -> hullres -> hull.

(** Lines 354-361 fail when an interpolation is asked for outside its grid. *)
Definition grid_error (arr : option (list Q)) (fsup gsup : list Q) : bool :=
  let '(g, bad) :=
    match arr with
    | Some s => if allclose gsup s then (gsup, false) else (s, out_of_range gsup s)
    | None => (gsup, false)
    end in
  bad || (negb (allclose g fsup) && out_of_range fsup g).

(** 290-378 [j]. *)
Definition j_call (coords : list pt) (s : support_arg) (gd fd : dist_arg) (m : metric) (h : hullarg)
    (edge truncate : bool) (us : list Q) : run (list Q * list xq) :=
  rbind (f_fun query shape coords s fd m h edge us) (fun fs us =>
  rbind (lift (g_fun query coords s gd m edge) us) (fun gs us =>
    let arr := match s with SupArr l => Some l | _ => None end in
    if grid_error arr (fst fs) (fst gs) then Exc ValueError
    else Val (j_stat arr fs gs (fun xs ys at_ => map (interp_at xs ys) at_) truncate) us)).
End J.
