(** Model of pointpats/centrography.py: minimum_bounding_circle and its helpers
    (array version). Real numbers stand for float64. *)
From Coq Require Import Reals Ratan List Bool Arith.
From Verif Require Import Base CenterR_model.
Import ListNotations.
Local Open Scope R_scope.

(** centrography.py 1137-1139 [_euclidean_distance]. *)
Definition euclidean_distance (px py qx qy : R) : R := sqrt ((px - qx) ^ 2 + (py - qy) ^ 2).
Definition norm (x y : R) : R := sqrt (x ^ 2 + y ^ 2).

(** centrography.py 1104-1112 [_angle]. The points are distinct in every call on
    a convex hull with at least two vertices; for equal points numpy gives NaN,
    here some number. *)
Definition angle (p q r : rpt) : R :=
  let pqx := fst p - fst q in let pqy := snd p - snd q in
  let rqx := fst r - fst q in let rqy := snd r - snd q in
  let magnitudes := norm pqx pqy * norm rqx rqy in
  Rabs (acos ((pqx * rqx + pqy * rqy) / magnitudes)).

(** centrography.py 1142-1175 [_circle]: (radius, center_x, center_y). *)
Definition tiny : R := / 100000.
Definition circle (p q r : rpt) : R * R * R :=
  let (px, py) := p in let (qx, qy) := q in let (rx, ry) := r in
  let a := Rabs (angle p q r) in
  if Rlt_dec (Rabs (a - PI)) tiny then
    (euclidean_distance px py rx ry / 2, (px + rx) / 2, (py + ry) / 2)
  else if Rlt_dec (Rabs a) tiny then
    (euclidean_distance px py qx qy / 2, (px + qx) / 2, (py + qy) / 2)
  else
    let d := 2 * (px * (qy - ry) + qx * (ry - py) + rx * (py - qy)) in
    let cx := ((px ^ 2 + py ^ 2) * (qy - ry) + (qx ^ 2 + qy ^ 2) * (ry - py) + (rx ^ 2 + ry ^ 2) * (py - qy)) / d in
    let cy := ((px ^ 2 + py ^ 2) * (rx - qx) + (qx ^ 2 + qy ^ 2) * (px - rx) + (rx ^ 2 + ry ^ 2) * (qx - px)) / d in
    (euclidean_distance cx cy px py, cx, cy).

(** [list.index] for points given as lists of floats. *)
Definition rpt_eqb (p q : rpt) : bool :=
  if Req_EM_T (fst p) (fst q) then if Req_EM_T (snd p) (snd q) then true else false else false.
Fixpoint index (p : rpt) (l : list rpt) : nat :=
  match l with
  | [] => 0%nat
  | q :: t => if rpt_eqb q p then 0%nat else S (index p t)
  end.
(** centrography.py 1115-1134 [_prec] and [_succ]. *)
Definition prec (p : rpt) (l : list rpt) : rpt :=
  let pos := index p l in if Nat.eqb pos 0 then last l p else nth (pos - 1) l p.
Definition succ (p : rpt) (l : list rpt) : rpt :=
  let pos := index p l in if Nat.leb (length l) (pos + 1) then hd p l else nth (pos + 1) l p.

(** The triple around position [i]: by value in [_skyum_lists] (1020-1035), by
    position in [_skyum_iteration] (1076-1081). *)
Definition triple : Type := (rpt * rpt * rpt)%type.
Definition o : rpt := (0, 0).
Definition triple_lists (l : list rpt) (i : nat) : triple :=
  let p := nth i l o in (prec p l, p, succ p l).
Definition triple_numba (l : list rpt) (i : nat) : triple :=
  let n := length l in (nth ((i + n - 1) mod n) l o, nth (i mod n) l o, nth ((i + 1) mod n) l o).
Definition angle3 (t : triple) : R := angle (fst (fst t)) (snd (fst t)) (snd t).
Definition circle3 (t : triple) : R * R * R := circle (fst (fst t)) (snd (fst t)) (snd t).
Definition radius (c : R * R * R) : R := fst (fst c).

(** [np.lexsort((angles, radii))[-1]] (1037-1038): the last of the positions with
    the largest radius and, among these, the largest angle. *)
Definition lex_le (a b : R * R) : bool :=
  if Rlt_dec (fst a) (fst b) then true
  else if Req_EM_T (fst a) (fst b) then (if Rle_dec (snd a) (snd b) then true else false) else false.
Fixpoint lex_last (best : nat) (key : R * R) (i : nat) (keys : list (R * R)) : nat :=
  match keys with
  | [] => best
  | k :: t => if lex_le key k then lex_last i k (S i) t else lex_last best key (S i) t
  end.
Definition pick_lists (keys : list (R * R)) : nat :=
  match keys with
  | [] => 0%nat
  | k :: t => lex_last 0 k 1 t
  end.
(** [argmax]: the first largest value. *)
Fixpoint argmax_from (best : nat) (v : R) (i : nat) (l : list R) : nat :=
  match l with
  | [] => best
  | x :: t => if Rlt_dec v x then argmax_from i x (S i) t else argmax_from best v (S i) t
  end.
Definition argmax (l : list R) : nat :=
  match l with
  | [] => 0%nat
  | x :: t => argmax_from 0 x 1 t
  end.
(** centrography.py 1084-1087: the largest radius, then the first largest value
    of [angles * (radii == radius_max)]. *)
Definition pick_numba (keys : list (R * R)) : nat :=
  let radii := map fst keys in
  let radius_max := nth (argmax radii) radii 0 in
  argmax (map (fun k => if Req_EM_T (fst k) radius_max then snd k else 0) keys).

Definition delete (i : nat) (l : list rpt) : list rpt := firstn i l ++ skipn (S i) l.

(** centrography.py 1015-1054 [_skyum_lists], 1062-1095 [_skyum_numba] and
    [_skyum_iteration]. The result is the circle, the remaining points, the
    removed points in order and the triple. None: the loop needs more than
    [fuel] rounds (C22: it does not). [empty] is what an empty list raises:
    [lexord[-1]] an IndexError, [argmax] of numba a ValueError. One point: its
    angle is NaN, and [_circle] divides by zero, on Python floats a
    ZeroDivisionError. (Numba divides by zero in the same way, but its fastmath
    leaves the comparisons with NaN open: no theorem is about that case.) *)
Fixpoint skyum (empty : exn) (triple_at : list rpt -> nat -> triple) (pick : list (R * R) -> nat)
    (fuel : nat) (points removed : list rpt) : option (res (R * R * R * list rpt * list rpt * triple)) :=
  match fuel with
  | O => None
  | S fuel =>
    match points with
    | [] => Some (Raise empty)
    | [_] => Some (Raise ZeroDivisionError)
    | _ =>
      let triples := map (triple_at points) (seq 0 (length points)) in
      let keys := map (fun t => (radius (circle3 t), angle3 t)) triples in
      let lexmax := pick keys in
      let candidate := nth lexmax triples (o, o, o) in
      if Rle_dec (angle3 candidate) (PI / 2) then
        Some (Ok (circle3 candidate, points, removed, candidate))
      else skyum empty triple_at pick fuel (delete lexmax points) (removed ++ [nth lexmax points o])
    end
  end.
Definition skyum_lists := skyum IndexError triple_lists pick_lists.
Definition skyum_numba := skyum ValueError triple_numba pick_numba.

(** libpysal's [is_clockwise]: twice the signed area of the ring is negative;
    true for fewer than three vertices. *)
Definition cross (p q : rpt) : R := fst p * snd q - snd p * fst q.
Fixpoint path_area (l : list rpt) : R :=
  match l with
  | p :: (q :: _) as t => cross p q + path_area t
  | _ => 0
  end.
Definition is_clockwise (l : list rpt) : bool :=
  match l with
  | p :: _ :: _ :: _ => if Rlt_dec (path_area l + cross (last l p) p) 0 then true else false
  | _ => true
  end.

(** centrography.py 988-1005 [minimum_bounding_circle]: ((x, y), radius). The
    convex hull (scipy) is an argument; [numba] tells which loop is used. *)
Definition minimum_bounding_circle (numba : bool) (hull : list rpt -> list rpt) (points : list rpt)
    : option (res (rpt * R)) :=
  let points := hull points in
  let run := fun points : list rpt =>
    match (if numba then skyum_numba else skyum_lists) (length points) points [] with
    | None => None
    | Some (Raise e) => Some (Raise e)
    | Some (Ok (r, cx, cy, _, _, _)) => Some (Ok ((cx, cy), r))
    end in
  if is_clockwise points then run points
  else if is_clockwise (rev points) then run (rev points)
  else Some (Raise PlainException).
