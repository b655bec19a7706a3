(** The loop of minimum_bounding_circle on binary64: centrography.py 1015-1054
    (_skyum_lists, the loop used without numba) and its helpers 1104-1175. *)
From Coq Require Import ZArith List Bool.
From Flocq Require Import BinarySingleNaN.
From Verif Require Import Base F64_model K64_model L64_model Sample64_model Area64_model.
Import ListNotations.

Definition half_pi : f64 := fdiv pi64 (fint 2).
(** The literal 1e-5. *)
Definition tiny64 : f64 := fdyadic 5902958103587057 (-69).
Definition fnan (x : f64) : bool := match x with B754_nan => true | _ => false end.

Section Mbc64.
(** The arccos of the mathematical library and the dot product of the linear algebra
    library, whose last bits depend on the machine. *)
Variables (arccos : f64 -> f64) (dot : fpt -> fpt -> f64).

(** [np.linalg.norm] of a vector: the root of its product with itself. *)
Definition norm64 (v : fpt) : f64 := fsqrt (dot v v).
(** 1104-1112 [_angle]. *)
Definition angle64 (p q r : fpt) : f64 :=
  let pq := (fsub (fst p) (fst q), fsub (snd p) (snd q)) in
  let rq := (fsub (fst r) (fst q), fsub (snd r) (snd q)) in
  let magnitudes := fmul (norm64 pq) (norm64 rq) in
  fabs (arccos (fdiv (dot pq rq) magnitudes)).
(** 1137-1139 [_euclidean_distance], the distance of K64_model; squares are rounded correctly. *)
Definition distance64 (px py qx qy : f64) : f64 := dist64 (px, py) (qx, qy).
Definition pow2 (x : f64) : f64 := fmul x x.
(** 1163-1174: the circumscribed circle. The coordinates are Python floats
    ([tolist], 1016), for which division by zero raises. *)
Definition circum64 (p q r : fpt) : res (f64 * f64 * f64) :=
  let (px, py) := p in let (qx, qy) := q in let (rx, ry) := r in
  let d := fmul (fint 2) (fadd (fadd (fmul px (fsub qy ry)) (fmul qx (fsub ry py))) (fmul rx (fsub py qy))) in
  if feq d (fint 0) then Raise ZeroDivisionError
  else
    let cx := fdiv (fadd (fadd (fmul (fadd (pow2 px) (pow2 py)) (fsub qy ry)) (fmul (fadd (pow2 qx) (pow2 qy)) (fsub ry py)))
                         (fmul (fadd (pow2 rx) (pow2 ry)) (fsub py qy))) d in
    let cy := fdiv (fadd (fadd (fmul (fadd (pow2 px) (pow2 py)) (fsub rx qx)) (fmul (fadd (pow2 qx) (pow2 qy)) (fsub px rx)))
                         (fmul (fadd (pow2 rx) (pow2 ry)) (fsub qx px))) d in
    Ok (distance64 cx cy px py, cx, cy).
(** 1142-1175 [_circle]: (radius, center_x, center_y). *)
Definition circle64 (p q r : fpt) : res (f64 * f64 * f64) :=
  let (px, py) := p in let (qx, qy) := q in let (rx, ry) := r in
  let a := fabs (angle64 p q r) in
  if flt (fabs (fsub a pi64)) tiny64 then
    Ok (fdiv (distance64 px py rx ry) (fint 2), fdiv (fadd px rx) (fint 2), fdiv (fadd py ry) (fint 2))
  else if flt (fabs a) tiny64 then
    Ok (fdiv (distance64 px py qx qy) (fint 2), fdiv (fadd px qx) (fint 2), fdiv (fadd py qy) (fint 2))
  else circum64 p q r.

(** [list.index] (1119, 1130): points are equal as lists of floats. *)
Definition same64 (p q : fpt) : bool := feq (fst p) (fst q) && feq (snd p) (snd q).
Fixpoint index64 (p : fpt) (l : list fpt) : nat :=
  match l with
  | [] => 0%nat
  | q :: t => if same64 q p then 0%nat else S (index64 p t)
  end.
(** 1115-1134 [_prec] and [_succ]. *)
Definition prec64 (p : fpt) (l : list fpt) : fpt :=
  let pos := index64 p l in if Nat.eqb pos 0 then last l p else nth (pos - 1) l p.
Definition succ64 (p : fpt) (l : list fpt) : fpt :=
  let pos := index64 p l in if Nat.leb (length l) (pos + 1) then hd p l else nth (pos + 1) l p.

(** [np.lexsort((angles, radii))[-1]] (1037-1038): numpy sorts NaN after all
    numbers, and equal keys stay in order. *)
Definition before64 (a b : f64) : bool := flt a b || (fnan b && negb (fnan a)).
Definition lex_before (a b : f64 * f64) : bool :=
  before64 (fst a) (fst b) || (negb (before64 (fst b) (fst a)) && before64 (snd a) (snd b)).
Fixpoint lex_last64 (best : nat) (key : f64 * f64) (i : nat) (keys : list (f64 * f64)) : nat :=
  match keys with
  | [] => best
  | k :: t => if lex_before k key then lex_last64 best key (S i) t else lex_last64 i k (S i) t
  end.
Definition lexmax64 (keys : list (f64 * f64)) : nat :=
  match keys with
  | [] => 0%nat
  | k :: t => lex_last64 0 k 1 t
  end.

(** A list comprehension of calls that may raise. *)
Fixpoint all_ok {A B} (f : A -> res B) (l : list A) : res (list B) :=
  match l with
  | [] => Ok []
  | x :: t => let! y := f x in let! r := all_ok f t in Ok (y :: r)
  end.
Definition remove_at (i : nat) (l : list fpt) : list fpt := firstn i l ++ skipn (S i) l.

(** 1015-1054 [_skyum_lists]: the circle, the points left, the points removed and the
    candidate. None: more than [fuel] rounds. *)
Fixpoint skyum64 (fuel : nat) (points removed : list fpt)
    : option (res (f64 * f64 * f64 * list fpt * list fpt * (fpt * fpt * fpt))) :=
  match fuel with
  | O => None
  | S fuel =>
    let triples := map (fun p => (prec64 p points, p, succ64 p points)) points in
    let angles := map (fun t => let '(p, q, r) := t in angle64 p q r) triples in
    match all_ok (fun t => let '(p, q, r) := t in circle64 p q r) triples with
    | Raise e => Some (Raise e)
    | Ok circles =>
      let radii := map (fun c => fst (fst c)) circles in
      match points with
      | [] => Some (Raise IndexError)
      | p0 :: _ =>
        let lexmax := lexmax64 (combine radii angles) in
        let q := nth lexmax points p0 in
        let candidate := (prec64 q points, q, succ64 q points) in
        if fle (nth lexmax angles (fint 0)) half_pi then
          match circle64 (prec64 q points) q (succ64 q points) with
          | Raise e => Some (Raise e)
          | Ok c => Some (Ok (c, points, removed, candidate))
          end
        else skyum64 fuel (remove_at lexmax points) (removed ++ [q])
      end
    end
  end.
(** The loop with as many rounds as it takes at most. *)
Definition skyum_lists64 (points : list fpt) := skyum64 (S (length points)) points [].

(** 986-1004 [minimum_bounding_circle] of an array when numba is not installed: the
    centre and the radius. scipy's hull and libpysal's [is_clockwise] are arguments.
    None: more rounds than the loop takes (C147: never). *)
Definition mbc64 (hull : list fpt -> list fpt) (is_clockwise : list fpt -> bool) (points : list fpt)
    : option (res (fpt * f64)) :=
  let run := fun points =>
    match skyum_lists64 points with
    | None => None
    | Some (Raise e) => Some (Raise e)
    | Some (Ok (rho, cx, cy, _, _, _)) => Some (Ok ((cx, cy), rho))
    end in
  let points := hull points in
  if negb (is_clockwise points) then
    let points := rev points in
    if negb (is_clockwise points) then Some (Raise PlainException) else run points
  else run points.
End Mbc64.
