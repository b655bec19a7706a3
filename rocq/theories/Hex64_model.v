(** Model of HexagonM in pointpats/quadrat_statistics.py on binary64, for float64
    point arrays.  [cos6] is the float [math.cos(math.pi / 6.0)]. *)
From Coq Require Import ZArith List Bool.
From Flocq Require Import Core BinarySingleNaN.
From Verif Require Import Base F64_model.
Import ListNotations.
Local Open Scope Z_scope.

Definition fle : f64 -> f64 -> bool := @Bleb 53 1024.
Definition f2 : f64 := fint 2.
Definition f3 : f64 := fint 3.
Definition f1_5 : f64 := fdyadic 3 (-1).
Definition f0_5 : f64 := fdyadic 1 (-1).

(** The integers below and toward zero of a finite float: floor, ceil and int.  An
    infinite argument raises OverflowError, NaN ValueError. *)
Definition to_Z (div : Z -> Z -> Z) (x : f64) : res Z :=
  match x with
  | B754_zero _ => Ok 0
  | B754_infinity _ => Raise OverflowError
  | B754_nan => Raise ValueError
  | B754_finite s m e _ =>
      let z := if s then Zneg m else Zpos m in
      Ok (if 0 <=? e then z * 2 ^ e else div z (2 ^ (- e)))
  end.
Definition py_int : f64 -> res Z := to_Z Z.quot.
Definition py_ceil : f64 -> res Z := to_Z (fun a b => - ((- a) / b)).
Definition py_floor : f64 -> res Z := to_Z Z.div.

(** C's fmod (exact; the sign of a zero result is not represented). *)
Definition fmod64 (a b : f64) : f64 :=
  match a, b with
  | B754_nan, _ | _, B754_nan | B754_infinity _, _ | _, B754_zero _ => B754_nan
  | B754_zero _, _ | _, B754_infinity _ => a
  | B754_finite sa ma ea _, B754_finite _ mb eb _ =>
      let e := Z.min ea eb in
      let za := (if sa then Zneg ma else Zpos ma) * 2 ^ (ea - e) in
      fdyadic (Z.rem za (Zpos mb * 2 ^ (eb - e))) e
  end.
(** numpy's floor_divide of two floats: a/b for b = 0, otherwise the quotient
    (a - fmod(a, b)) / b, less 1 if the remainder has the other sign, moved to the
    nearest integer. *)
Definition floordiv64 (a b : f64) : f64 :=
  match b with
  | B754_zero _ => fdiv a b
  | _ =>
      let m := fmod64 a b in
      let d := fdiv (fsub a m) b in
      let d := if (flt m (fint 0) && flt (fint 0) b) || (flt (fint 0) m && flt b (fint 0)) then fsub d (fint 1) else d in
      match py_floor d with
      | Raise _ => d
      | Ok z => let f := fint z in if flt f0_5 (fsub d f) then fadd f (fint 1) else f
      end
  end.

(** numpy's minimum and maximum of a column (NaN if there is one). *)
Definition fmin2 (x y : f64) : f64 := match x, y with B754_nan, _ | _, B754_nan => B754_nan | _, _ => if flt y x then y else x end.
Definition fmax2 (x y : f64) : f64 := match x, y with B754_nan, _ | _, B754_nan => B754_nan | _, _ => if flt x y then y else x end.
Definition fminimum (l : list f64) : f64 := match l with [] => B754_nan | x :: t => fold_left fmin2 t x end.
Definition fmaximum (l : list f64) : f64 := match l with [] => B754_nan | x :: t => fold_left fmax2 t x end.

(** Attributes of HexagonM. *)
Record hex64 : Type := mkhex64 {
  h6_points : list fpt; h6_xmin : f64; h6_ymin : f64; h6_l : f64; h6_sh : f64;
  h6_cols : Z; h6_even : Z; h6_odd : Z }.

(** quadrat_statistics.py 310-335 [HexagonM.__init__]; [num] is left out. *)
Definition hex64_init (cos6 : f64) (pts : list fpt) (lh : f64) : res hex64 :=
  match pts with
  | [] => Raise ValueError
  | _ =>
    let xmin := fminimum (map fst pts) in
    let ymin := fminimum (map snd pts) in
    let range_x := fsub (fmaximum (map fst pts)) xmin in
    let range_y := fsub (fmaximum (map snd pts)) ymin in
    let half := fdiv lh f2 in
    let! cols := if flt half range_x then let! t := py_ceil (fdiv (fsub range_x half) (fmul f1_5 lh)) in Ok (1 + t) else Ok 1 in
    let sh := fmul lh cos6 in
    let! even := if flt sh range_y then let! t := py_ceil (fdiv (fsub range_y sh) (fmul f2 sh)) in Ok (1 + t) else Ok 1 in
    let! odd := py_ceil (fdiv range_y (fmul f2 sh)) in
    Ok (mkhex64 pts xmin ymin lh sh cols even odd)
  end.

(** quadrat_statistics.py 341-349: the keys of [dict_id_count]. *)
Definition hex64_keys (h : hex64) : list Z :=
  flat_map (fun i =>
    map (fun j => j + i * h6_cols h)
      (filter (fun j => negb (negb (h6_even h =? h6_odd h) && (i =? h6_even h - 1) && (j mod 2 =? 1)))
              (zrange (h6_cols h))))
    (zrange (h6_even h)).

(** quadrat_statistics.py 376-396: the indicator of the side of the slanted edge. *)
Definition indicator64 (h : hex64) (p : fpt) (center_x center_y : f64) : f64 :=
  let semi := fdiv (h6_l h) f2 in
  let line x0 y0 x1 y1 :=
    fadd (fmul (fdiv (fsub y0 y1) (fsub x0 x1)) (fst p))
         (fdiv (fsub (fmul x0 y1) (fmul x1 y0)) (fsub x0 x1)) in
  if flt center_y (snd p) then
    @Bopp 53 1024 (fsub (snd p) (line (fadd center_x (h6_l h)) center_y (fadd center_x semi) (fadd center_y (h6_sh h))))
  else
    fsub (snd p) (line (fadd center_x semi) (fsub center_y (h6_sh h)) (fadd center_x (h6_l h)) center_y).

(** quadrat_statistics.py 354-403: column and row of a point.  [intercept_degree_x] is
    an integer; a float that is not finite fails in [int(...)] with ValueError. *)
Definition hex64_cell (h : hex64) (p : fpt) : res (Z * Z) :=
  let semi := fdiv (h6_l h) f2 in
  let sh := h6_sh h in
  let deg := floordiv64 (fsub (fst p) (h6_xmin h)) semi in
  let! y_even := py_int (fdiv (fsub (fadd (snd p) sh) (h6_ymin h)) (fmul f2 sh)) in
  let! y_odd := py_int (fdiv (fsub (snd p) (h6_ymin h)) (fmul f2 sh)) in
  let! deg := match py_floor deg with Ok z => Ok z | Raise _ => Raise ValueError end in
  let row cx := if cx mod 2 =? 0 then y_even else y_odd in
  if negb (deg mod 3 =? 1) then
    let cx := (deg + 1) / 3 in Ok (cx, row cx)
  else
    let cx := deg / 3 in
    let center_x := fadd (fmul (fmul (fint cx) semi) f3) (h6_xmin h) in
    let center_y := if cx mod 2 =? 0
                    then fadd (fmul (fmul (fint (row cx)) f2) sh) (h6_ymin h)
                    else fadd (fmul (fadd (fmul (fint (row cx)) f2) (fint 1)) sh) (h6_ymin h) in
    if fle (indicator64 h p center_x center_y) (fint 0) then Ok (cx + 1, row (cx + 1)) else Ok (cx, row cx).

(** quadrat_statistics.py 367 and 403: the key of a point. *)
Definition hex64_cell_id (h : hex64) (p : fpt) : res Z :=
  let! c := hex64_cell h p in Ok (fst c + snd c * h6_cols h).

(** quadrat_statistics.py 337-405 [HexagonM.point_location_sta]. *)
Definition hex64_location_sta (h : hex64) : res zdict :=
  foldM (fun d p => let! k := hex64_cell_id h p in dincr d k)
        (h6_points h) (map (fun k => (k, 0)) (hex64_keys h)).
