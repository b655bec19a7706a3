(** Model of pointpats/quadrat_statistics.py (rectangular part, hexagonal part,
    chi-square statistic).  Numbers are exact rationals; numpy's inf/nan appear
    only where a division by zero can produce them. *)
From Coq Require Import ZArith QArith Qround Qminmax List Bool.
From Verif Require Import Base.
Import ListNotations.
Local Open Scope Q_scope.

(** Bounding boxes [xmin, ymin, xmax, ymax]. *)
Record box : Type := mkbox { bxmin : Q; bymin : Q; bxmax : Q; bymax : Q }.

(** quadrat_statistics.py 80-85 [_compute_mbb] (and the emptiness check of
    [_as_points_array], 75-76; np.min of an empty array also raises ValueError). *)
Definition compute_mbb (pts : list pt) : res box :=
  match pts with
  | [] => Raise ValueError
  | p :: l =>
      Ok (mkbox (Qmin_list (fst p) (map fst l)) (Qmin_list (snd p) (map snd l))
                (Qmax_list (fst p) (map fst l)) (Qmax_list (snd p) (map snd l)))
  end.

(** * RectangleM *)

(** Attributes set by RectangleM.__init__ (185-203). The window is not used by
    the counting code and is left out. *)
Record rectM : Type := mkrect {
  rm_points : list pt; rm_mbb : box;
  rm_cols : Z; rm_rows : Z; rm_w : xq; rm_h : xq; rm_num : Z }.

(** quadrat_statistics.py 176-203 [RectangleM.__init__]. *)
Definition rect_init (pts : list pt) (count_column count_row : Z)
    (rectangle_width rectangle_height : Q) : res rectM :=
  let! b := compute_mbb pts in
  let x_range := bxmax b - bxmin b in
  let y_range := bymax b - bymin b in
  if negb (Qeq_bool rectangle_width 0) && negb (Qeq_bool rectangle_height 0) then
    let c := Qceiling (x_range / rectangle_width) in
    let r := Qceiling (y_range / rectangle_height) in
    Ok (mkrect pts b c r (Fin rectangle_width) (Fin rectangle_height) (c * r))
  else
    Ok (mkrect pts b count_column count_row
          (xdiv x_range (inject_Z count_column)) (xdiv y_range (inject_Z count_row))
          (count_column * count_row)).

(** quadrat_statistics.py 206-210: the keys of [dict_id_count]. *)
Definition rect_keys (r : rectM) : list Z :=
  flat_map (fun i => map (fun j => (j + i * rm_cols r)%Z) (zrange (rm_cols r)))
           (zrange (rm_rows r)).

(** quadrat_statistics.py 214, 217-218 (and 215, 219-220): index of a coordinate. *)
Definition rect_index (x lo : Q) (w : xq) (m : Z) : xq :=
  let i := xfloordiv (x - lo) w in
  if xeqz i m then xpred i else i.

(** quadrat_statistics.py 222: the id of the cell of a point. *)
Definition rect_cell_id (r : rectM) (p : pt) : res Z :=
  let ix := rect_index (fst p) (bxmin (rm_mbb r)) (rm_w r) (rm_cols r) in
  let iy := rect_index (snd p) (bymin (rm_mbb r)) (rm_h r) (rm_rows r) in
  let! jy := xint iy in
  let! jx := xint ix in
  Ok (jy * rm_cols r + jx)%Z.

(** quadrat_statistics.py 205-225 [RectangleM.point_location_sta]. *)
Definition rect_location_sta (r : rectM) : res zdict :=
  foldM (fun d p => bind (rect_cell_id r p) (fun k => dincr d k))
        (rm_points r) (map (fun k => (k, 0%Z)) (rect_keys r)).

(** quadrat_statistics.py 227-232 [_rect_cell_bounds], for a finite cell size. *)
Definition rect_cell_bounds (b : box) (w h : Q) (ix iy : Z) : box :=
  let x0 := bxmin b + inject_Z ix * w in
  let y0 := bymin b + inject_Z iy * h in
  mkbox x0 y0 (x0 + w) (y0 + h).

(** quadrat_statistics.py 164-165 [_cell_center_from_bounds]. *)
Definition cell_center (c : box) : pt :=
  ((1 # 2) * (bxmin c + bxmax c), (1 # 2) * (bymin c + bymax c)).

(** quadrat_statistics.py 238-245 [RectangleM._iter_cells], for a finite cell size. *)
Definition rect_iter_cells (r : rectM) (w h : Q) : list (Z * box * pt) :=
  flat_map (fun iy => map (fun ix =>
      let c := rect_cell_bounds (rm_mbb r) w h ix iy in
      ((ix + iy * rm_cols r)%Z, c, cell_center c)) (zrange (rm_cols r)))
    (zrange (rm_rows r)).

(** * HexagonM *)

(** Attributes set by HexagonM.__init__ (311-335).  [hx_sh] is the value the
    code computes as [h_length * cos(pi/6)]; here it is an arbitrary parameter
    (a binary64 number, hence rational). *)
Record hexM : Type := mkhex {
  hx_points : list pt; hx_mbb : box; hx_l : Q; hx_sh : Q;
  hx_cols : Z; hx_even : Z; hx_odd : Z; hx_num : Z }.

(** quadrat_statistics.py 311-335 [HexagonM.__init__].  [lh = 0] makes Python
    raise ZeroDivisionError/produce nan; the model is used for [lh, sh > 0]. *)
Definition hex_init (pts : list pt) (lh sh : Q) : res hexM :=
  let! b := compute_mbb pts in
  let range_x := bxmax b - bxmin b in
  let range_y := bymax b - bymin b in
  let cols := (1 + (if Qltb (lh / 2) range_x
                    then Qceiling ((range_x - lh / 2) / ((3 # 2) * lh)) else 0))%Z in
  let even := (1 + (if Qltb sh range_y
                    then Qceiling ((range_y - sh) / (2 * sh)) else 0))%Z in
  let odd := Qceiling (range_y / (2 * sh)) in
  let num := (odd * (cols / 2 + cols mod 2) + even * (cols / 2))%Z in
  Ok (mkhex pts b lh sh cols even odd num).

(** quadrat_statistics.py 341-349: the keys of [dict_id_count]. *)
Definition hex_keys (h : hexM) : list Z :=
  flat_map (fun i =>
    map (fun j => (j + i * hx_cols h)%Z)
      (filter (fun j => negb (negb (hx_even h =? hx_odd h)%Z
                              && (i =? hx_even h - 1)%Z && (j mod 2 =? 1)%Z))
              (zrange (hx_cols h))))
    (zrange (hx_even h)).

(** quadrat_statistics.py 354-403: column and row index of the hexagon of a
    point. [semi] is [semi_cell_length]. *)
Definition hex_cell (h : hexM) (p : pt) : Z * Z :=
  let semi := hx_l h / 2 in
  let sh := hx_sh h in
  let x_min := bxmin (hx_mbb h) in
  let y_min := bymin (hx_mbb h) in
  let deg := Qfloor ((fst p - x_min) / semi) in
  let y_even := Qtrunc ((snd p + sh - y_min) / (2 * sh)) in
  let y_odd := Qtrunc ((snd p - y_min) / (2 * sh)) in
  if negb (deg mod 3 =? 1)%Z then
    let cx := ((deg + 1) / 3)%Z in
    (cx, if (cx mod 2 =? 0)%Z then y_even else y_odd)
  else
    let cx := (deg / 3)%Z in
    let center_x := inject_Z cx * semi * 3 + x_min in
    let cy := if (cx mod 2 =? 0)%Z then y_even else y_odd in
    let center_y := if (cx mod 2 =? 0)%Z
                    then inject_Z cy * 2 * sh + y_min
                    else (inject_Z cy * 2 + 1) * sh + y_min in
    let indicator :=
      if Qltb center_y (snd p) then
        let x0 := center_x + hx_l h in let y0 := center_y in
        let x1 := center_x + semi in let y1 := center_y + sh in
        - (snd p - ((y0 - y1) / (x0 - x1) * fst p + (x0 * y1 - x1 * y0) / (x0 - x1)))
      else
        let x0 := center_x + semi in let y0 := center_y - sh in
        let x1 := center_x + hx_l h in let y1 := center_y in
        snd p - ((y0 - y1) / (x0 - x1) * fst p + (x0 * y1 - x1 * y0) / (x0 - x1)) in
    if Qle_bool indicator 0 then
      let cx' := (cx + 1)%Z in
      (cx', if (cx' mod 2 =? 0)%Z then y_even else y_odd)
    else (cx, cy).

(** quadrat_statistics.py 367, 403: the key of a point. *)
Definition hex_cell_id (h : hexM) (p : pt) : Z :=
  (fst (hex_cell h p) + snd (hex_cell h p) * hx_cols h)%Z.

(** quadrat_statistics.py 337-405 [HexagonM.point_location_sta]. *)
Definition hex_location_sta (h : hexM) : res zdict :=
  foldM (fun d p => dincr d (hex_cell_id h p))
        (hx_points h) (map (fun k => (k, 0%Z)) (hex_keys h)).

(** quadrat_statistics.py 430-436: centre of the hexagon drawn for a cell id. *)
Definition hex_center (h : hexM) (cell_id : Z) : pt :=
  let ix := (cell_id mod hx_cols h)%Z in
  let iy := (cell_id / hx_cols h)%Z in
  (inject_Z ix * hx_l h / 2 * 3 + bxmin (hx_mbb h),
   if (ix mod 2 =? 1)%Z then (inject_Z iy * 2 + 1) * hx_sh h + bymin (hx_mbb h)
   else inject_Z iy * hx_sh h * 2 + bymin (hx_mbb h)).

(** quadrat_statistics.py 407-421 [_hex_vertices], without the closing vertex
    that [_iter_cells] removes again (439). *)
Definition hex_vertices (h : hexM) (c : pt) : list pt :=
  let sh := hx_sh h in let lh := hx_l h in
  [ (fst c + lh, snd c); (fst c + lh / 2, snd c + sh); (fst c - lh / 2, snd c + sh);
    (fst c - lh, snd c); (fst c - lh / 2, snd c - sh); (fst c + lh / 2, snd c - sh) ].

(** * QStatistic *)

(** scipy.stats.chisquare with default expected frequencies (the mean):
    the statistic. 0/0 gives nan. *)
Definition chisquare (obs : list Q) : xq :=
  match obs with
  | [] => NaN
  | _ => let e := Qmean obs in
         if Qeq_bool e 0 then NaN
         else Fin (Qsum (map (fun o => (o - e) * (o - e) / e) obs))
  end.

(** quadrat_statistics.py 647-651: per-cell contributions. *)
Definition chi2_contrib (obs : list Q) : list xq :=
  match obs with
  | [] => []
  | _ => let e := Qmean obs in
         if Qltb 0 e then map (fun o => Fin ((o - e) * (o - e) / e)) obs
         else map (fun _ => NaN) obs
  end.

(** quadrat_statistics.py 645: degrees of freedom. *)
Definition chi2_df (obs : list Q) : Z := (Z.of_nat (length obs) - 1)%Z.

(** [a >= b] on numpy floats (comparisons with nan are false). *)
Definition xgeb (a b : xq) : bool :=
  match a, b with
  | Fin x, Fin y => Qle_bool y x
  | PInf, Fin _ | PInf, PInf | PInf, NInf | Fin _, NInf | NInf, NInf => true
  | _, _ => false
  end.

(** quadrat_statistics.py 683-685: Monte Carlo p-value. *)
Definition mc_pvalue (sims : list xq) (obs : xq) (realizations : Z) : Q :=
  (inject_Z (Z.of_nat (count (fun s => xgeb s obs) sims)) + 1) / (inject_Z realizations + 1).
