(** Model of the plots of pointpats/quadrat_statistics.py: the cells and texts
    drawn by RectangleM.plot, HexagonM.plot and QStatistic.plot, and the outline of
    the window. *)
From Coq Require Import ZArith QArith List Bool.
From Verif Require Import Base Quadrat_model QStat_model.
Import ListNotations.
Local Open Scope Q_scope.

(** The [show] argument: "counts", "chi2" or any other value. *)
Inductive show_arg : Type := ShowCounts | ShowChi2 | ShowOther.
(** A text: a count or a chi-square contribution (rounded to two digits when
    drawn; the rounding is not modelled). *)
Inductive label : Type := LCount (k : Z) | LValue (v : xq).

(** The corners of a cell, counter-clockwise. *)
Definition box_corners (c : box) : list pt :=
  [(bxmax c, bymin c); (bxmax c, bymax c); (bxmin c, bymax c); (bxmin c, bymin c)].

(** quadrat_statistics.py 238-245 and 423-441 [_iter_cells]: id, polygon, centre.
    Cells of a size that is not finite cannot be built (ValueError here); the
    counting that precedes the drawing has failed before in that case. *)
Definition manager_cells (m : manager) : res (list (Z * list pt * pt)) :=
  match m with
  | MRect r => match rm_w r, rm_h r with
               | Fin w, Fin h => Ok (map (fun c => (fst (fst c), box_corners (snd (fst c)), snd c)) (rect_iter_cells r w h))
               | _, _ => Raise ValueError
               end
  | MHex h => let! d := hex_location_sta h in
              Ok (map (fun id => (id, hex_vertices h (hex_center h id), hex_center h id)) (dkeys d))
  end.

(** What is on the axes: the polygons, the texts with their positions; and the
    returned cell ids. *)
Record drawing : Type := mkdraw { dr_patches : list (list pt); dr_texts : list (pt * label); dr_ids : list Z }.

(** [dict_id_count.get(cell_id, 0)]. *)
Definition dget0 (d : zdict) (k : Z) : Z := match dget d k with Some v => v | None => 0%Z end.

(** quadrat_statistics.py 247-300 [RectangleM.plot] and 443-496 [HexagonM.plot]. *)
Definition manager_plot (m : manager) (show : show_arg) (contrib : option (list xq)) : res drawing :=
  let! d := manager_sta m in
  let! cells := manager_cells m in
  let patches := map (fun c => snd (fst c)) cells in
  let centres := map snd cells in
  let ids := map (fun c => fst (fst c)) cells in
  match show with
  | ShowCounts => Ok (mkdraw patches (combine centres (map (fun k => LCount (dget0 d k)) ids)) ids)
  | ShowChi2 =>
      match contrib with
      | None => Raise ValueError
      | Some v => if Nat.eqb (List.length v) (List.length ids)
                  then Ok (mkdraw patches (combine centres (map LValue v)) ids)
                  else Raise ValueError
      end
  | ShowOther => Raise ValueError
  end.

(** [dict(zip(ids, values)).get(k, nan)]: the last value stored for a key. *)
Fixpoint assoc_last (l : list (Z * xq)) (k : Z) (dflt : xq) : xq :=
  match l with
  | [] => dflt
  | (k', v) :: t => assoc_last t k (if Z.eqb k k' then v else dflt)
  end.

(** quadrat_statistics.py 687-705 [QStatistic.plot]; [zip(strict=True)] of lists of
    different lengths raises ValueError. *)
Definition qstat_plot (m : manager) (cell_ids : list Z) (chi2_contrib : list xq) (show : show_arg) : res drawing :=
  match show with
  | ShowCounts => manager_plot m ShowCounts None
  | ShowChi2 =>
      let! first := manager_plot m ShowCounts None in
      if Nat.eqb (List.length cell_ids) (List.length chi2_contrib) then
        manager_plot m ShowChi2 (Some (map (fun k => assoc_last (combine cell_ids chi2_contrib) k NaN) (dr_ids first)))
      else Raise ValueError
  | ShowOther => Raise ValueError
  end.

(** A shapely geometry as far as [_window_to_paths] looks at it. *)
Definition ring : Type := list pt.
Inductive geom : Type :=
| GPolygon (exterior : ring) (interiors : list ring)
| GMulti (l : list geom)        (* MultiPolygon or any object with [geoms] *)
| GOther.                       (* points, lines, anything without [geoms] *)

(** quadrat_statistics.py 130-152 [_window_to_paths]. *)
Fixpoint window_to_paths (w : geom) : list ring :=
  match w with
  | GPolygon e l => e :: l
  | GMulti l => flat_map window_to_paths l
  | GOther => []
  end.
Definition window_paths (w : option geom) : list ring :=
  match w with None => [] | Some g => window_to_paths g end.
