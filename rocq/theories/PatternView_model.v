(** Model of what a point pattern shows: [__len__], [summary] and [plot] of
    pointpattern.py, and the bound data-frame methods of [_facade]. *)
From Coq Require Import ZArith QArith List Bool String.
From Verif Require Import Base Quadrat_model Pattern_model.
Import ListNotations.
Local Open Scope Q_scope.

(** pointpattern.py 95-112 [__len__]: the number of rows of the data frame. *)
Definition pattern_len (s : pattern) : nat := List.length (f_rows (p_df s)).

(** 530-532 [_facade]: [head] is bound to the data frame, which is changed in place
    by add_marks and never replaced; [head()] returns the first five rows under the
    current column names. *)
Definition frame_head (f : frame) : frame := mkframe (f_cols f) (firstn 5 (f_rows f)).

(** One call of [print]. The text around the values is not modelled. *)
Inductive line : Type :=
| LTitle                          (* Point Pattern *)
| LPoints (n : Z)                 (* {n} points *)
| LBox (b : option box)           (* Bounding rectangle [({},{}), ({},{})] *)
| LArea (a : Q)                   (* Area of window: {} *)
| LIntensity (v : xq)             (* Intensity estimate for window: {} *)
| LHead (f : frame).              (* the data frame *)

(** 148-158 [summary]: the lines printed, the exception that ended the call if any,
    and the object afterwards. (For a pattern without points the area of the default
    window is NaN; the model has an empty polygon of area 0 there, Pattern_model.v
    [default_window].) *)
Definition summary (s : pattern) : list line * option exn * pattern :=
  let (n, s) := read_n s in
  let (b, s) := read_mbb s in
  let (w, s) := get_window s in
  match window_area w with
  | None => ([LTitle; LPoints n; LBox b], Some AttributeError, s)
  | Some a =>
      match read_lambda_window s with
      | (Raise e, s) => ([LTitle; LPoints n; LBox b; LArea a], Some e, s)
      | (Ok v, s) =>
          ([LTitle; LPoints n; LBox b; LArea a; LIntensity v; LHead (frame_head (p_df s))], None, s)
      end
  end.

(** What is on the axes: the title, the plotted series and the outlines of every
    patch collection added, in order. Colours and line widths are not modelled. *)
Record figure : Type := mkfig {
  fg_title : string; fg_x : list cell; fg_y : list cell;
  fg_patches : list (list (list pt)); fg_equal : bool }.

(** [self.df[name]]. *)
Definition frame_column (f : frame) (name : string) : res (list cell) :=
  match col_index name (f_cols f) with
  | Some i => Ok (map (get_cell i) (f_rows f))
  | None => Raise KeyError
  end.

(** [self.window.parts]: AttributeError when the window is not a polygon. *)
Definition window_parts (w : window) : res (list (list pt)) :=
  match w with WPoly parts => Ok parts | WMethod => Raise AttributeError end.

(** 168-214 [plot]: what is drawn (also when the call fails half-way), the value
    returned ([true]: the axes, [false]: None) and the object afterwards.
    scipy's hull is a total function here, as in [read_hull]. *)
Definition plot (hullf : list pt -> list pt) (window : bool) (title : string) (hull get_ax : bool)
    (s : pattern) : figure * res bool * pattern :=
  match frame_column (p_df s) (p_x s), frame_column (p_df s) (p_y s) with
  | Raise e, _ => (mkfig "" [] [] [] false, Raise e, s)
  | Ok _, Raise e => (mkfig "" [] [] [] false, Raise e, s)
  | Ok xs, Ok ys =>
      (* 195-202: one collection with a polygon for each part *)
      let (outline, s) :=
        if window then
          let (w, s) := get_window s in
          (let! parts := window_parts w in Ok [parts], s)
        else (Ok [], s) in
      match outline with
      | Raise e => (mkfig title xs ys [] false, Raise e, s)
      | Ok ws =>
          (* 203-209: one collection with the hull *)
          let (hs, s) := if hull then let (h, s) := read_hull hullf s in ([[h]], s) else ([], s) in
          (mkfig title xs ys (ws ++ hs) true, Ok get_ax, s)
      end
  end.
