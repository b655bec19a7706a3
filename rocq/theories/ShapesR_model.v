(** Model of std_distance, dtot and ellipse of pointpats/centrography.py on
    array-likes of any shape; see [Shapes_model]. Real numbers stand for
    float64. *)
From Coq Require Import Reals Ratan List Bool String Arith.
From Verif Require Import Base CenterR_model Shapes_model.
Import ListNotations.
Local Open Scope R_scope.

(** centrography.py 581-585 [std_distance]: the shape must have two entries;
    the sum is over all columns. None stands for NaN (no points). *)
Definition col_var (l : list R) : R :=
  let n := INR (List.length l) in
  let m := Rsum l / n in
  Rsum (map (fun x => x * x) l) / n - m * m.
Definition std_distance_arr (a : arr R) : res (option R) :=
  match a with
  | A2 k [] => Ok None
  | A2 k rows => Ok (Some (sqrt (Rsum (per_column 0 col_var k rows))))
  | _ => Raise ValueError
  end.

(** [points[:, 0]] and [points[:, 1]]. *)
Definition xy_columns (a : arr R) : res (list rpt) :=
  match a with
  | A2 k rows => if Nat.leb 2 k then Ok (map (fun r => (nth 0 r 0, nth 1 r 0)) rows) else Raise IndexError
  | _ => Raise IndexError
  end.

(** 834-839 [dtot]; [coord] is an array of at most one dimension. *)
Definition coord_xy (c : arr R) : res rpt :=
  match c with
  | A1 (x :: y :: _) => Ok (x, y)
  | _ => Raise IndexError
  end.
Definition dtot_arr (c : arr R) (a : arr R) : res R :=
  let! pts := xy_columns a in
  let! c := coord_xy c in
  Ok (dtot c pts).

(** 827-832: the version is chosen by the type of [coord] alone. A sequence:
    both arguments become arrays. An array: [points] is used as it is, and
    [points[:, 0]] of a Python sequence or number raises TypeError. *)
Definition dtot_call (c : arr R + seqarg R) (p : arr R + seqarg R) : res R :=
  match c, p with
  | inl c, inl a => dtot_arr c a
  | inl _, inr _ => Raise TypeError
  | inr s, inl a => let! c := asarray s in dtot_arr c a
  | inr s, inr t => let! c := asarray s in let! a := asarray t in dtot_arr c a
  end.

(** 671-742 [ellipse]: [method.lower()] - AttributeError for None - and the
    check of the method come first, then the two columns. *)
Definition ellipse_arr (weights : option (list R)) (method : option string) (cs df : bool) (a : arr R)
    : res (xr * xr * R) :=
  match method with
  | None => Raise AttributeError
  | Some m =>
      if negb (String.eqb (lower m) "crimestat" || String.eqb (lower m) "yuill") then Raise ValueError
      else let! pts := xy_columns a in ellipse pts weights m cs df
  end.

(** 664-668: through [np.asarray]. *)
Definition ellipse_seq (weights : option (list R)) (method : option string) (cs df : bool) (s : seqarg R) :=
  via_asarray (ellipse_arr weights method cs df) s.
