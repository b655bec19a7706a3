(** Model of pointpats/pointpattern.py, window.py and util.py: the PointPattern
    object, its data frame, its memoised attributes and its window. *)
From Coq Require Import ZArith QArith Qabs Qminmax List Bool String DecimalString DecimalNat.
From Verif Require Import Base Quadrat_model.
Import ListNotations.
Local Open Scope Q_scope.

(** ** Windows: window.py *)

(** A window object: a polygon given by its rings, or (because set_window
    accepts anything, pointpattern.py 129-133) a bound method. *)
Inductive window : Type :=
| WPoly (parts : list (list pt))
| WMethod.

(** Signed shoelace sum of a vertex list, without closing edge. *)
Fixpoint shoelace (l : list pt) : Q :=
  match l with
  | a :: ((b :: _) as t) => (fst a * snd b - fst b * snd a) + shoelace t
  | _ => 0
  end.

(** window.py 20-23 [poly_from_bbox]: the closed rectangle ring. *)
Definition bbox_ring (b : box) : list pt :=
  [(bxmin b, bymin b); (bxmin b, bymax b); (bxmax b, bymax b); (bxmax b, bymin b); (bxmin b, bymin b)].

(** window.py 26-29 [to_ccf]: appends the first vertex when the ring is open
    (the list is changed in place; the result is also its new value).
    IndexError for an empty list. Tuples are compared by value. *)
Definition pt_eqb (a b : pt) : bool := Qeq_bool (fst a) (fst b) && Qeq_bool (snd a) (snd b).
Definition to_ccf (poly : list pt) : res (list pt) :=
  match poly with
  | [] => Raise IndexError
  | p0 :: _ => if pt_eqb (last poly p0) p0 then Ok poly else Ok (poly ++ [p0])
  end.

(** window.py 32-76 [as_window] and [Window.__init__] keep the rings; area of a
    libpysal polygon: sum over the rings of the absolute shoelace area (holes
    are not modelled). [None]: AttributeError (not a polygon). *)
Definition ring_area (r : list pt) : Q := Qabs (shoelace r) / 2.
Definition window_area (w : window) : option Q :=
  match w with WPoly parts => Some (Qsum (map ring_area parts)) | WMethod => None end.

(** ** Data frames *)
Inductive cell : Type := CNum (q : Q) | CStr (s : string) | CNaN.

(** Equality used by drop_duplicates: NaN equals NaN. *)
Definition cell_eqb (a b : cell) : bool :=
  match a, b with
  | CNum x, CNum y => Qeq_bool x y
  | CStr x, CStr y => String.eqb x y
  | CNaN, CNaN => true
  | _, _ => false
  end.
(** The operator [==]: NaN differs from everything. *)
Definition cell_py_eqb (a b : cell) : bool :=
  match a, b with CNaN, _ => false | _, _ => cell_eqb a b end.

Definition drow := list cell.
Fixpoint row_eqb (a b : drow) : bool :=
  match a, b with
  | [], [] => true
  | x :: a', y :: b' => cell_eqb x y && row_eqb a' b'
  | _, _ => false
  end.

Record frame : Type := mkframe { f_cols : list string; f_rows : list drow }.

Fixpoint col_index (name : string) (cols : list string) : option nat :=
  match cols with
  | [] => None
  | c :: t => if String.eqb name c then Some O else option_map S (col_index name t)
  end.
Definition get_cell (i : nat) (r : drow) : cell := nth i r CNaN.

(** [df.loc[:, [x, y]]] with numeric columns: KeyError for a missing name,
    TypeError when a coordinate is not a number (simplification: the pandas
    arithmetic would fail later). Column names are taken to be distinct. *)
Definition cell_num (c : cell) : res Q :=
  match c with CNum q => Ok q | _ => Raise TypeError end.
Definition frame_points (f : frame) (x y : string) : res (list pt) :=
  match col_index x (f_cols f), col_index y (f_cols f) with
  | Some i, Some j =>
      mapM (fun r => let! a := cell_num (get_cell i r) in
                     let! b := cell_num (get_cell j r) in Ok (a, b)) (f_rows f)
  | _, _ => Raise KeyError
  end.

(** [df.drop_duplicates()]: the first of equal rows is kept. *)
Fixpoint dedup (seen : list drow) (l : list drow) : list drow :=
  match l with
  | [] => []
  | r :: t => if existsb (row_eqb r) seen then dedup seen t else r :: dedup (r :: seen) t
  end.

(** [df[name] = column]: replaces or appends; ValueError for a wrong length. *)
Fixpoint set_nth {A : Type} (i : nat) (v : A) (l : list A) : list A :=
  match l, i with
  | [], _ => []
  | _ :: t, O => v :: t
  | x :: t, S i' => x :: set_nth i' v t
  end.
Fixpoint zip_with {A B C : Type} (f : A -> B -> C) (a : list A) (b : list B) : list C :=
  match a, b with x :: a', y :: b' => f x y :: zip_with f a' b' | _, _ => [] end.
Definition set_column (f : frame) (name : string) (col : list cell) : res frame :=
  if Nat.eqb (List.length col) (List.length (f_rows f)) then
    match col_index name (f_cols f) with
    | Some i => Ok (mkframe (f_cols f) (zip_with (fun r c => set_nth i c r) (f_rows f) col))
    | None => Ok (mkframe (f_cols f ++ [name]) (zip_with (fun r c => r ++ [c]) (f_rows f) col))
    end
  else Raise ValueError.

(** ** The object *)

(** util.py 5-22 [cached_property]: one memo cell per decorated function. *)
Record cache : Type := mkcache {
  c_mbb : option (option box);      (* inner None: the NaN box of zero rows *)
  c_mbb_area : option xq;
  c_n : option Z;
  c_rot : option xq;
  c_lambda_mbb : option xq;
  c_lambda_window : option xq;
  c_hull : option (list pt);
  c_hull_area : option Q;
  c_lambda_hull : option xq }.
Definition no_cache : cache := mkcache None None None None None None None None None.

Record pattern : Type := mkpattern {
  p_df : frame; p_nmarks : nat; p_coord : list string; p_x : string; p_y : string;
  p_pts : list pt; p_win : option window; p_cache : cache }.

Definition with_cache (s : pattern) (c : cache) : pattern :=
  mkpattern (p_df s) (p_nmarks s) (p_coord s) (p_x s) (p_y s) (p_pts s) (p_win s) c.
Definition with_win (s : pattern) (w : option window) : pattern :=
  mkpattern (p_df s) (p_nmarks s) (p_coord s) (p_x s) (p_y s) (p_pts s) w (p_cache s).

(** *** Memoised attributes, pointpattern.py 216-315 *)

(** 216-222 [_mbb]: column minima and maxima (NaN for zero rows). *)
Definition mbb_of (pts : list pt) : option box :=
  match compute_mbb pts with Ok b => Some b | Raise _ => None end.
Definition read_mbb (s : pattern) : option box * pattern :=
  match c_mbb (p_cache s) with
  | Some b => (b, s)
  | None =>
      let b := mbb_of (p_pts s) in
      let c := p_cache s in
      (b, with_cache s (mkcache (Some b) (c_mbb_area c) (c_n c) (c_rot c) (c_lambda_mbb c)
                          (c_lambda_window c) (c_hull c) (c_hull_area c) (c_lambda_hull c)))
  end.

(** 226-231 [_mbb_area]. *)
Definition mbb_area_of (b : option box) : xq :=
  match b with Some b => Fin ((bxmax b - bxmin b) * (bymax b - bymin b)) | None => NaN end.
Definition read_mbb_area (s : pattern) : xq * pattern :=
  match c_mbb_area (p_cache s) with
  | Some v => (v, s)
  | None =>
      let (b, s) := read_mbb s in
      let v := mbb_area_of b in
      let c := p_cache s in
      (v, with_cache s (mkcache (c_mbb c) (Some v) (c_n c) (c_rot c) (c_lambda_mbb c)
                          (c_lambda_window c) (c_hull c) (c_hull_area c) (c_lambda_hull c)))
  end.

(** 235-239 [_n]. *)
Definition read_n (s : pattern) : Z * pattern :=
  match c_n (p_cache s) with
  | Some v => (v, s)
  | None =>
      let v := Z.of_nat (List.length (p_pts s)) in
      let c := p_cache s in
      (v, with_cache s (mkcache (c_mbb c) (c_mbb_area c) (Some v) (c_rot c) (c_lambda_mbb c)
                          (c_lambda_window c) (c_hull c) (c_hull_area c) (c_lambda_hull c)))
  end.

(** 243-250 [_rot]: a quarter of the smaller side. *)
Definition rot_of (b : option box) : xq :=
  match b with
  | Some b => Fin ((1 # 4) * Qmin (bxmax b - bxmin b) (bymax b - bymin b))
  | None => NaN
  end.
Definition read_rot (s : pattern) : xq * pattern :=
  match c_rot (p_cache s) with
  | Some v => (v, s)
  | None =>
      let (b, s) := read_mbb s in
      let v := rot_of b in
      let c := p_cache s in
      (v, with_cache s (mkcache (c_mbb c) (c_mbb_area c) (c_n c) (Some v) (c_lambda_mbb c)
                          (c_lambda_window c) (c_hull c) (c_hull_area c) (c_lambda_hull c)))
  end.

(** 254-258 [_lambda_mbb]. *)
Definition xdiv_area (n : Z) (a : xq) : xq :=
  match a with Fin a => xdiv (inject_Z n) a | PInf => Fin 0 | NInf => Fin 0 | NaN => NaN end.
Definition read_lambda_mbb (s : pattern) : xq * pattern :=
  match c_lambda_mbb (p_cache s) with
  | Some v => (v, s)
  | None =>
      let (n, s) := read_n s in
      let (a, s) := read_mbb_area s in
      let v := xdiv_area n a in
      let c := p_cache s in
      (v, with_cache s (mkcache (c_mbb c) (c_mbb_area c) (c_n c) (c_rot c) (Some v)
                          (c_lambda_window c) (c_hull c) (c_hull_area c) (c_lambda_hull c)))
  end.

(** 135-144 [get_window]: a missing window is replaced by the bounding box.
    The NaN box of an empty pattern gives a polygon of NaN area; it is represented
    by no ring at all (area 0), so that 0 / area is NaN as well. *)
Definition default_window (b : option box) : window :=
  match b with Some b => WPoly [bbox_ring b] | None => WPoly [] end.
Definition get_window (s : pattern) : window * pattern :=
  match p_win s with
  | Some w => (w, s)
  | None => let (b, s) := read_mbb s in
            let w := default_window b in (w, with_win s (Some w))
  end.

(** 129-133 [set_window]: nothing but the assignment. *)
Definition set_window (s : pattern) (w : option window) : pattern := with_win s w.

(** 270-292 [_lambda_window]: AttributeError when the window has no area.  A zero
    area gives the float64 quotient (inf or NaN); a window built by the user from
    plain Python floats would raise ZeroDivisionError instead. *)
Definition read_lambda_window (s : pattern) : res xq * pattern :=
  match c_lambda_window (p_cache s) with
  | Some v => (Ok v, s)
  | None =>
      let (n, s) := read_n s in
      let (w, s) := get_window s in
      match window_area w with
      | None => (Raise AttributeError, s)
      | Some a =>
          let v := xdiv (inject_Z n) a in
          let c := p_cache s in
          (Ok v, with_cache s (mkcache (c_mbb c) (c_mbb_area c) (c_n c) (c_rot c) (c_lambda_mbb c)
                          (Some v) (c_hull c) (c_hull_area c) (c_lambda_hull c)))
      end
  end.

(** 262-266 [_hull]: the vertices computed by scipy, an arbitrary function. *)
Definition read_hull (hullf : list pt -> list pt) (s : pattern) : list pt * pattern :=
  match c_hull (p_cache s) with
  | Some v => (v, s)
  | None =>
      let v := hullf (p_pts s) in
      let c := p_cache s in
      (v, with_cache s (mkcache (c_mbb c) (c_mbb_area c) (c_n c) (c_rot c) (c_lambda_mbb c)
                          (c_lambda_window c) (Some v) (c_hull_area c) (c_lambda_hull c)))
  end.

(** 296-305 [_hull_area]: the ring is closed if necessary, signed shoelace / 2. *)
Definition close_ring (h : list pt) : list pt :=
  match h with
  | [] => []
  | p0 :: _ => if pt_eqb p0 (last h p0) then h else h ++ [p0]
  end.
Definition hull_area_of (h : list pt) : Q := shoelace (close_ring h) / 2.
Definition read_hull_area (hullf : list pt -> list pt) (s : pattern) : Q * pattern :=
  match c_hull_area (p_cache s) with
  | Some v => (v, s)
  | None =>
      let (h, s) := read_hull hullf s in
      let v := hull_area_of h in
      let c := p_cache s in
      (v, with_cache s (mkcache (c_mbb c) (c_mbb_area c) (c_n c) (c_rot c) (c_lambda_mbb c)
                          (c_lambda_window c) (c_hull c) (Some v) (c_lambda_hull c)))
  end.

(** 309-313 [_lambda_hull]. *)
Definition read_lambda_hull (hullf : list pt -> list pt) (s : pattern) : xq * pattern :=
  match c_lambda_hull (p_cache s) with
  | Some v => (v, s)
  | None =>
      let (n, s) := read_n s in
      let (a, s) := read_hull_area hullf s in
      let v := xdiv (inject_Z n) a in
      let c := p_cache s in
      (v, with_cache s (mkcache (c_mbb c) (c_mbb_area c) (c_n c) (c_rot c) (c_lambda_mbb c)
                          (c_lambda_window c) (c_hull c) (c_hull_area c) (Some v)))
  end.

(** 521-528 [flip_coordinates]. *)
Definition flip (s : pattern) : pattern :=
  mkpattern (p_df s) (p_nmarks s) (p_coord s) (p_y s) (p_x s) (p_pts s) (p_win s) (p_cache s).

(** *** Construction, pointpattern.py 65-93 *)

(** The default name [mark_k]. *)
Definition mark_name (k : nat) : string :=
  ("mark_" ++ NilEmpty.string_of_uint (Nat.to_uint k))%string.

(** [points]: rows of [p] cells each. Result: the object and, when the caller
    gave a [coord_names] list, the contents of that list after the call (it is
    the same object as [col_names] when [names] is None, line 75). *)
Definition pattern_init (p : nat) (rows : list drow) (w : option window)
    (names coord_names : option (list string))
  : res pattern * option (list string) :=
  let coord0 := match coord_names with
                | Some c => c
                | None => match names with Some n => firstn 2 n | None => ["x"; "y"]%string end
                end in
  let '(cols, coord, caller) :=
    match names with
    | None =>
        let cols := coord0 ++ map mark_name (seq 0 (p - 2)) in
        (cols, firstn 2 cols, option_map (fun _ => cols) coord_names)
    | Some n => (n, coord0, coord_names)
    end in
  (match coord with
   | [x; y] =>
       if Nat.eqb (List.length cols) p then
         let f := mkframe cols rows in
         let! pts := frame_points f x y in
         let s := mkpattern f (p - 2) coord x y pts None no_cache in
         Ok (match w with
             | Some _ => set_window s w
             | None => let (b, s) := read_mbb s in set_window s (Some (default_window b))
             end)
       else Raise ValueError
   | _ => Raise ValueError
   end, caller).

(** 114-127 [__contains__]: compares the first two columns. *)
Definition contains_pt (s : pattern) (q : pt) : res bool :=
  match f_cols (p_df s) with
  | _ :: _ :: _ =>
      Ok (existsb (fun r => cell_py_eqb (get_cell 0 r) (CNum (fst q))
                            && cell_py_eqb (get_cell 1 r) (CNum (snd q))) (f_rows (p_df s)))
  | _ => Raise IndexError
  end.

(** 160-166 [add_marks]: [zip(..., strict=True)] raises ValueError only after the
    common prefix has been stored. *)
Definition with_df (s : pattern) (f : frame) (k : nat) : pattern :=
  mkpattern f k (p_coord s) (p_x s) (p_y s) (p_pts s) (p_win s) (p_cache s).
Fixpoint store_marks (s : pattern) (names : list string) (marks : list (list cell))
  : pattern * option exn :=
  match names, marks with
  | [], [] => (s, None)
  | n :: names', m :: marks' =>
      match set_column (p_df s) n m with
      | Raise e => (s, Some e)
      | Ok f => store_marks (with_df s f (p_nmarks s + 1)) names' marks'
      end
  | _, _ => (s, Some ValueError)
  end.
Definition add_marks (s : pattern) (marks : list (list cell)) (names : option (list string))
  : pattern * option exn :=
  let names := match names with
               | Some n => n
               | None => map (fun j => mark_name (p_nmarks s + 1 + j)) (seq 0 (List.length marks))
               end in
  store_marks s names marks.

(** 427-448 [explode]. [np.unique] of a column: sorted distinct values, one NaN
    at the end; TypeError when strings are mixed with numbers or NaN. *)
Definition cell_ltb (a b : cell) : bool :=
  match a, b with
  | CNum x, CNum y => Qltb x y
  | CStr x, CStr y => String.ltb x y
  | _, CNaN => match a with CNaN => false | _ => true end
  | _, _ => false
  end.
Fixpoint insert_cell (c : cell) (l : list cell) : list cell :=
  match l with
  | [] => [c]
  | d :: t => if cell_eqb c d then l else if cell_ltb c d then c :: l else d :: insert_cell c t
  end.
Definition sorted_distinct (l : list cell) : list cell := fold_right insert_cell [] l.
Definition is_str (c : cell) : bool := match c with CStr _ => true | _ => false end.
Definition np_unique (l : list cell) : res (list cell) :=
  if forallb is_str l || forallb (fun c => negb (is_str c)) l then Ok (sorted_distinct l)
  else Raise TypeError.
(** The sub-frames; each is handed to the constructor with the same names. *)
Definition explode_rows (f : frame) (mark : string) : res (list (cell * list drow)) :=
  match col_index mark (f_cols f) with
  | None => Raise KeyError
  | Some i =>
      let! uv := np_unique (map (get_cell i) (f_rows f)) in
      Ok (map (fun v => (v, filter (fun r => cell_py_eqb (get_cell i r) v) (f_rows f))) uv)
  end.
Definition explode (s : pattern) (mark : string) : res (list pattern) :=
  let! g := explode_rows (p_df s) mark in
  mapM (fun vr => fst (pattern_init (List.length (f_cols (p_df s))) (snd vr) None
                         (Some (f_cols (p_df s))) (Some (p_coord s)))) g.

(** 450-478 [unique]: the bound method set_window is passed as the window. *)
Definition unique (s : pattern) : res pattern :=
  fst (pattern_init (List.length (f_cols (p_df s))) (dedup [] (f_rows (p_df s))) (Some WMethod)
         (Some (f_cols (p_df s))) (Some (p_coord s))).

(** 480-519 [superimpose]. *)
Definition strings_eqb (a b : list string) : bool :=
  if list_eq_dec string_dec a b then true else false.
Definition superimpose (s1 s2 : pattern) : res pattern :=
  if strings_eqb (f_cols (p_df s1)) (f_cols (p_df s2)) && strings_eqb (p_coord s1) (p_coord s2)
  then fst (pattern_init (List.length (f_cols (p_df s1)))
              (dedup [] (f_rows (p_df s1) ++ f_rows (p_df s2))) None
              (Some (f_cols (p_df s1))) (Some (p_coord s1)))
  else Raise TypeError.

(** 322-343 [knn]: the first column of the k+1 nearest-neighbour query is
    dropped.  [query m i] is the answer of the tree to the m-nearest query for
    point i; distances are represented by their squares. *)
Definition knn (query : nat -> nat -> list (Q * nat)) (n : nat) (k : Z) : res (list (list (Q * nat))) :=
  if (k <? 1)%Z then Raise ValueError
  else Ok (map (fun i => skipn 1 (query (Z.to_nat k + 1)%nat i)) (seq 0 n)).
