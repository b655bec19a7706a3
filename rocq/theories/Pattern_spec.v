(** Specifications for point patterns. *)
From Coq Require Import ZArith QArith List Bool String Sorted Permutation.
From Verif Require Import Base Quadrat_model Pattern_model.
Import ListNotations.
Local Open Scope Q_scope.

(** ** Boxes *)
Definition covers (b : box) (p : pt) : Prop :=
  (bxmin b <= fst p <= bxmax b) /\ (bymin b <= snd p <= bymax b).
(** The tight bounding box: covers the points, every side is touched. *)
Definition tight_box (b : box) (pts : list pt) : Prop :=
  (forall p, In p pts -> covers b p) /\
  (exists p, In p pts /\ fst p == bxmin b) /\ (exists p, In p pts /\ fst p == bxmax b) /\
  (exists p, In p pts /\ snd p == bymin b) /\ (exists p, In p pts /\ snd p == bymax b).
Definition box_inside (b c : box) : Prop :=
  bxmin c <= bxmin b /\ bymin c <= bymin b /\ bxmax b <= bxmax c /\ bymax b <= bymax c.

(** Equality of extended numbers. *)
Definition xsame (a b : xq) : Prop :=
  match a, b with
  | Fin x, Fin y => x == y
  | PInf, PInf | NInf, NInf | NaN, NaN => True
  | _, _ => False
  end.

(** ** Equality of cells and rows by value *)
Definition cell_same (a b : cell) : Prop :=
  match a, b with
  | CNum x, CNum y => x == y
  | CStr x, CStr y => x = y
  | CNaN, CNaN => True
  | _, _ => False
  end.
Definition row_same : drow -> drow -> Prop := Forall2 cell_same.
(** Membership up to equality of values. *)
Definition has_row (l : list drow) (r : drow) : Prop := exists r', In r' l /\ row_same r r'.
Definition same_rows (l l' : list drow) : Prop := forall r, has_row l r <-> has_row l' r.
(** No two positions hold equal rows. *)
Definition no_dups : list drow -> Prop := ForallOrdPairs (fun a b => ~ row_same a b).

(** Subsequences: some elements, in the original order. *)
Inductive subseq {A : Type} : list A -> list A -> Prop :=
| sub_nil : subseq [] []
| sub_keep : forall x a b, subseq a b -> subseq (x :: a) (x :: b)
| sub_skip : forall x a b, subseq a b -> subseq a (x :: b).

(** Order of mark values: numbers by value, strings, NaN last. *)
Definition cell_lt (a b : cell) : Prop := cell_ltb a b = true.

(** ** Attribute reads and histories *)
Inductive attr : Type :=
| AMbb | AMbbArea | AN | ARot | ALambdaMbb | ALambdaWindow | AHull | AHullArea | ALambdaHull | AWindow.
Inductive value : Type :=
| VBox (b : option box) | VX (x : xq) | VZ (z : Z) | VQ (q : Q) | VRing (r : list pt)
| VWin (w : window) | VExc (e : exn).

Definition read (hullf : list pt -> list pt) (a : attr) (s : pattern) : value * pattern :=
  match a with
  | AMbb => let (v, s) := read_mbb s in (VBox v, s)
  | AMbbArea => let (v, s) := read_mbb_area s in (VX v, s)
  | AN => let (v, s) := read_n s in (VZ v, s)
  | ARot => let (v, s) := read_rot s in (VX v, s)
  | ALambdaMbb => let (v, s) := read_lambda_mbb s in (VX v, s)
  | ALambdaWindow => let (v, s) := read_lambda_window s in
                     (match v with Ok v => VX v | Raise e => VExc e end, s)
  | AHull => let (v, s) := read_hull hullf s in (VRing v, s)
  | AHullArea => let (v, s) := read_hull_area hullf s in (VQ v, s)
  | ALambdaHull => let (v, s) := read_lambda_hull hullf s in (VX v, s)
  | AWindow => let (w, s) := get_window s in (VWin w, s)
  end.

(** The calls a user can make on an object. *)
Inductive op : Type :=
| ORead (a : attr) | OSetWindow (w : option window) | OFlip
| OAddMarks (marks : list (list cell)) (names : option (list string)).

Definition step (hullf : list pt -> list pt) (o : op) (s : pattern) : pattern :=
  match o with
  | ORead a => snd (read hullf a s)
  | OSetWindow w => set_window s w
  | OFlip => flip s
  | OAddMarks m n => fst (add_marks s m n)
  end.
Definition history (hullf : list pt -> list pt) (l : list op) (s : pattern) : pattern :=
  fold_left (fun s o => step hullf o s) l s.

(** The same object with nothing memoised. *)
Definition forget (s : pattern) : pattern := with_cache s no_cache.

(** The content of a column. *)
Definition column (f : frame) (name : string) : option (list cell) :=
  option_map (fun i => map (get_cell i) (f_rows f)) (col_index name (f_cols f)).

(** ** Nearest neighbours *)
(** Squared distance between points number i and j. *)
Definition sqd (pts : list pt) (i j : nat) : Q :=
  let a := nth i pts (0,0) in let b := nth j pts (0,0) in
  (fst a - fst b) * (fst a - fst b) + (snd a - snd b) * (snd a - snd b).

(** [ids] are m nearest points of query point [q] (given by its distances
    [dist]) among [0..n-1], in order of distance, with any tie-breaking. *)
Definition nearest (n m : nat) (dist : nat -> Q) (ids : list nat) : Prop :=
  List.length ids = m /\ NoDup ids /\ (forall j, In j ids -> (j < n)%nat) /\
  (forall a b, (a < b < List.length ids)%nat -> dist (nth a ids 0%nat) <= dist (nth b ids 0%nat)) /\
  (forall j l, In j ids -> (l < n)%nat -> ~ In l ids -> dist j <= dist l).

(** A tree that answers m-nearest queries about [pts] correctly, with any
    tie-breaking; distances are represented by their squares. *)
Definition correct_tree (pts : list pt) (query : nat -> nat -> list (Q * nat)) : Prop :=
  forall m i, (m <= List.length pts)%nat -> (i < List.length pts)%nat ->
    nearest (List.length pts) m (sqd pts i) (map snd (query m i)) /\
    forall d j, In (d, j) (query m i) -> d == sqd pts i j.

(** [ids] are k nearest points of point [i], given by its distances [dist], among
    the points of [0..n-1] other than [i] itself. *)
Definition nearest_others (n k i : nat) (dist : nat -> Q) (ids : list nat) : Prop :=
  List.length ids = k /\ NoDup ids /\ ~ In i ids /\ (forall j, In j ids -> (j < n)%nat) /\
  (forall a b, (a < b < k)%nat -> dist (nth a ids 0%nat) <= dist (nth b ids 0%nat)) /\
  (forall j l, In j ids -> (l < n)%nat -> l <> i -> ~ In l ids -> dist j <= dist l).

Definition coincide (a b : pt) : Prop := fst a == fst b /\ snd a == snd b.
Definition no_coincident (pts : list pt) : Prop :=
  forall i j, (i < j < List.length pts)%nat -> ~ coincide (nth i pts (0,0)) (nth j pts (0,0)).

(** ** Rings *)
(** Twice the signed area of the triangle a, b, v. *)
Definition orient (a b v : pt) : Q :=
  (fst b - fst a) * (snd v - snd a) - (fst v - fst a) * (snd b - snd a).
(** Consecutive vertices of a list. *)
Definition consecutive (l : list pt) (a b : pt) : Prop := exists l1 l2, l = l1 ++ a :: b :: l2.
(** A ring (open or closed) traversed counter-clockwise around a convex region:
    every vertex is on the left of every edge. *)
Definition ccw_convex (h : list pt) : Prop :=
  forall p0 t, h = p0 :: t -> forall a b v, consecutive (h ++ [p0]) a b -> In v h -> 0 <= orient a b v.
