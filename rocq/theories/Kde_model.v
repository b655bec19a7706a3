(** Model of pointpats/kde.py: the arrays plot_density hands to matplotlib's contour.
    The density estimators are arguments; what contour draws is not modelled. *)
From Coq Require Import ZArith QArith Qminmax List Bool String.
From Verif Require Import Base Geometry_model DistStats_model.
Import ListNotations.
Local Open Scope Q_scope.

(** Python values that may be given as the number of nodes of one axis. *)
Inductive size : Type := SInt (z : Z) | SFloat (q : Q) | SOther.
Inductive resolution : Type := RTuple (l : list size) | RInt (z : Z) | RFloat (q : Q) | RNone | ROther.
(** An array with [cols] columns, or the (type name, coordinates) of geometries. *)
Inductive data_arg : Type :=
| DArray (cols : nat) (rows : list (list Q))
| DGeo (geoms : list (string * list (Q * Q))).

(** kde.py 111-119. *)
Definition contains_point (s : string) : bool :=
  match String.index 0 "Point" s with Some _ => true | None => false end.
Definition data_rows (d : data_arg) : res (nat * list (list Q)) :=
  match d with
  | DArray c rows => Ok (c, rows)
  | DGeo gs => if forallb (fun g => contains_point (fst g)) gs
               then Ok (2%nat, map (fun p => [fst p; snd p]) (flat_map snd gs))
               else Raise ValueError
  end.
(** [data[:, k]] *)
Definition column (k : nat) (d : nat * list (list Q)) : res (list Q) :=
  if Nat.ltb k (fst d) then Ok (map (fun r => nth k r 0) (snd d)) else Raise IndexError.
(** [.min(), .max()] of a column. *)
Definition extent (l : list Q) : res (Q * Q) :=
  match l with [] => Raise ValueError | x :: t => Ok (Qmin_list x t, Qmax_list x t) end.

(** kde.py 137-146. *)
Definition parse_resolution (r : resolution) : res (size * size) :=
  match r with
  | RTuple [a; b] => Ok (a, b)
  | RTuple _ => Raise ValueError
  | RInt z => Ok (SInt z, SInt z)
  | RFloat q => Ok (SFloat q, SFloat q)
  | RNone => Ok (SInt 100, SInt 100)
  | ROther => Raise ValueError
  end.
(** np.linspace takes its number of samples through operator.index. *)
Definition linspace_size (a b : Q) (s : size) : res (list Q) :=
  match s with SInt z => linspace a b z | _ => Raise TypeError end.

(** kde.py 121-156, engine "sm": x_mesh, y_mesh and z; [pdf] is dens_u.pdf. *)
Definition density_sm {V : Type} (pdf : list (Q * Q) -> list V) (d : data_arg) (r : resolution) (margin : Q)
  : res (list (list Q) * list (list Q) * list (list V)) :=
  let! rows := data_rows d in
  let! xs := column 0 rows in
  let! ys := column 1 rows in
  let! ex := extent xs in
  let! ey := extent ys in
  let xm := (snd ex - fst ex) * margin in
  let ym := (snd ey - fst ey) * margin in
  let! sz := parse_resolution r in
  let! gx := linspace_size (fst ex - xm) (snd ex + xm) (fst sz) in
  let! gy := linspace_size (fst ey - ym) (snd ey + ym) (snd sz) in
  let x_mesh := map (fun _ => gx) gy in
  let y_mesh := map (fun y => map (fun _ => y) gx) gy in
  let pred := pdf (combine (List.concat x_mesh) (List.concat y_mesh)) in
  Ok (x_mesh, y_mesh, chunks (List.length gy) (List.length gx) pred).

(** np.unique of a column of the grid. *)
Fixpoint insert_q (q : Q) (l : list Q) : list Q :=
  match l with
  | [] => [q]
  | a :: t => if Qltb q a then q :: l else if Qeq_bool q a then l else a :: insert_q q t
  end.
Definition unique (l : list Q) : list Q := fold_right insert_q [] l.
Definition transpose {V : Type} (d : V) (n : nat) (m : list (list V)) : list (list V) :=
  map (fun j => map (fun r => nth j r d) m) (seq 0 n).

(** kde.py 158-162, engine "kdepy": [evaluate] is kde.fit(data).evaluate; the two
    axes and z.  reshape needs integers and the right number of values. *)
Definition density_kdepy {V : Type} (d : V) (evaluate : resolution -> res (list (Q * Q) * list V)) (r : resolution)
  : res (list Q * list Q * list (list V)) :=
  let! gp := evaluate r in
  let xs := unique (map fst (fst gp)) in
  let ys := unique (map snd (fst gp)) in
  match r with
  | RInt z =>
      let n := Z.to_nat z in
      if (z <? 0)%Z then Raise ValueError
      else if Nat.eqb (List.length (snd gp)) (n * n)
      then Ok (xs, ys, transpose d n (chunks n n (snd gp)))
      else Raise ValueError
  | _ => Raise TypeError
  end.
