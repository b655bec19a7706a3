(** Vocabulary for C119: what plot_density is expected to do to the figure. *)
From Coq Require Import ZArith QArith List Bool String.
From Verif Require Import Base Kde_model Kde_props KdePlot_model.
Import ListNotations.
Local Open Scope Q_scope.

(** The library the documentation promises for a kernel argument. *)
Definition needed (l : libraries) (kernel : option string) : Prop :=
  has_matplotlib l = true /\ (kernel = None -> has_statsmodels l = true) /\ (kernel <> None -> has_kdepy l = true).
(** [t] only prepares the axes [i]: a figure is opened iff no axes were given. *)
Definition prepares {V : Type} (a : args) (i : nat) (t : list (act V)) : Prop :=
  (exists j, a_ax a = Some j /\ i = j /\ t = [EqualAspect i]) \/
  (a_ax a = None /\ t = [NewFigure (a_figsize a); EqualAspect i]).
(** The contours in a trace. *)
Definition is_contour {V : Type} (x : act V) : bool := match x with Contours _ _ _ _ => true | _ => false end.
(** Two calls that agree on everything that determines the density. *)
Definition same_density (a b : args) : Prop :=
  a_data a = a_data b /\ a_bandwidth a = a_bandwidth b /\ a_kernel a = a_kernel b /\ a_resolution a = a_resolution b /\
  (a_kernel a = None -> a_margin a = a_margin b).
(** The field that was drawn. *)
Fixpoint drawn {V : Type} (t : list (act V)) : option (field V) :=
  match t with
  | [] => None
  | Contours _ _ f _ :: _ => Some f
  | _ :: t => drawn t
  end.
(** The value of a field at its node (column i, row j), and the node. *)
Definition node {V : Type} (f : field V) (j i : nat) : Q * Q :=
  match f with
  | Meshes x y _ => (entry 0 x j i, entry 0 y j i)
  | Axes x y _ => (nth i x 0, nth j y 0)
  end.
Definition value {V : Type} (dv : V) (f : field V) (j i : nat) : V :=
  match f with Meshes _ _ z | Axes _ _ z => entry dv z j i end.
Definition rows_cols {V : Type} (f : field V) (r c : nat) : Prop :=
  match f with
  | Meshes x y z => Shape x r c /\ Shape y r c /\ Shape z r c
  | Axes x y z => List.length x = c /\ List.length y = r /\ Shape z r c
  end.
