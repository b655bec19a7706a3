(** Model of pointpats/kde.py plot_density from its arguments to the figure: which
    library computes the density, what is drawn and in which order.  The libraries
    are arguments; [levels], [figsize] and the keyword arguments of contour are
    handed through and stand for themselves. *)
From Coq Require Import ZArith QArith List Bool String.
From Verif Require Import Base Kde_model.
Import ListNotations.
Local Open Scope Q_scope.

(** Which of the libraries can be imported. *)
Record libraries : Type := mklib { has_statsmodels : bool; has_kdepy : bool; has_matplotlib : bool }.
(** The arrays handed to contour: two meshes (statsmodels) or two axes (KDEpy), and z. *)
Inductive field (V : Type) : Type :=
| Meshes (x y : list (list Q)) (z : list (list V))
| Axes (x y : list Q) (z : list (list V)).
Arguments Meshes {V} _ _ _.
Arguments Axes {V} _ _ _.
(** What happens to the figure. [Filled] is contourf, [Lines] is contour. *)
Inductive style : Type := Lines | Filled.
Inductive act (V : Type) : Type :=
| NewFigure (figsize : nat)
| EqualAspect (ax : nat)
| Contours (ax : nat) (s : style) (f : field V) (levels : nat).
Arguments NewFigure {V} _.
Arguments EqualAspect {V} _.
Arguments Contours {V} _ _ _ _.
(** What is returned: the axes, or the axes and the contour set. *)
Inductive returned : Type := RetAxes (ax : nat) | RetBoth (ax cs : nat).

(** The arguments of plot_density, kde.py 4-16. *)
Record args : Type := mkargs {
  a_data : data_arg; a_bandwidth : Q; a_kernel : option string; a_resolution : resolution; a_levels : nat;
  a_fill : bool; a_margin : Q; a_ax : option nat; a_figsize : nat; a_return : bool }.

Section Plot.
Context {V : Type}.
Variable dv : V.
(** KDEMultivariate(data=[xs, ys], bw=[bandwidth, bandwidth]), which may raise. *)
Variable fit : Q -> list Q -> list Q -> res unit.
(** dens_u.pdf of KDEMultivariate for a bandwidth and the data. *)
Variable pdf : Q -> nat * list (list Q) -> list (Q * Q) -> list V.
(** FFTKDE(bw, kernel).fit(data).evaluate: first two columns of the grid, values. *)
Variable evaluate : Q -> string -> nat * list (list Q) -> resolution -> res (list (Q * Q) * list V).
(** contour and contourf: the contour set, or an exception. *)
Variable contour : style -> field V -> nat -> res nat.
(** The axes made by plt.subplots. *)
Variable fresh : nat.

(** kde.py 81-104: the imports, in this order. *)
Definition imports (l : libraries) (kernel : option string) : bool :=
  match kernel with
  | None => has_statsmodels l && has_matplotlib l
  | Some _ => has_kdepy l && has_matplotlib l
  end.
(** kde.py 111-161: the arrays. *)
Definition arrays (a : args) : res (field V) :=
  let! rows := data_rows (a_data a) in
  match a_kernel a with
  | None =>
      let! xs := column 0 rows in
      let! ys := column 1 rows in
      let! _ := fit (a_bandwidth a) xs ys in
      let! xyz := density_sm (pdf (a_bandwidth a) rows) (a_data a) (a_resolution a) (a_margin a) in
      Ok (Meshes (fst (fst xyz)) (snd (fst xyz)) (snd xyz))
  | Some k =>
      let! xyz := density_kdepy dv (evaluate (a_bandwidth a) k rows) (a_resolution a) in
      Ok (Axes (fst (fst xyz)) (snd (fst xyz)) (snd xyz))
  end.
(** kde.py 81-170: what happened to the figure, and the result. *)
Definition plot_density (l : libraries) (a : args) : list (act V) * res returned :=
  if negb (imports l (a_kernel a)) then ([], Raise ImportError)
  else
    let ax := match a_ax a with Some i => i | None => fresh end in
    let opened := match a_ax a with Some _ => [] | None => [NewFigure (a_figsize a)] end ++ [EqualAspect ax] in
    match arrays a with
    | Raise e => (opened, Raise e)
    | Ok f =>
        let s := if a_fill a then Filled else Lines in
        match contour s f (a_levels a) with
        | Raise e => (opened, Raise e)
        | Ok cs => (opened ++ [Contours ax s f (a_levels a)], Ok (if a_return a then RetBoth ax cs else RetAxes ax))
        end
    end.
End Plot.
