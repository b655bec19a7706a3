(** Model of pointpats/centrography.py: euclidean_median (array version). *)
From Coq Require Import Reals List.
From Verif Require Import Base CenterR_model GeoEllipse_model.
Local Open Scope R_scope.

(** centrography.py 907-911: [minimize f start] stands for
    [scipy.optimize.minimize(f, start)["x"]]. *)
Definition euclidean_median (minimize : (rpt -> R) -> rpt -> rpt) (pts : list rpt) : rpt :=
  let start := mean_center_r pts in
  minimize (fun c => dtot c pts) start.
