(** Model of QStatistic.__init__ (pointpats/quadrat_statistics.py 597-687): the
    observed counts, the chi-square statistic and the simulation loop. *)
From Coq Require Import ZArith QArith List Bool.
From Verif Require Import Base Quadrat_model Geometry_model Random_model.
Import ListNotations.
Local Open Scope Q_scope.

(** The [shape] argument: "rectangle", "hexagon" or any other value. *)
Inductive qshape : Type := ShRect | ShHex | ShOther.

(** quadrat_statistics.py 70-77, generic array branch of [_as_points_array],
    applied to [reals[i]] (665-668).  Indexing a (s,n,2) array gives (n,2);
    indexing a squeezed (n,2) array gives a 1-d row: ValueError. *)
Definition sub_pattern (a : arr) (i : nat) : res (list pt) :=
  match a with
  | Arr3 _ _ d => match nth_error d i with
                  | Some [] => Raise ValueError
                  | Some l => Ok l
                  | None => Raise IndexError
                  end
  | Arr2 l => match nth_error l i with Some _ => Raise ValueError | None => Raise IndexError end
  | Arr1 _ => if Nat.ltb i 2 then Raise ValueError else Raise IndexError
  end.

(** The tessellation manager [self.mr]. *)
Inductive manager : Type := MRect (r : rectM) | MHex (h : hexM).

(** quadrat_statistics.py 616-629. *)
Definition make_manager (pts : list pt) (shape : qshape) (nx ny : Z) (rw rh lh sh : Q)
  : res manager :=
  match shape with
  | ShRect => let! r := rect_init pts nx ny rw rh in Ok (MRect r)
  | ShHex => let! h := hex_init pts lh sh in Ok (MHex h)
  | ShOther => Raise ValueError
  end.

Definition manager_sta (m : manager) : res zdict :=
  match m with MRect r => rect_location_sta r | MHex h => hex_location_sta h end.

(** quadrat_statistics.py 670-678: the manager built for a simulated pattern:
    same number of rows and columns (or side length), own bounding box. *)
Definition sim_manager (m : manager) (pts : list pt) : res manager :=
  match m with
  | MRect r => let! r' := rect_init pts (rm_cols r) (rm_rows r) 0 0 in Ok (MRect r')
  | MHex h => let! h' := hex_init pts (hx_l h) (hx_sh h) in Ok (MHex h')
  end.

Definition counts_of (d : zdict) : list Q := map inject_Z (dvals d).

(** quadrat_statistics.py 664-684: one simulated statistic. *)
Definition sim_chi2 (m : manager) (a : arr) (i : nat) : res xq :=
  let! pts := sub_pattern a i in
  let! m' := sim_manager m pts in
  let! d := manager_sta m' in
  Ok (chisquare (counts_of d)).

Record qresult : Type := mkq {
  q_cell_ids : list Z; q_counts : list Q; q_chi2 : xq; q_df : Z; q_contrib : list xq;
  q_sims : option (list xq); q_r_pvalue : option Q }.

(** quadrat_statistics.py 611-687.  [w] is the window (default: the box of the
    points, 88-91), [us] the numbers returned by the generator. [float(area)]
    is a Python float, so a zero area raises ZeroDivisionError (658). *)
Definition qstatistic (pts : list pt) (shape : qshape) (nx ny : Z) (rw rh lh sh : Q)
    (realizations : Z) (w : hull) (us : list Q) : run qresult :=
  rbind (lift (make_manager pts shape nx ny rw rh lh sh) us) (fun m us =>
  rbind (lift (manager_sta m) us) (fun d us =>
  let obs := counts_of d in
  let base := mkq (dkeys d) obs (chisquare obs) (chi2_df obs) (chi2_contrib obs) in
  if (0 <? realizations)%Z then
    if Qeq_bool (h_area w) 0 then Exc ZeroDivisionError
    else
    rbind (poisson w (Some (Qlen pts / h_area w)) (SInt realizations) us) (fun reals us =>
    rbind (lift (mapM (sim_chi2 m reals) (seq 0 (Z.to_nat realizations))) us) (fun sims us =>
      Val (base (Some sims) (Some (mc_pvalue sims (chisquare obs) realizations))) us))
  else Val (base None None) us)).
