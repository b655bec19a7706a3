(** The objects Knox and KnoxLocal, their construction from arrays and from
    data frames, and the table returned by KnoxLocal.hotspots.
    pointpats/spacetime.py 941-1001, 1229-1352, 1354-1429, 1623-1631.
    An absent attribute is [None].  [permutations] is the length of the list of
    drawn permutations. *)
From Coq Require Import ZArith QArith List Arith Bool String.
From Verif Require Import Base Spacetime_model.
Import ListNotations.
Local Open Scope Q_scope.

(** ** Knox, 941-961 *)
Record knox_obj : Type := mkko {
  ko_nst : Z; ko_statistic : Z;
  ko_p_sim : option Q; ko_sim : option (list Q);
  ko_observed : Q * Q * Q * Q; ko_expected : option (Q * Q * Q * Q)
}.
Definition knox_init (ball : list vec -> Q -> nat -> list nat) (s t : list vec) (delta tau : Q)
    (perms : list (list nat)) (keep : bool) : res knox_obj :=
  let! r := knox_global ball s t delta tau perms in
  let nst := Qtrunc (k_nst r) in
  Ok (mkko nst nst
        (match k_sim r with Some (p, _, _) => Some p | None => None end)
        (match k_sim r with Some (_, _, st) => if keep then Some st else None | None => None end)
        (k_obs r) (k_exp r)).

(** 963-1001: the times are passed as a frame of one column, which the trees read
    like the array of one column. *)
Definition knox_from_frame (ball : list vec -> Q -> nat -> list nat) (f : frame) (delta tau : Q)
    (perms : list (list nat)) (keep : bool) : res knox_obj :=
  let! st := points_to_arrays f in
  knox_init ball (fst st) (map (fun t => [t]) (f_times f)) delta tau perms keep.

(** ** KnoxLocal, 1229-1302.  A two-dimensional array: its number of columns and its rows. *)
Record arr : Type := mkarr { a_width : nat; a_rows : list vec }.
Definition shape (a : arr) : array_arg := HasShape [List.length (a_rows a); a_width a].

Record kl_obj : Type := mkkl {
  kl_ids : list Z;
  kl_crit : Q;                               (* stored, 1267 *)
  kl_adj : list (Z * Z * orientation);       (* adjlist, relabelled *)
  kl_nst : Z;
  kl_p_sim : option Q; kl_sim : option (list (list nat));
  kl_p_hg : list Q;
  kl_p_sims : option (list Q); kl_sims : option (list (list nat));
  kl_nsti : list nat;
  kl_gdf : list (Z * (Q * Q) * Q)            (* id, point, time *)
}.
Definition the_time (r : vec) : res Q := match r with [t] => Ok t | _ => Raise ValueError end.
Definition point_of (r : vec) : Q * Q := (nth 0 r 0, nth 1 r 0).

Definition kl_init (ball : list vec -> Q -> nat -> list nat) (s t : arr) (delta tau : Q)
    (gperms perms : list (list nat)) (keep : bool) (crit : Q) (ids : option (list Z)) : res kl_obj :=
  let! _ := knox_local_check (shape s) (shape t) (option_map (@List.length Z) ids) in
  let ids := match ids with Some l => l | None => map Z.of_nat (seq 0 (List.length (a_rows s))) end in
  let! l := knox_local ball (a_rows s) (a_rows t) delta tau gperms perms in
  let! times := mapM the_time (a_rows t) in
  Ok (mkkl ids crit (relabel_adj ids (l_adj l)) (Qtrunc (k_nst (l_knox l)))
        (match k_sim (l_knox l) with Some (p, _, _) => Some p | None => None end)
        (match k_sim (l_knox l) with Some _ => if keep then Some (l_sti_perm l) else None | None => None end)
        (l_p_hg l) (l_p_sims l)
        (match l_p_sims l with Some _ => if keep then Some (l_sti_perm l) else None | None => None end)
        (l_nsti l)
        (combine (combine ids (map point_of (a_rows s))) times)).

(** 1308-1352: [crit] keeps its default, the ids are the index of the frame. *)
Definition kl_from_frame (ball : list vec -> Q -> nat -> list nat) (f : frame) (index : list Z) (delta tau : Q)
    (gperms perms : list (list nat)) (keep : bool) : res kl_obj :=
  let! st := points_to_arrays f in
  kl_init ball (mkarr 2 (fst st)) (mkarr 1 (snd st)) delta tau gperms perms keep (5#100) (Some index).

(** ** hotspots, 1354-1429.  [crit = None] is a call without the argument. *)
Definition kl_events (o : kl_obj) (ps : list Q) : list event :=
  map (fun gp => (fst (fst (fst gp)), snd gp, snd (fst gp))) (combine (kl_gdf o) ps).
(** 1427-1429: inner merge of the points with the table, in the order of the points. *)
Definition row_id (rc : merged * nat) : Z := fst (fst (fst rc)).
Definition with_geometry (g : list (Z * (Q * Q) * Q)) (rows : list (merged * nat)) : list ((Q * Q) * (merged * nat)) :=
  flat_map (fun e => map (fun rc => (snd (fst e), rc)) (filter (fun rc => Z.eqb (row_id rc) (fst (fst e))) rows)) g.
Definition kl_hotspots (components : list (Z * Z) -> Z -> nat) (o : kl_obj) (crit : option Q) (inf : inference)
    (keep_neighbors : bool) : res (list ((Q * Q) * (merged * nat))) :=
  (* hasattr(self, "p_sim") *)
  let! ps := choose_p inf (match kl_p_sim o with Some _ => kl_p_sims o | None => None end) (kl_p_hg o) in
  let crit := match crit with Some c => c | None => 5#100 end in
  Ok (with_geometry (kl_gdf o) (hotspots components crit (kl_events o ps) (kl_adj o) keep_neighbors)).

(** ** plot, 1510-1518: the lines.  Rows with a missing value are dropped; [g.loc]
    of a list of labels gives, label by label, every row of that label. *)
Definition loc (g : list (Z * (Q * Q) * Q)) (labels : list Z) : list (Q * Q) :=
  flat_map (fun z => map (fun e => snd (fst e)) (filter (fun e => Z.eqb (fst (fst e)) z) g)) labels.
Definition full_rows (rows : list ((Q * Q) * (merged * nat))) : list (Z * Z) :=
  flat_map (fun r => match snd (fst (fst (snd r))), snd (fst (snd r)) with
                     | Some _, Some (nb, _) => [(row_id (snd r), nb)]
                     | _, _ => []
                     end) rows.
(** zip(..., strict=True) raises ValueError when the lengths differ. *)
Definition plot_lines (o : kl_obj) (rows : list ((Q * Q) * (merged * nat))) : res (list ((Q * Q) * (Q * Q))) :=
  let e := full_rows rows in
  let a := loc (kl_gdf o) (map fst e) in
  let b := loc (kl_gdf o) (map snd e) in
  if Nat.eqb (List.length a) (List.length b) then Ok (combine a b) else Raise ValueError.

(** ** _gdfhs, 1623-1631: column names of a merge.  Columns with a common name get
    the suffixes _x and _y. *)
Local Open Scope string_scope.
Definition smem (x : string) (l : list string) : bool := existsb (String.eqb x) l.
Definition merge_columns (a b : list string) : list string :=
  (map (fun x => if smem x b then String.append x "_x" else x) a ++ map (fun x => if smem x a then String.append x "_y" else x) b)%list.
Definition gdf_columns (permutations : nat) : list string :=
  (["geometry"; "time"] ++ (if Nat.ltb 0 permutations then ["p_sim"] else []) ++ ["p_hypergeom"])%list.
(** reset_index puts "focal" first, then the columns of the two merged tables. *)
Definition hotspot_columns : list string :=
  merge_columns ["geometry"] ["focal"; "pvalue"; "focal_time"; "neighbor"; "orientation"; "cluster"].
Definition gdfhs_columns (permutations : nat) : list string := merge_columns (gdf_columns permutations) hotspot_columns.
