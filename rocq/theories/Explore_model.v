(** What KnoxLocal.plot and KnoxLocal.explore draw.
    pointpats/spacetime.py 1431-1518 and 1520-1621.
    The frame is rebuilt by the constructor (1291-1297) from an array of labels, so
    its index has no name and reset_index always makes a column "index".
    A drawing is the list of the point layers in the order drawn, then the lines.
    Not modelled: the keyword arguments passed through, the axes and map objects, and
    what GeoPandas does with an empty layer. *)
From Coq Require Import ZArith QArith List Bool String.
From Verif Require Import Base Spacetime_model KnoxObj_model.
Import ListNotations.
Local Open Scope string_scope.

(** The argument [colors], a dictionary: KeyError for a missing key. *)
Definition palette : Type := list (string * string).
Fixpoint dict_get (d : palette) (k : string) : res string :=
  match d with
  | [] => Raise KeyError
  | (k', v) :: t => if String.eqb k k' then Ok v else dict_get t k
  end.
(** 1433, 1531: the default. *)
Definition colors0 : palette := [("focal", "red"); ("neighbor", "yellow"); ("nonsig", "grey")].

(** A row of the working copy [g]. *)
Record mark : Type := mkmark { mk_id : Z; mk_at : Q * Q; mk_time : Q; mk_p : Q; mk_color : string }.
Definition recolor (c : string) (m : mark) : mark := mkmark (mk_id m) (mk_at m) (mk_time m) (mk_p m) c.

(** 1479-1502 and 1568-1594: colours of the rows.  [g.loc[labels, "color"] = c] needs
    every label to be in the index. *)
Definition set_labels (labels : list Z) (c : string) (g : list mark) : res (list mark) :=
  if forallb (fun z => zmem z (map mk_id g)) labels
  then Ok (map (fun m => if zmem (mk_id m) labels then recolor c m else m) g)
  else Raise KeyError.
Definition set_significant (crit : Q) (c : string) (g : list mark) : list mark :=
  map (fun m => if Qle_bool (mk_p m) crit then recolor c m else m) g.
Definition paint (o : kl_obj) (colors : palette) (crit : Q) (inf : inference) : res (list mark) :=
  let! non := dict_get colors "nonsig" in
  let! ps := choose_p inf (kl_p_sims o) (kl_p_hg o) in
  let g := map (fun ep => mkmark (fst (fst (fst ep))) (snd (fst (fst ep))) (snd (fst ep)) (snd ep) non) (combine (kl_gdf o) ps) in
  let mask := map mk_id (filter (fun m => Qle_bool (mk_p m) crit) g) in
  let nbs := nodup Z.eq_dec (map (fun r => snd (fst r)) (filter (fun r => zmem (fst (fst r)) mask) (kl_adj o))) in
  let! nb := dict_get colors "neighbor" in
  let! g := set_labels nbs nb g in
  let! fo := dict_get colors "focal" in
  Ok (set_significant crit fo g).
Definition with_color {A : Type} (f : A -> mark) (c : string) (g : list A) : list A :=
  filter (fun m => String.eqb (mk_color (f m)) c) g.

(** 1510-1518 and 1610-1619: the lines; [pts] gives the rows of a label. *)
Definition at_labels (g : list mark) (labels : list Z) : list (Q * Q) :=
  flat_map (fun z => map mk_at (filter (fun m => Z.eqb (mk_id m) z) g)) labels.
Definition edge_lines (components : list (Z * Z) -> Z -> nat) (o : kl_obj) (crit : Q) (inf : inference) (g : list mark)
  : res (list ((Q * Q) * (Q * Q))) :=
  let! rows := kl_hotspots components o (Some crit) inf true in
  let e := full_rows rows in
  let a := at_labels g (map fst e) in
  let b := at_labels g (map snd e) in
  if Nat.eqb (List.length a) (List.length b) then Ok (combine a b) else Raise ValueError.
Definition when {A : Type} (b : bool) (r : res A) : res (option A) :=
  if b then let! x := r in Ok (Some x) else Ok None.

(** ** plot, 1431-1518 *)
Record plot_out : Type := mkplot { po_layers : list (string * list mark); po_lines : option (list ((Q * Q) * (Q * Q))) }.
Definition kl_plot (components : list (Z * Z) -> Z -> nat) (o : kl_obj) (colors : palette) (crit : Q) (inf : inference)
    (plot_edges : bool) : res plot_out :=
  let! g := paint o colors crit inf in
  let! non := dict_get colors "nonsig" in
  let! nb := dict_get colors "neighbor" in
  let! fo := dict_get colors "focal" in
  let layer c := (c, with_color (fun m => m) c g) in
  let! lines := when plot_edges (edge_lines components o crit inf g) in
  Ok (mkplot [layer non; layer nb; layer fo] lines).

(** ** explore, 1520-1621 *)
(** 1595: groupby("focal").agg(list)["neighbor"]. *)
Definition group_lists (adj : list (Z * Z * orientation)) : list (Z * list Z) :=
  map (fun z => (z, map (fun r => snd (fst r)) (filter (fun r => Z.eqb (fst (fst r)) z) adj)))
      (fold_right insert_z [] (map (fun r => fst (fst r)) adj)).
(** 1596: left merge on the label; a row without partner gets a missing value. *)
Definition left_merge (g : list mark) (t : list (Z * list Z)) : list (mark * option (list Z)) :=
  flat_map (fun m => match filter (fun e => Z.eqb (fst e) (mk_id m)) t with
                     | [] => [(m, None)]
                     | es => map (fun e => (m, Some (snd e))) es
                     end) g.
(** A layer shows its rows with all their columns. *)
Record map_out : Type := mkmap {
  mo_layers : list (string * list (mark * option (list Z)));
  mo_warned : bool;                                     (* 1602-1603: empty neighbor set *)
  mo_lines : option (list ((Q * Q) * (Q * Q)))
}.
(** 1598-1608: the first layer is always drawn in grey. *)
Definition kl_explore (components : list (Z * Z) -> Z -> nat) (o : kl_obj) (colors : palette) (crit : Q) (inf : inference)
    (plot_edges : bool) : res map_out :=
  let! g := paint o colors crit inf in
  let g := left_merge g (group_lists (kl_adj o)) in
  let! non := dict_get colors "nonsig" in
  let! nb := dict_get colors "neighbor" in
  let blues := with_color fst nb g in
  let! fo := dict_get colors "focal" in
  let! lines := when plot_edges (edge_lines components o crit inf (map fst g)) in
  Ok (mkmap (("grey", with_color fst non g)
             :: match blues with [] => [] | _ => [(nb, blues)] end ++ [(fo, with_color fst fo g)])
        (match blues with [] => true | _ => false end) lines).
