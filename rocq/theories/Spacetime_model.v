(** Model of pointpats/spacetime.py.  Coordinates are lists of rows; the spatial
    and temporal trees of scipy, the k-nearest-neighbour weights of libpysal and
    the random permutations are arguments.  Python sets are lists without
    duplicates; no theorem depends on their order. *)
From Coq Require Import ZArith QArith List Bool Arith.
From Verif Require Import Base Quadrat_model.
Import ListNotations.
Local Open Scope Q_scope.

(** A row of an (n,k) array. *)
Definition vec : Type := list Q.
Definition row (c : list vec) (i : nat) : vec := nth i c [].
(** Squared Euclidean distance, and "distance <= r". *)
Definition vd2 (p q : vec) : Q :=
  Qsum (map (fun ab => (fst ab - snd ab) * (fst ab - snd ab)) (combine p q)).
Definition within (r : Q) (p q : vec) : bool := Qle_bool 0 r && Qle_bool (vd2 p q) (r * r).

Definition mem (j : nat) (l : list nat) : bool := existsb (Nat.eqb j) l.
Definition nsum (l : list nat) : nat := fold_right Nat.add 0%nat l.
Definition Qnat (n : nat) : Q := inject_Z (Z.of_nat n).

(** ** _knox, spacetime.py 667-850 *)

(** 751-758: neighbour sets without the event itself; [ball c r i] is entry i of
    tree.query_ball_tree(tree, r). *)
Definition neighbors (ball : list vec -> Q -> nat -> list nat) (c : list vec) (r : Q) : list (list nat) :=
  map (fun i => filter (fun j => negb (Nat.eqb j i)) (nodup Nat.eq_dec (ball c r i))) (seq 0 (List.length c)).

(** set.intersection *)
Definition inter (a b : list nat) : list nat := filter (fun j => mem j b) a.

(** 779-784: [sorted((i, j))] for every neighbour, then a set of tuples. *)
Definition sorted_pair (i j : nat) : nat * nat := if Nat.leb i j then (i, j) else (j, i).
Definition pair_dec : forall a b : nat * nat, {a = b} + {a <> b}.
Proof. decide equality; apply Nat.eq_dec. Defined.
Definition st_pairs_of (stn : list (list nat)) : list (nat * nat) :=
  nodup pair_dec (concat (map (fun i => map (sorted_pair i) (nth i stn [])) (seq 0 (List.length stn)))).

(** 831-842: one permutation [rids]. *)
Definition knox_perm (sn tn : list (list nat)) (rids : list nat) : Q :=
  Qnat (nsum (map (fun i =>
    let tni := nth (nth i rids 0%nat) tn [] in
    List.length (filter (fun j => mem j tni) (map (fun j => nth j rids 0%nat) (nth i sn []))))
    (seq 0 (List.length sn)))) / 2.

Record knox_out : Type := mkknox {
  k_ns : Q; k_nt : Q; k_nst : Q; k_pairs : Q;
  k_obs : Q * Q * Q * Q;                (* [0,0] [0,1] [1,0] [1,1] *)
  k_exp : option (Q * Q * Q * Q);       (* None: every entry NaN (0/0) *)
  k_st_pairs : list (nat * nat);
  k_sn : list (list nat); k_tn : list (list nat); k_stn : list (list nat);
  k_sim : option (Q * nat * list Q)     (* p_value_sim, exceedence, st_perm *)
}.

(** Lines 841-847: pseudo p-value. *)
Definition perm_pvalue (exceed permutations : nat) : Q := (Qnat exceed + 1) / (Qnat permutations + 1).

(** zip(..., strict=True) raises ValueError when the lengths differ; ns_tot is a
    numpy number, so a zero number of pairs gives NaN. *)
Definition knox_global (ball : list vec -> Q -> nat -> list nat) (s t : list vec) (delta tau : Q)
    (perms : list (list nat)) : res knox_out :=
  if Nat.eqb (List.length s) (List.length t) then
    let n := Qnat (List.length s) in
    let sn := neighbors ball s delta in
    let tn := neighbors ball t tau in
    let ns := Qnat (nsum (map (@List.length nat) sn)) / 2 in
    let nt := Qnat (nsum (map (@List.length nat) tn)) / 2 in
    let stn := map (fun ab => inter (fst ab) (snd ab)) (combine sn tn) in
    let nst := Qnat (nsum (map (@List.length nat) stn)) / 2 in
    let pairs := n * (n - 1) / 2 in
    let only_s := ns - nst in
    let only_t := nt - nst in
    let observed := (nst, only_s, only_t, pairs - nst - only_s - only_t) in
    let expected := match xdiv (ns * nt) pairs with
                    | Fin e => let e01 := ns - e in let e10 := nt - e in
                               Some (e, e01, e10, pairs - (e + e01 + e10 + 0))
                    | _ => None
                    end in
    let sims := map (knox_perm sn tn) perms in
    let exceed := count (fun st => Qle_bool nst st) sims in
    Ok (mkknox ns nt nst pairs observed expected (st_pairs_of stn) sn tn stn
          (match perms with
           | [] => None
           | _ => Some (perm_pvalue exceed (List.length perms), exceed, sims)
           end))
  else Raise ValueError.

(** 949: [self.nst = int(results["nst"])]. *)
Definition knox_nst (k : knox_out) : Z := Qtrunc (k_nst k).

(** ** _knox_local, spacetime.py 1004-1119 *)

(** [a[i] += 1] *)
Fixpoint incr (i : nat) (l : list nat) : list nat :=
  match l, i with
  | [], _ => []
  | x :: t, O => S x :: t
  | x :: t, S i' => x :: incr i' t
  end.
(** [a[i] = v] *)
Fixpoint set_nth (i v : nat) (l : list nat) : list nat :=
  match l, i with
  | [], _ => []
  | _ :: t, O => v :: t
  | x :: t, S i' => x :: set_nth i' v t
  end.

(** 1029, 1034-1037. *)
Definition nsti_of (n : nat) (pairs : list (nat * nat)) : list nat :=
  fold_left (fun a p => incr (snd p) (incr (fst p) a)) pairs (List.repeat 0%nat n).

(** 1069-1070: the relabelling conditional on the focal event i. *)
Definition conditional (rids : list nat) (i : nat) : list nat :=
  set_nth i i (map (fun x => if Nat.eqb x i then nth i rids 0%nat else x) rids).

(** 1073-1076. *)
Definition local_count (sn tn : list (list nat)) (rids : list nat) (i : nat) : nat :=
  let ri := conditional rids i in
  List.length (filter (fun j => mem j (nth i tn [])) (map (fun j => nth j ri 0%nat) (nth i sn []))).

(** 1088-1092: scipy.stats.hypergeom.cdf(x - 1, M, K, N) for a natural x. *)
Fixpoint binom (n k : nat) : nat :=
  match n, k with
  | _, O => 1
  | O, S _ => 0
  | S n', S k' => binom n' k' + binom n' (S k')
  end%nat.
Definition hg_pmf (M K N k : nat) : Q :=
  if Nat.leb k N then Qnat (binom K k * binom (M - K) (N - k)) / Qnat (binom M N) else 0.
Definition hg_cdf_below (x M K N : nat) : Q := Qsum (map (hg_pmf M K N) (seq 0 x)).
Definition hg_pvalue (n nsti nsi : nat) (nti : list nat) : Q :=
  1 - Qmean (map (fun K => hg_cdf_below nsti (n - 1) K nsi) nti).

(** 1097-1118: the adjacency list; rows are sorted by (focal, neighbor). *)
Inductive orientation : Type := Lead | Lag | Coincident.
Definition pair_leb (a b : nat * nat) : bool :=
  Nat.ltb (fst a) (fst b) || (Nat.eqb (fst a) (fst b) && Nat.leb (snd a) (snd b)).
Fixpoint insert_pair (a : nat * nat) (l : list (nat * nat)) : list (nat * nat) :=
  match l with
  | [] => [a]
  | b :: t => if pair_leb a b then a :: l else b :: insert_pair a t
  end.
Definition sort_pairs (l : list (nat * nat)) : list (nat * nat) := fold_right insert_pair [] l.
(** Comparison of one-element rows; a longer row has no truth value. *)
Definition orient (t : list vec) (f nb : nat) : res orientation :=
  match row t f, row t nb with
  | [a], [b] => Ok (if Qltb a b then Lead else if Qltb b a then Lag else Coincident)
  | _, _ => Raise ValueError
  end.
Definition adjlist_of (t : list vec) (pairs : list (nat * nat)) : res (list (nat * nat * orientation)) :=
  mapM (fun fn => let! o := orient t (fst fn) (snd fn) in Ok (fst fn, snd fn, o))
       (sort_pairs (flat_map (fun p => [p; (snd p, fst p)]) pairs)).

Record local_out : Type := mklocal {
  l_knox : knox_out;
  l_nsti : list nat;
  l_p_sims : option (list Q);            (* exceedence_pvalue *)
  l_sti_perm : list (list nat);          (* row i: counts of event i, one per permutation *)
  l_p_hg : list Q;
  l_adj : list (nat * nat * orientation)
}.

(** [gperms] are the permutations drawn by the call of _knox, [perms] the later ones. *)
Definition knox_local (ball : list vec -> Q -> nat -> list nat) (s t : list vec) (delta tau : Q)
    (gperms perms : list (list nat)) : res local_out :=
  let! k := knox_global ball s t delta tau gperms in
  let n := List.length s in
  let nsti := nsti_of n (k_st_pairs k) in
  let sti := map (fun i => map (fun rids => local_count (k_sn k) (k_tn k) rids i) perms) (seq 0 n) in
  let psims := match perms with
               | [] => None
               | _ => Some (map (fun i => perm_pvalue (count (fun c => Nat.leb (nth i nsti 0%nat) c) (nth i sti []))
                                                      (List.length perms)) (seq 0 n))
               end in
  let nti := map (@List.length nat) (k_tn k) in
  let hg := map (fun i => hg_pvalue n (nth i nsti 0%nat) (List.length (nth i (k_sn k) [])) nti) (seq 0 n) in
  let! adj := adjlist_of t (k_st_pairs k) in
  Ok (mklocal k nsti psims sti hg adj).

(** ** KnoxLocal.__init__, 1241-1257: validation.
    An argument is an array with its shape, or something else. *)
Inductive array_arg : Type := NotArray | HasShape (shape : list nat).
Definition unpack2 (l : list nat) : res (nat * nat) :=
  match l with [a; b] => Ok (a, b) | _ => Raise ValueError end.
Definition knox_local_check (s t : array_arg) (ids : option nat) : res unit :=
  match t with
  | NotArray => Raise ValueError
  | HasShape st =>
    match s with
    | NotArray => Raise ValueError
    | HasShape ss =>
      let! nk := unpack2 ss in
      if Nat.ltb (snd nk) 2 then Raise ValueError else
      let! mk := unpack2 st in
      if negb (Nat.eqb (fst nk) (fst mk)) then Raise ValueError else
      match ids with
      | Some l => if Nat.eqb l (fst nk) then Ok tt else Raise ValueError
      | None => Ok tt
      end
    end
  end.

(** 1286-1288: pandas replace with a dictionary from positions to ids. *)
Definition relabel_adj (ids : list Z) (adj : list (nat * nat * orientation)) : list (Z * Z * orientation) :=
  map (fun r => (nth (fst (fst r)) ids 0%Z, nth (snd (fst r)) ids 0%Z, snd r)) adj.

(** ** KnoxLocal.hotspots, 1354-1429 *)
(** A row of the frame: id, p-value used, time. *)
Definition event : Type := (Z * Q * Q)%type.
Definition ev_id (e : event) : Z := fst (fst e).
Definition ev_p (e : event) : Q := snd (fst e).
Definition ev_t (e : event) : Q := snd e.
Definition zmem (z : Z) (l : list Z) : bool := existsb (Z.eqb z) l.

(** 1381-1396: which p-values. [None] when there are no permutation p-values. *)
Inductive inference : Type := Permutation_ | Analytic | OtherInference.
Definition choose_p (inf : inference) (p_sims : option (list Q)) (p_hg : list Q) : res (list Q) :=
  match inf with
  | Permutation_ => Ok (match p_sims with Some p => p | None => p_hg end)
  | Analytic => Ok p_hg
  | OtherInference => Raise ValueError
  end.

(** 1398-1400 and 1404-1407. *)
Definition significant (crit : Q) (g : list event) : list event := filter (fun e => Qle_bool (ev_p e) crit) g.
Definition temp_neighbors (crit : Q) (g : list event) (adj : list (Z * Z * orientation)) :=
  let sig := map ev_id (significant crit g) in
  filter (fun r => zmem (fst (fst r)) sig || zmem (snd (fst r)) sig) adj.

(** 1408-1415: the significant events followed by all listed neighbours. *)
Definition concat_events (crit : Q) (g : list event) (adj : list (Z * Z * orientation)) : list event :=
  let nb := map (fun r => snd (fst r)) (temp_neighbors crit g adj) in
  significant crit g ++ filter (fun e => zmem (ev_id e) nb) g.

(** 1417-1419: outer merge on the event id. A row: id, event columns, neighbour columns. *)
Definition merged : Type := (Z * option (Q * Q) * option (Z * orientation))%type.
Definition outer_merge (left : list event) (right : list (Z * Z * orientation)) : list merged :=
  flat_map (fun e =>
    match filter (fun r => Z.eqb (fst (fst r)) (ev_id e)) right with
    | [] => [(ev_id e, Some (ev_p e, ev_t e), None)]
    | rs => map (fun r => (ev_id e, Some (ev_p e, ev_t e), Some (snd (fst r), snd r))) rs
    end) left
  ++ map (fun r => (fst (fst r), None, Some (snd (fst r), snd r)))
         (filter (fun r => negb (zmem (fst (fst r)) (map ev_id left))) right).

(** 1421: groupby("focal").first(): groups in increasing order of the key, the
    first present value of every column.  Only the relative order of rows with
    equal keys matters, which merge keeps. *)
Fixpoint insert_z (z : Z) (l : list Z) : list Z :=
  match l with
  | [] => [z]
  | a :: t => if Z.ltb z a then z :: l else if Z.eqb z a then l else a :: insert_z z t
  end.
Definition keys_sorted (l : list merged) : list Z := fold_right insert_z [] (map (fun r => fst (fst r)) l).
Fixpoint first_some {A B : Type} (f : A -> option B) (l : list A) : option B :=
  match l with
  | [] => None
  | a :: t => match f a with Some b => Some b | None => first_some f t end
  end.
Definition group_first (l : list merged) : list merged :=
  map (fun z => let g := filter (fun r => Z.eqb (fst (fst r)) z) l in
                (z, first_some (fun r => snd (fst r)) g, first_some (fun r => snd r) g)) (keys_sorted l).

Definition hotspot_rows (crit : Q) (g : list event) (adj : list (Z * Z * orientation)) : list merged :=
  group_first (outer_merge (concat_events crit g adj) (temp_neighbors crit g adj)).

(** 1422-1426: the graph has one edge per row; [components] labels the nodes. *)
Definition hotspot_edges (rows : list merged) : list (Z * Z) :=
  flat_map (fun r => match snd r with Some (nb, _) => [(fst (fst r), nb)] | None => [] end) rows.
Definition hotspots (components : list (Z * Z) -> Z -> nat) (crit : Q) (g : list event)
    (adj : list (Z * Z * orientation)) (keep_neighbors : bool) : list (merged * nat) :=
  let rows := hotspot_rows crit g adj in
  let out := map (fun r => (r, components (hotspot_edges rows) (fst (fst r)))) rows in
  if keep_neighbors then out
  else filter (fun rc => match snd (fst (fst rc)) with Some (p, _) => Qle_bool p crit | None => false end) out.

(** ** KnoxLocal.plot 1479-1499 and explore 1572-1594: colour classes *)
Inductive klass : Type := Focal | Neighbor | Nonsig.
Definition classify (crit : Q) (g : list event) (adj : list (Z * Z * orientation)) : list (Z * klass) :=
  let mask := map ev_id (significant crit g) in
  let nbs := map (fun r => snd (fst r)) (filter (fun r => zmem (fst (fst r)) mask) adj) in
  map (fun e => (ev_id e,
    if Qle_bool (ev_p e) crit then Focal else if zmem (ev_id e) nbs then Neighbor else Nonsig)) g.

(** ** The deprecated knox, 182-283.  t_coords is (n,1); [qpairs] is
    kd_s.query_pairs(delta) as a list; [shuffles] the successive in-place shuffles. *)
Definition pairs_close (t : list Q) (tau : Q) (ids : list (nat * nat)) : nat :=
  count (fun ij => let d := nth (fst ij) t 0 - nth (snd ij) t 0 in Qle_bool (d * d) (tau * tau)) ids.
Fixpoint knox_joint (ids : list (nat * nat)) (tau : Q) (shuffles : list (list Q -> list Q)) (t : list Q)
  : list nat * list Q :=
  match shuffles with
  | [] => ([], t)
  | f :: fs => let t' := f t in let '(js, t'') := knox_joint ids tau fs t' in (pairs_close t' tau ids :: js, t'')
  end.
(** Result: the statistic and, with permutations, the p-value; and the caller's t_coords afterwards. *)
Definition knox_old (qpairs : list (nat * nat)) (t : list Q) (tau : Q) (shuffles : list (list Q -> list Q))
  : res (nat * option Q) * list Q :=
  match qpairs with
  | [] => (Raise IndexError, t)
  | _ =>
      let nst := pairs_close t tau qpairs in
      let '(joint, t') := knox_joint qpairs tau shuffles t in
      let P := List.length shuffles in
      let larger := count (fun j => Nat.leb nst j) joint in
      let larger := if Nat.ltb (P - larger) larger then (P - larger)%nat else larger in
      (Ok (nst, match shuffles with [] => None | _ => Some (perm_pvalue larger P) end), t')
  end.

(** ** _shuffle_matrix, 647-664, and mantel, 286-398 *)
Definition shuffle_matrix {A : Type} (d : A) (x : list (list A)) (ids : list nat) : list (list A) :=
  map (fun i => map (fun j => nth j (nth i x []) d) ids) ids.
(** Entries of np.tril_indices(n, k=-1). *)
Definition tril {A : Type} (d : A) (x : list (list A)) : list A :=
  flat_map (fun i => map (fun j => nth j (nth i x []) d) (seq 0 i)) (seq 0 (List.length x)).
(** np.ma.count_masked(np.ma.masked_greater_equal(distribution, stat)): NaN
    compares false. *)
Definition masked_pvalue (dist : list xq) (stat : xq) : Q :=
  perm_pvalue (count (fun s => xgeb s stat) dist) (List.length dist).
(** [A] is the type of distances, [ft] and [fs] the power transformations,
    [pearson] the correlation coefficient. Without permutations only the
    statistic is returned. *)
Definition mantel {A : Type} (d : A) (ft fs : A -> A) (pearson : list A -> list A -> xq)
    (timemat distmat : list (list A)) (perms : list (list nat)) : xq * option Q :=
  let distvec := map fs (tril d distmat) in
  let stat := pearson (map ft (tril d timemat)) distvec in
  match perms with
  | [] => (stat, None)
  | _ => (stat, Some (masked_pvalue (map (fun ids => pearson (map ft (tril d (shuffle_matrix d timemat ids))) distvec) perms) stat))
  end.

(** ** jacquez, 401-513; [knn c k i] lists the neighbours of event i *)
Definition jacquez_stat (nnt nns : nat -> list nat) (n : nat) : nat :=
  nsum (map (fun i => List.length (filter (fun j => mem j (nns i)) (nodup Nat.eq_dec (nnt i)))) (seq 0 n)).
Definition jacquez (knn : list vec -> nat -> nat -> list nat) (s t : list vec) (k : nat)
    (perms : list (list nat)) : nat * option Q :=
  let n := List.length t in
  let stat := jacquez_stat (knn t k) (knn s k) n in
  match perms with
  | [] => (stat, None)
  | _ => (stat, Some (perm_pvalue
           (count (fun v => Nat.leb stat v)
              (map (fun ids => jacquez_stat (knn (map (fun i => row t i) ids) k) (knn s k) n) perms))
           (List.length perms)))
  end.

(** ** modified_knox, 516-644: boolean matrices of closeness *)
Definition close_matrix (c : list vec) (r : Q) : list (list bool) :=
  map (fun p => map (within r p) c) c.
Definition mget (m : list (list bool)) (i j : nat) : bool := nth j (nth i m []) false.
Definition b2n (b : bool) : nat := if b then 1%nat else 0%nat.
Definition mk_obs (sm tm : list (list bool)) (n : nat) : Z :=
  (Z.of_nat (nsum (map (fun i => nsum (map (fun j => b2n (mget tm i j && mget sm i j)) (seq 0 n))) (seq 0 n))) - Z.of_nat n)%Z.
Definition col_sum (m : list (list bool)) (n j : nat) : Z :=
  (Z.of_nat (nsum (map (fun i => b2n (mget m i j)) (seq 0 n))) - 1)%Z.
Definition mk_stat (sm tm : list (list bool)) (n : nat) : xq :=
  let obs := inject_Z (mk_obs sm tm n) in
  let ex := inject_Z (Zsum (map (fun j => (col_sum sm n j * col_sum tm n j)%Z) (seq 0 n))) in
  match xdiv ex (Qnat n - 1) with
  | Fin e => Fin ((obs - e) / 2)
  | PInf => NInf
  | NInf => PInf
  | NaN => NaN
  end.
Definition modified_knox (s t : list vec) (delta tau : Q) (perms : list (list nat)) : xq * option Q :=
  let n := List.length t in
  let sm := close_matrix s delta in
  let tm := close_matrix t tau in
  let stat := mk_stat sm tm n in
  match perms with
  | [] => (stat, None)
  | _ => (stat, Some (masked_pvalue (map (fun ids => mk_stat sm (shuffle_matrix false tm ids) n) perms) stat))
  end.

(** ** SpaceTimeEvents.__init__, 141-179: dates are numbers of days *)
Definition day_stamps (col : list Z) : list Z :=
  match col with
  | [] => []
  | d :: ds => let day1 := fold_left Z.min ds d in map (fun x => (x - day1)%Z) col
  end.

(** ** _spacetime_points_to_arrays, 1634-1678.  A frame: the CRS (None, or whether
    it is geographic), the geometries (None: not a Point), whether the time
    column has a numeric dtype, and the time values.  np.vstack of no rows
    raises ValueError. *)
Record frame : Type := mkframe {
  f_crs : option bool; f_geoms : list (option (Q * Q)); f_numeric : bool; f_times : list Q
}.
Definition is_point (g : option (Q * Q)) : bool := match g with Some _ => true | None => false end.
Definition point_row (g : option (Q * Q)) : vec := match g with Some (x, y) => [x; y] | None => [] end.
Definition points_to_arrays (f : frame) : res (list vec * list vec) :=
  if match f_crs f with Some geographic => geographic | None => false end then Raise ValueError
  else if negb (forallb is_point (f_geoms f)) then Raise ValueError
  else if negb (f_numeric f) then Raise ValueError
  else match f_times f with
       | [] => Raise ValueError
       | _ => Ok (map point_row (f_geoms f), map (fun t => [t]) (f_times f))
       end.
