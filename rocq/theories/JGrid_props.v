(** Theorems about the grids on which J is evaluated. *)
From Coq Require Import ZArith QArith Qabs Qminmax List Bool String Lia Lqa.
From Verif Require Import Base BaseLemmas Quadrat_model Geometry_model Random_model DistStats_model DistStats_spec
  DistStats_proofs DistStats_props Ripley_model Ripley_proofs Ripley_props JGrid_model JGrid_spec JGrid_proofs.
Import ListNotations.
Local Open Scope Q_scope.

Section Grids.
Variable query : metric -> list pt -> pt -> nat -> row.
Variable shape : list pt -> hullres -> hull.

(** ** Where the grids come from *)
(** A step count n >= 2 gives n equal steps from 0 to the greatest nearest-neighbour
    distance of the pattern: for F and G each under the metric asked for if its
    distances were not given, and under the Euclidean metric if they were. *)
Theorem C124_grids : forall coords s n gd fd m h edge us fsup fv us' gsup gv,
  step_count s = Some n -> (2 <= n)%Z ->
  f_fun query shape coords s fd m h edge us = Val (fsup, fv) us' ->
  g_fun query coords s gd m edge = Ok (gsup, gv) ->
  (exists x l, nnd query coords (metric_used m fd) = Ok (x :: l) /\ even_grid (Qmax_list x l) (Z.to_nat n) fsup) /\
  (exists x l, nnd query coords (metric_used m gd) = Ok (x :: l) /\ even_grid (Qmax_list x l) (Z.to_nat n) gsup).
Proof.
  intros coords s n gd fd m h edge us fsup fv us' gsup gv SC N HF HG.
  apply f_fun_inv in HF. destruct HF as [fm [fh [fl [F1 [F2 _]]]]].
  apply g_fun_inv in HG. destruct HG as [gm [gh [gl [G1 [G2 _]]]]].
  apply prepare_support in F1. destruct F1 as [-> F1].
  apply prepare_support in G1. destruct G1 as [-> G1].
  destruct (make_support_steps _ _ _ _ SC F1) as [x [l [E1 L1]]].
  destruct (make_support_steps _ _ _ _ SC G1) as [x' [l' [E2 L2]]].
  split; [exists x, l|exists x', l']; (split; [assumption|]); apply linspace_even; auto.
Qed.

(** ** One grid *)
(** When distances are given for both functions or for neither, or the metric is the
    Euclidean one, or the support is not a step count, both grids are the same and J is
    the hazard ratio value by value; j fails exactly when f or g fails. *)
Theorem C124_same_grid : forall coords s gd fd m h edge us,
  is_none gd = is_none fd \/ m = MName "euclidean" \/ step_count s = None ->
  match f_fun query shape coords s fd m h edge us with
  | Val (fsup, fv) us' =>
      match g_fun query coords s gd m edge with
      | Ok (gsup, gv) => gsup = fsup /\ List.length gv = List.length fv /\
          exists J, j_call query shape coords s gd fd m h edge false us = Val (gsup, J) us' /\
            List.length J = List.length gv /\
            forall k, (k < List.length gv)%nat -> nth k J NaN = hazard (nth k gv NaN) (nth k fv NaN)
      | Raise e => j_call query shape coords s gd fd m h edge false us = Exc e
      end
  | Exc e => j_call query shape coords s gd fd m h edge false us = Exc e
  | Short => j_call query shape coords s gd fd m h edge false us = Short
  end.
Proof.
  intros coords s gd fd m h edge us HC. unfold j_call.
  destruct (f_fun query shape coords s fd m h edge us) as [[fsup fv] us'|e|] eqn:HF; [|reflexivity|reflexivity].
  cbn [rbind].
  destruct (g_fun query coords s gd m edge) as [[gsup gv]|e] eqn:HG; [|reflexivity].
  cbn [rbind lift].
  pose proof HF as HF'. pose proof HG as HG'.
  apply f_fun_inv in HF'. destruct HF' as [fm [fh [fl [F1 [F2 _]]]]].
  apply g_fun_inv in HG'. destruct HG' as [gm [gh [gl [G1 [G2 _]]]]].
  pose proof (prepare_support _ _ _ _ _ _ _ _ _ _ F1) as [E1 S1].
  pose proof (prepare_support _ _ _ _ _ _ _ _ _ _ G1) as [E2 S2].
  assert (E : gsup = fsup).
  { destruct HC as [HC|[HC|HC]].
    - assert (X : gm = fm) by (subst; unfold metric_used; rewrite HC; reflexivity).
      rewrite X in S2. congruence.
    - assert (X : gm = fm) by (subst; unfold metric_used; destruct (is_none gd), (is_none fd); reflexivity).
      rewrite X in S2. congruence.
    - rewrite (make_support_fixed _ (nnd query coords fm) s HC) in S2. congruence. }
  split; [exact E|]. subst gsup.
  assert (LV : List.length gv = List.length fv).
  { rewrite (cdf_length _ _ _ F2), (cdf_length _ _ _ G2). reflexivity. }
  split; [exact LV|].
  exists (map (fun gf => hazard (fst gf) (snd gf)) (combine gv fv)).
  assert (AR : (match s with SupArr l => Some l | _ => None end) = None \/
               (match s with SupArr l => Some l | _ => None end) = Some fsup).
  { destruct s; auto. right. f_equal. symmetry. eapply prepare_array; eauto. }
  assert (GE : grid_error (match s with SupArr l => Some l | _ => None end) fsup fsup = false).
  { unfold grid_error. destruct AR as [-> | ->]; rewrite !allclose_refl; reflexivity. }
  cbn [fst snd]. rewrite GE, j_stat_same by exact AR.
  split; [reflexivity|]. split; [rewrite map_length, combine_length; lia|].
  intros k K. apply nth_combine; lia.
Qed.

(** ** Two grids *)
(** Otherwise the grids end at the greatest nearest-neighbour distances a (F) and b (G)
    under two metrics. If b exceeds a by more than a hundred-thousandth (and 1e-8), j
    raises ValueError; if it falls below by more than that, F is interpolated linearly
    on G's grid; in between, values of F and G at different distances are combined. *)
Theorem C124_two_grids : forall coords s n gd fd m h edge us fsup fv us' gsup gv a b,
  step_count s = Some n -> (2 <= n)%Z ->
  f_fun query shape coords s fd m h edge us = Val (fsup, fv) us' ->
  g_fun query coords s gd m edge = Ok (gsup, gv) ->
  even_grid a (Z.to_nat n) fsup -> even_grid b (Z.to_nat n) gsup -> 0 <= a -> 0 <= b ->
  (j_call query shape coords s gd fd m h edge false us = Exc ValueError <-> ~ near b a /\ a < b) /\
  (near b a -> exists J, j_call query shape coords s gd fd m h edge false us = Val (gsup, J) us' /\
     List.length J = Z.to_nat n /\
     forall k, (k < Z.to_nat n)%nat -> nth k J NaN = hazard (nth k gv NaN) (nth k fv NaN)) /\
  (~ near b a -> b <= a -> exists J, j_call query shape coords s gd fd m h edge false us = Val (gsup, J) us' /\
     List.length J = Z.to_nat n /\
     forall k, (k < Z.to_nat n)%nat -> exists v, on_polygon fsup fv (nth k gsup 0) v /\
       nth k J NaN = hazard (nth k gv NaN) v).
Proof.
  intros coords s n gd fd m h edge us fsup fv us' gsup gv a b SC N HF HG EF EG A B.
  assert (N2 : (2 <= Z.to_nat n)%nat) by lia.
  unfold j_call. rewrite HF. cbn [rbind]. rewrite HG. cbn [rbind lift fst snd].
  assert (AR : (match s with SupArr l => Some l | _ => None end) = None).
  { destruct s; auto; discriminate. }
  rewrite AR.
  pose proof (allclose_even a b _ fsup gsup N2 A EF EG) as AC.
  pose proof (out_even a b _ fsup gsup N2 A B EF EG) as OR.
  apply f_fun_inv in HF. destruct HF as [fm [fh [fl [_ [F2 _]]]]].
  apply g_fun_inv in HG. destruct HG as [gm [gh [gl [_ [G2 _]]]]].
  assert (LF : List.length fsup = Z.to_nat n) by apply EF.
  assert (LG : List.length gsup = Z.to_nat n) by apply EG.
  assert (LFV : List.length fv = Z.to_nat n) by (rewrite (cdf_length _ _ _ F2), LF; lia).
  assert (LGV : List.length gv = Z.to_nat n) by (rewrite (cdf_length _ _ _ G2), LG; lia).
  unfold grid_error. cbn [orb].
  assert (DN : near b a \/ ~ near b a).
  { destruct (allclose gsup fsup); [left; apply AC; reflexivity|right].
    intros X. apply AC in X. discriminate. }
  split; [|split].
  - destruct DN as [D|D].
    + apply AC in D. rewrite D. cbn [negb andb]. split; [discriminate|].
      intros [X _]. exfalso. apply X. apply AC. exact D.
    + assert (X : allclose gsup fsup = false).
      { destruct (allclose gsup fsup); [exfalso; apply D; apply AC; reflexivity|reflexivity]. }
      rewrite X. cbn [negb andb]. destruct (out_of_range fsup gsup).
      * split; auto. intros _. split; [exact D|]. apply OR. reflexivity.
      * split; [discriminate|]. intros [_ Y]. apply OR in Y. discriminate.
  - intros D. apply AC in D. rewrite D. cbn [negb andb]. unfold j_stat. rewrite D.
    eexists. split; [reflexivity|]. split; [rewrite map_length, combine_length; lia|].
    intros k K. apply nth_combine; lia.
  - intros D L.
    assert (X : allclose gsup fsup = false).
    { destruct (allclose gsup fsup); [exfalso; apply D; apply AC; reflexivity|reflexivity]. }
    assert (Y : out_of_range fsup gsup = false).
    { destruct (out_of_range fsup gsup); [|reflexivity]. exfalso.
      assert (Z : a < b) by (apply OR; reflexivity). lra. }
    rewrite X, Y. cbn [negb andb]. unfold j_stat. rewrite X.
    eexists. split; [reflexivity|].
    split; [rewrite map_length, combine_length, map_length; lia|].
    intros k K. exists (interp_at fsup fv (nth k gsup 0)).
    destruct (even_between b _ gsup k N2 B EG K) as [G0 G1].
    pose proof (even_low _ _ _ N2 EF) as BF. pose proof (even_top _ _ _ N2 EF) as TF.
    split.
    + apply interp_at_spec; [lia| | |].
      * intros E. rewrite E in LF. simpl in LF. lia.
      * rewrite hd_nth, BF. exact G0.
      * rewrite last_nth, LF, TF. lra.
    + assert (IX : nth k (map (interp_at fsup fv) gsup) NaN = interp_at fsup fv (nth k gsup 0)).
      { rewrite (nth_indep _ NaN (interp_at fsup fv 0)) by (rewrite map_length; lia). apply map_nth. }
      rewrite <- IX. apply nth_combine; [lia|rewrite map_length; lia].
Qed.

(** truncate=True cuts the same result at the first value that is not a finite number. *)
Theorem C124_truncated : forall coords s gd fd m h edge us,
  match j_call query shape coords s gd fd m h edge false us with
  | Val (e, J) us' => exists J', valid_prefix J J' /\
      j_call query shape coords s gd fd m h edge true us = Val (firstn (List.length J') e, J') us'
  | Exc x => j_call query shape coords s gd fd m h edge true us = Exc x
  | Short => j_call query shape coords s gd fd m h edge true us = Short
  end.
Proof.
  intros coords s gd fd m h edge us. unfold j_call.
  destruct (f_fun query shape coords s fd m h edge us) as [[fsup fv] us'|e|] eqn:HF; [|reflexivity|reflexivity].
  cbn [rbind].
  destruct (g_fun query coords s gd m edge) as [[gsup gv]|e] eqn:HG; [|reflexivity].
  cbn [rbind lift fst snd].
  destruct (grid_error _ fsup gsup) eqn:GE; [reflexivity|].
  apply f_fun_inv in HF. destruct HF as [fm [fh [fl [F1 [F2 _]]]]].
  apply g_fun_inv in HG. destruct HG as [gm [gh [gl [G1 [G2 _]]]]].
  set (arr := match s with SupArr l => Some l | _ => None end) in *.
  assert (AR : arr = None \/ arr = Some gsup).
  { unfold arr. destruct s; auto. right. f_equal. symmetry. eapply prepare_array; eauto. }
  assert (LS : List.length gsup = List.length fsup).
  { apply prepare_support in F1. apply prepare_support in G1.
    eapply make_support_length; [apply G1|apply F1]. }
  set (ip := fun (xs : list Q) (ys : list xq) (at_ : list Q) => map (interp_at xs ys) at_).
  set (fv' := if allclose gsup fsup then fv else ip fsup fv gsup).
  set (J := map (fun gf => hazard (fst gf) (snd gf)) (combine gv fv')).
  assert (E : forall t, j_stat arr (fsup, fv) (gsup, gv) ip t = if t then truncate2 gsup J else (gsup, J)).
  { intros t. unfold j_stat. destruct AR as [-> | ->]; rewrite ?allclose_refl; reflexivity. }
  rewrite !E. cbv iota.
  assert (LJ : (List.length gsup <= List.length J)%nat).
  { unfold J. rewrite map_length, combine_length.
    assert (A1 : (List.length gsup <= List.length gv)%nat) by (rewrite (cdf_length _ _ _ G2); lia).
    assert (A2 : (List.length gsup <= List.length fv')%nat).
    { unfold fv'. destruct (allclose gsup fsup); [rewrite (cdf_length _ _ _ F2); lia|].
      unfold ip. rewrite map_length. lia. }
    lia. }
  unfold truncate2. destruct (existsb invalid J) eqn:EX.
  - destruct (first_invalid_split J EX) as [x [r [R1 [R2 [R3 R4]]]]].
    exists (firstn (first_invalid J) J). split.
    + exists (x :: r). split; [exact R1|]. split.
      * intros y Y. apply invalid_spec. apply R3; auto.
      * intros q ->. discriminate.
    + assert (LK : List.length (firstn (first_invalid J) J) = first_invalid J).
      { rewrite firstn_length. apply Nat.min_l. lia. }
      rewrite LK. reflexivity.
  - exists J. split.
    + exists []. split; [rewrite app_nil_r; reflexivity|]. split; [|exact I].
      intros y Y. destruct y as [q| | |]; [eauto| | |]; exfalso;
        (assert (X : existsb invalid J = true) by (apply existsb_exists; eexists; split; [exact Y|reflexivity])); congruence.
    + rewrite firstn_all2 by exact LJ. reflexivity.
Qed.
End Grids.
Print Assumptions C124_grids.
Print Assumptions C124_same_grid.
Print Assumptions C124_two_grids.
Print Assumptions C124_truncated.

(** ** Concretely *)
(** Three points with Euclidean nearest-neighbour distances 5, 5, 5, city-block distances
    6, 7, 6 and Chebyshev distances 4, 4, 4, in a unit u; a tree over them. *)
Definition three (u : Q) : list pt := [(0, 0); (3 * u, 4 * u); (6 * u, 0)].
Definition table (u : Q) (m : metric) (p q : pt) : Q :=
  let dx := Qabs (fst p - fst q) in let dy := Qabs (snd p - snd q) in
  match m with
  | MName "cityblock" => dx + dy
  | MName "chebyshev" => Qmax dx dy
  | _ => if Qeq_bool dy 0 then dx else 5 * u
  end.
Fixpoint place (e : Q * nat) (l : row) : row :=
  match l with [] => [e] | x :: t => if Qle_bool (fst e) (fst x) then e :: l else x :: place e t end.
Definition tree3 (u : Q) (m : metric) (pts : list pt) (p : pt) (k : nat) : row :=
  firstn k (fold_right place [] (map (fun i => (table u m p (nth i pts (0, 0)), i)) (seq 0 (List.length pts)))).
Definition no_shape (_ : list pt) (_ : hullres) : hull := bbox_hull (mkbox 0 0 0 0).

(** F's distances given, G's not: with the city-block metric j fails; with the Chebyshev
    metric it returns, F being interpolated; with distances in units of 1e-9 it returns
    in both cases, combining F and G at different distances. *)
Theorem C124_mixed_refuted :
  let call u m := j_call (tree3 u) no_shape (three u) (SupInt 3) DNone (D1 [u; 2 * u; 3 * u]) (MName m) HNone false false [] in
  call 1 "cityblock"%string = Exc ValueError /\
  (exists e J, call (1 # 1000000000) "cityblock"%string = Val (e, J) []) /\
  (exists x y z a b c, call 1 "chebyshev"%string = Val ([x; y; z], [Fin a; Fin b; Fin c]) [] /\
     x == 0 /\ y == 2 /\ z == 4 /\ a == 1 /\ b == 15 # 7 /\ c == 0) /\
  (exists x y z a c, call 1 "euclidean"%string = Val ([x; y; z], [Fin a; Fin c; NaN]) [] /\
     x == 0 /\ y == 5 # 2 /\ z == 5 /\ a == 1 /\ c == 3).
Proof.
  cbv zeta. split; [vm_compute; reflexivity|]. split; [do 2 eexists; vm_compute; reflexivity|]. split.
  - do 6 eexists. split; [vm_compute; reflexivity|]. repeat split; vm_compute; reflexivity.
  - do 5 eexists. split; [vm_compute; reflexivity|]. repeat split; vm_compute; reflexivity.
Qed.
Print Assumptions C124_mixed_refuted.
Example C124_case :
  j_call (tree3 1) no_shape (three 1) (SupInt 3) DNone (D1 [1; 2; 3]) (MName "chebyshev") HNone false false [] =
  j_call (tree3 1) no_shape (three 1) (SupInt 3) DNone (D1 [1; 2; 3]) (MName "chebyshev") HNone false true [] /\
  exists x y a b, j_call (tree3 1) no_shape (three 1) (SupInt 3) DNone (D1 [1; 2; 3]) (MName "euclidean") HNone false true [] =
    Val ([x; y], [Fin a; Fin b]) [] /\ b == 3.
Proof.
  split; [vm_compute; reflexivity|]. do 4 eexists. split; vm_compute; reflexivity.
Qed.
