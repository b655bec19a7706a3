(** Theorems about the geometry helpers. *)
From Coq Require Import ZArith QArith Qabs Qminmax List Bool String Lia Lqa.
From Verif Require Import Base BaseLemmas Quadrat_model Geometry_model Pattern_model Pattern_spec
  Pattern_proofs PatternRing_proofs Geometry_proofs.
Import ListNotations.
Local Open Scope Q_scope.

(** ** C25 *)
(** [D i j]: any distance between query point i and pattern point j (coincident
    points allowed). *)
Theorem C25_k_neighbors : forall query n k (D : nat -> nat -> Q),
  (forall i, (i < n)%nat -> nearest n (k + 1) (D i) (map snd (query i)) /\
                            forall d j, In (d, j) (query i) -> d == D i j) ->
  exists rows, k_neighbors query n k = Ok rows /\ List.length rows = n /\
    forall i, (i < n)%nat ->
      nearest_others n k i (D i) (map snd (nth i rows [])) /\
      forall d j, In (d, j) (nth i rows []) -> d == D i j.
Proof.
  intros query n k D H. eexists. split.
  { apply (k_neighbors_ok query n k D). intros i Hi. apply H; auto. }
  split; [rewrite map_length, seq_length; reflexivity|].
  intros i Hi. destruct (H i Hi) as [H1 H2].
  rewrite (nth_indep _ [] (kn_row k 0 (query 0%nat))) by (rewrite map_length, seq_length; auto).
  rewrite (map_nth (fun i => kn_row k i (query i))), seq_nth by auto. simpl Nat.add.
  destruct (kn_row_spec n k i (D i) (query i) H1) as [K1 K2].
  split; [exact K1|]. intros d j X. apply H2. apply K2. exact X.
Qed.
Print Assumptions C25_k_neighbors.

(** Points 0 and 1 coincide and the tree lists 0 first for both; then point 1 is
    missing from its own row of two and the last entry is dropped. *)
Example C25_case :
  k_neighbors (fun i => nth i [[(0, 0%nat); (0, 1%nat)]; [(0, 0%nat); (0, 1%nat)]; [(0, 2%nat); (1, 1%nat)]] []) 3 1
  = Ok [[(0, 1%nat)]; [(0, 0%nat)]; [(1, 1%nat)]] /\
  k_neighbors (fun i => nth i [[(0, 0%nat); (0, 1%nat)]; [(0, 0%nat); (0, 2%nat)]; [(0, 0%nat); (0, 1%nat)]] []) 3 1
  = Ok [[(0, 1%nat)]; [(0, 0%nat)]; [(0, 0%nat)]].
Proof. split; vm_compute; reflexivity. Qed.

(** ** C27 *)
Theorem C27_box_geometry : 
  (forall pts b p, geo_bbox (Pts pts) = Ok b -> In p pts -> box_contains b p = true) /\
  (forall b p, box_contains b p = true <-> covers b p) /\
  (forall b, geo_bbox (Vec [bxmin b; bymin b; bxmax b; bymax b]) = Ok b) /\
  (forall pts b, geo_bbox (Pts pts) = Ok b -> exists a c,
     let v := Vec [bxmin b; bymin b; bxmax b; bymax b] in
     geo_area v = Ok a /\ a == (bxmax b - bxmin b) * (bymax b - bymin b) /\ 0 <= a /\
     geo_centroid v = Ok c /\ fst c - bxmin b == bxmax b - fst c /\ snd c - bymin b == bymax b - snd c /\
     box_contains b c = true) /\
  (forall pts, pts <> [] -> exists b, geo_bbox (Pts pts) = Ok b) /\
  geo_bbox (Pts []) = Raise ValueError /\
  (forall v, List.length v <> 4%nat -> geo_bbox (Vec v) = Raise (if Nat.eqb (List.length v) 0 then ValueError else TypeError)).
Proof.
  split; [|split; [|split; [|split; [|split; [|split]]]]].
  - intros pts b p H I. apply box_contains_spec. destruct (mbb_tight_box _ _ H) as [C _]. auto.
  - apply box_contains_spec.
  - intros [x0 y0 x1 y1]. reflexivity.
  - intros pts b H. destruct (tight_box_sane _ _ (mbb_tight_box _ _ H)) as [Sx Sy].
    destruct b as [x0 y0 x1 y1]. cbn [bxmin bymin bxmax bymax geo_area geo_centroid] in *.
    assert (P : 0 <= (x1 - x0) * (y1 - y0)) by (apply Qmult_le_0_compat; lra).
    do 2 eexists. cbv zeta. split; [reflexivity|].
    split; [apply Qabs_pos; auto|]. split; [apply Qabs_nonneg|]. split; [reflexivity|].
    cbn [fst snd].
    split; [rewrite Qmean2; field|]. split; [rewrite Qmean2; field|]. apply box_contains_spec. unfold covers. cbn [bxmin bymin bxmax bymax fst snd].
    rewrite !Qmean2.
    assert (M : forall a b, a <= b -> a <= (a + b) / 2 /\ (a + b) / 2 <= b).
    { intros a b L. split; [apply Qle_shift_div_l|apply Qle_shift_div_r]; lra. }
    destruct (M _ _ Sx), (M _ _ Sy). auto.
  - intros [|p l] N; [tauto|]. eexists. reflexivity.
  - reflexivity.
  - intros [|a [|b [|c [|d [|e l]]]]] L; cbn in L; try reflexivity. lia.
Qed.
Print Assumptions C27_box_geometry.

Example C27_case : geo_bbox (Pts [(1, 5); (4, 2)]) = Ok (mkbox 1 2 4 5) /\
  geo_area (Vec [1; 2; 4; 6]) = Ok 12 /\
  box_contains (mkbox 1 2 4 5) (4, 2) = true /\ box_contains (mkbox 1 2 4 5) (3, 6) = false.
Proof. repeat split; vm_compute; reflexivity. Qed.

(** ** C28 *)
Theorem C28_dispatch : forall coords h,
  (forall r, prepare_hull coords h = Ok r ->
     match h, r with
     | (HNone | HStr _), RBox b => (h = HNone \/ h = HStr "bbox") /\ tight_box b coords
     | HArr (Vec v), RArr (Vec v') => v' = v /\ List.length v = 4%nat
     | HShapely i, RShapely j => i = j
     | HConvexHull i, RConvexHull j => i = j
     | HStr s, RNewConvex => exists t, s = ("convex" ++ t)%string
     | HStr s, RNewAlpha => exists t, s = ("alpha" ++ t)%string \/ s = (alpha_utf8 ++ t)%string
     | _, _ => False
     end) /\
  (forall e, prepare_hull coords h = Raise e ->
     match h with
     | HNone => e = ValueError /\ coords = []
     | HArr (Vec v) => e = AssertionError /\ List.length v <> 4%nat
     | HArr (Pts _) => e = AssertionError
     | HStr s => e = ValueError /\
         (s = "bbox"%string /\ coords = [] \/
          forall t, s <> "bbox"%string /\ s <> ("convex" ++ t)%string /\ s <> ("alpha" ++ t)%string /\
                    s <> (alpha_utf8 ++ t)%string)
     | HOther _ => e = ValueError
     | _ => False
     end) /\
  (* preparing a prepared hull returns it: same object, same box *)
  (forall coords' new r, prepare_hull coords h = Ok r ->
     exists r', prepare_hull coords' (as_arg new r) = Ok r' /\ as_arg new r' = as_arg new r).
Proof.
  assert (SW : forall pre s, starts_with pre s = true <-> exists t, s = (pre ++ t)%string).
  { induction pre as [|c pre IH]; intros s; simpl.
    - split; eauto.
    - destruct s as [|c' s]; [split; [discriminate|intros [t E]; discriminate]|].
      rewrite andb_true_iff, IH, Ascii.eqb_eq. split.
      + intros [-> [t ->]]. eauto.
      + intros [t E]. inversion E. eauto. }
  intros coords h.
  assert (BX : forall b, compute_mbb coords = Ok b -> tight_box b coords) by (intros; apply mbb_tight_box; auto).
  assert (BE : forall e, compute_mbb coords = Raise e -> e = ValueError /\ coords = []).
  { destruct coords; simpl; intros e E; inversion E; auto. }
  split; [|split].
  - intros r H. destruct h as [|[v|p]|i|s|i|i]; unfold prepare_hull in H; try (inversion H; subst; auto; fail).
    + destruct (compute_mbb coords) as [b|] eqn:E; inversion H; subst. auto.
    + destruct (Nat.eqb_spec (List.length v) 4); inversion H; subst. auto.
    + destruct (String.eqb_spec s "bbox").
      { destruct (compute_mbb coords) as [b|] eqn:E; inversion H; subst. auto. }
      destruct (starts_with "convex" s) eqn:E1; [inversion H; subst; apply SW; auto|].
      destruct (starts_with "alpha" s) eqn:E2; cbn [orb] in H.
      { inversion H; subst. destruct (proj1 (SW _ _) E2) as [t E]. exists t. auto. }
      destruct (starts_with alpha_utf8 s) eqn:E3; inversion H; subst.
      destruct (proj1 (SW _ _) E3) as [t E]. exists t. auto.
  - intros e H. destruct h as [|[v|p]|i|s|i|i]; unfold prepare_hull in H; try (inversion H; subst; auto; fail).
    + destruct (compute_mbb coords) as [b|e'] eqn:E; inversion H; subst. apply BE; auto.
    + destruct (Nat.eqb_spec (List.length v) 4); inversion H; subst. auto.
    + destruct (String.eqb_spec s "bbox").
      { destruct (compute_mbb coords) as [b|e'] eqn:E; inversion H; subst. destruct (BE e eq_refl). auto. }
      destruct (starts_with "convex" s) eqn:E1; [inversion H|].
      destruct (starts_with "alpha" s) eqn:E2; cbn [orb] in H; [inversion H|].
      destruct (starts_with alpha_utf8 s) eqn:E3; inversion H; subst.
      split; auto. right. intros t.
      split; [auto|]. split; [|split]; intros X.
      * assert (starts_with "convex" s = true) by (apply SW; eauto). congruence.
      * assert (starts_with "alpha" s = true) by (apply SW; eauto). congruence.
      * assert (starts_with alpha_utf8 s = true) by (apply SW; eauto). congruence.
  - intros coords' new r H. destruct r as [b|[v|p]|i|i| |].
    + eexists. split; [reflexivity|reflexivity].
    + destruct h as [|[v'|p]|i|s|i|i]; unfold prepare_hull in H; try (inversion H; fail).
      * destruct (compute_mbb coords); inversion H.
      * destruct (Nat.eqb (List.length v') 4) eqn:E; inversion H; subst. simpl. rewrite E. eauto.
      * repeat match type of H with context[if ?c then _ else _] => destruct c end; try (inversion H; fail).
        destruct (compute_mbb coords); inversion H.
    + destruct h as [|[v'|p']|i|s|i|i]; unfold prepare_hull in H; try (inversion H; fail).
      * destruct (compute_mbb coords); inversion H.
      * destruct (Nat.eqb (List.length v') 4) eqn:E; inversion H; subst.
      * repeat match type of H with context[if ?c then _ else _] => destruct c end; try (inversion H; fail).
        destruct (compute_mbb coords); inversion H.
    + eexists. split; reflexivity.
    + eexists. split; reflexivity.
    + eexists. split; reflexivity.
    + eexists. split; reflexivity.
Qed.
Print Assumptions C28_dispatch.

(** The documentation promises that an (N,2) array of points is accepted as hull
    and its bounding box used; every such array is rejected. *)
Theorem C28_point_array_refuted : forall coords pts,
  prepare_hull coords (HArr (Pts pts)) = Raise AssertionError.
Proof. reflexivity. Qed.
Print Assumptions C28_point_array_refuted.

Example C28_case :
  prepare_hull [(1, 5); (4, 2)] (HStr "bbox") = Ok (RBox (mkbox 1 2 4 5)) /\
  prepare_hull [(1, 5); (4, 2)] (HStr "convex_hull") = Ok RNewConvex /\
  prepare_hull [(1, 5); (4, 2)] (HStr "hull") = Raise ValueError.
Proof. repeat split; vm_compute; reflexivity. Qed.

(** ** C29 *)
Theorem C29_build_best_tree : forall sk m t, build_best_tree sk m = Ok t ->
  match t, sk with
  | SkKDTree m', Some (kd, _) => m' = m /\ exists s, m = MName s /\ In s kd
  | SkBallTree m', Some (kd, ball) =>
      m' = m /\ ((exists s, m = MName s /\ In s ball /\ ~ In s kd) \/ exists i, m = MCallable i)
  | ScipyKDTree, None => m = MName "euclidean" \/ m = MName "l2"
  | _, _ => False
  end.
Proof.
  assert (E : forall s l, existsb (String.eqb s) l = true <-> In s l).
  { intros s l. rewrite existsb_exists. split.
    - intros [x [A B]]. apply String.eqb_eq in B. subst; auto.
    - intros H. exists s. split; auto. apply String.eqb_refl. }
  assert (NE : forall s l, existsb (String.eqb s) l = false -> ~ In s l).
  { intros s l F I. apply E in I. congruence. }
  intros sk m t H. unfold build_best_tree in H. destruct sk as [[kd ball]|]; destruct m as [s|i|i].
  - destruct (existsb (String.eqb s) kd) eqn:K.
    + inversion H; subst. split; auto. exists s. split; auto. apply E; auto.
    + destruct (existsb (String.eqb s) ball) eqn:B; inversion H; subst. split; auto.
      left. exists s. split; auto. split; [apply E; auto|apply NE; auto].
  - inversion H; subst. split; eauto.
  - inversion H.
  - destruct (existsb (String.eqb s) ["l2"; "euclidean"]%string) eqn:K; inversion H; subst.
    apply E in K. simpl in K. destruct K as [<-|[<-|[]]]; auto.
  - inversion H.
  - inversion H.
Qed.
Print Assumptions C29_build_best_tree.

Theorem C29_key_error : forall sk m e, build_best_tree sk m = Raise e -> e = KeyError /\
  match sk, m with
  | Some (kd, ball), MName s => ~ In s kd /\ ~ In s ball
  | Some _, MCallable _ => False
  | None, MName s => s <> "euclidean"%string /\ s <> "l2"%string
  | _, _ => True
  end.
Proof.
  assert (E : forall s l, In s l -> existsb (String.eqb s) l = true).
  { intros s l I. apply existsb_exists. exists s. split; auto. apply String.eqb_refl. }
  intros sk m e H. unfold build_best_tree in H. destruct sk as [[kd ball]|]; destruct m as [s|i|i].
  - destruct (existsb (String.eqb s) kd) eqn:K; [inversion H|].
    destruct (existsb (String.eqb s) ball) eqn:B; inversion H; subst. split; auto.
    split; intros I; apply E in I; congruence.
  - inversion H.
  - inversion H; auto.
  - destruct (existsb (String.eqb s) ["l2"; "euclidean"]%string) eqn:K; inversion H; subst.
    split; auto. split; intros ->; vm_compute in K; discriminate.
  - inversion H; auto.
  - inversion H; auto.
Qed.
Print Assumptions C29_key_error.

Example C29_case :
  build_best_tree (Some (["euclidean"; "l2"], ["euclidean"; "haversine"])%string) (MName "haversine")
    = Ok (SkBallTree (MName "haversine")) /\
  build_best_tree None (MName "haversine") = Raise KeyError.
Proof. split; vm_compute; reflexivity. Qed.
