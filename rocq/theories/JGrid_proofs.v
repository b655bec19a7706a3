(** Lemmas on the grids of J. *)
From Coq Require Import ZArith QArith Qabs Qminmax List Bool String Lia Lqa.
From Verif Require Import Base BaseLemmas Quadrat_model Geometry_model Random_model DistStats_model DistStats_spec
  DistStats_proofs DistStats_props Ripley_model Ripley_proofs Ripley_props JGrid_model JGrid_spec.
Import ListNotations.
Local Open Scope Q_scope.

Lemma interp_at_spec : forall xs ys x, List.length ys = List.length xs -> xs <> [] ->
  hd 0 xs <= x -> x <= last xs 0 -> on_polygon xs ys x (interp_at xs ys x).
Proof.
  induction xs as [|x0 xs IH]; intros ys x L N H1 H2; [congruence|].
  destruct ys as [|y0 ys]; [discriminate|].
  destruct xs as [|x1 xt].
  - destruct ys; [|discriminate]. simpl in H1, H2. exists 0%nat. split; [simpl; lia|].
    left. simpl. split; [lra|reflexivity].
  - destruct ys as [|y1 yt]; [discriminate|]. cbn [interp_at].
    destruct (Qle_bool x1 x) eqn:E.
    + apply Qle_bool_iff in E. destruct (IH (y1 :: yt) x) as [j [J1 J2]].
      * simpl in *. lia.
      * discriminate.
      * exact E.
      * exact H2.
      * exists (S j). split; [simpl in *; lia|]. destruct J2 as [J2|[J2 J3]]; [left; exact J2|].
        right. split; [simpl in *; lia|]. exact J3.
    + assert (X1 : x < x1). { apply Qnot_le_lt. intros X. apply Qle_bool_iff in X. congruence. }
      exists 0%nat. split; [simpl; lia|]. simpl in H1.
      destruct (Qeq_bool x x0) eqn:E0.
      * left. apply Qeq_bool_iff in E0. simpl. auto.
      * right. apply Qeq_bool_neq in E0. split; [simpl; lia|].
        assert (X0 : x0 < x). { destruct (Qlt_le_dec x0 x) as [A|A]; [exact A|]. exfalso. apply E0. lra. }
        simpl nth. split; [split; assumption|]. unfold line_at.
        destruct y0 as [a| | |]; destruct y1 as [b| | |]; try reflexivity.
        eexists. split; [reflexivity|]. field. lra.
Qed.

(** ** Even grids *)
Lemma even_top : forall a n e, (2 <= n)%nat -> even_grid a n e -> nth (n - 1) e 0 == a.
Proof.
  intros a n e N [_ H]. assert (P : 0 < inject_Z (Z.of_nat (n - 1))) by (apply inject_Z_pos; lia).
  specialize (H (n - 1)%nat). assert (L : (n - 1 < n)%nat) by lia. specialize (H L).
  apply (Qmult_inj_r _ _ (inject_Z (Z.of_nat (n - 1)))); [lra|]. rewrite H. ring.
Qed.
Lemma even_low : forall a n e, (2 <= n)%nat -> even_grid a n e -> nth 0 e 0 == 0.
Proof.
  intros a n e N [_ H]. assert (P : 0 < inject_Z (Z.of_nat (n - 1))) by (apply inject_Z_pos; lia).
  specialize (H 0%nat). assert (L : (0 < n)%nat) by lia. specialize (H L).
  apply (Qmult_inj_r _ _ (inject_Z (Z.of_nat (n - 1)))); [lra|]. rewrite H.
  change (inject_Z (Z.of_nat 0)) with 0. ring.
Qed.
Lemma even_between : forall a n e i, (2 <= n)%nat -> 0 <= a -> even_grid a n e -> (i < n)%nat ->
  0 <= nth i e 0 <= a.
Proof.
  intros a n e i N A [_ H] I. assert (P : 0 < inject_Z (Z.of_nat (n - 1))) by (apply inject_Z_pos; lia).
  specialize (H i I). set (x := nth i e 0) in *.
  set (k := inject_Z (Z.of_nat i)) in *. set (m := inject_Z (Z.of_nat (n - 1))) in *.
  assert (K0 : 0 <= k) by (apply inject_Z_nonneg; lia).
  assert (K1 : k <= m) by (unfold k, m; rewrite <- Zle_Qle; lia).
  split.
  - apply (Qmult_le_r _ _ m P). rewrite H. setoid_replace (0 * m) with 0 by ring. apply Qmult_le_0_compat; auto.
  - apply (Qmult_le_r _ _ m P). rewrite H. setoid_replace (a * m) with (m * a) by ring.
    apply Qmult_le_compat_r; auto.
Qed.
Lemma hd_nth : forall (l : list Q), hd 0 l = nth 0 l 0.
Proof. destruct l; reflexivity. Qed.
Lemma last_nth : forall (l : list Q) d, last l d = nth (List.length l - 1) l d.
Proof.
  induction l as [|x l IH]; intros d; [reflexivity|]. destruct l as [|y l]; [reflexivity|].
  change (last (x :: y :: l) d) with (last (y :: l) d). rewrite IH.
  replace (List.length (x :: y :: l) - 1)%nat with (S (List.length (y :: l) - 1)) by (simpl; lia). reflexivity.
Qed.

Lemma linspace_even : forall a n l, (2 <= n)%Z -> linspace 0 a n = Ok l -> even_grid a (Z.to_nat n) l.
Proof.
  intros a n l N H. unfold linspace in H. destruct (Z.ltb_spec n 0); [discriminate|].
  destruct (Z.eqb_spec n 1); [lia|]. inversion H; subst; clear H. split.
  - rewrite map_length, zrange_length. reflexivity.
  - intros i I. set (f := fun i => 0 + inject_Z i * ((a - 0) / inject_Z (n - 1))).
    assert (V : nth i (map f (zrange n)) 0 = f (Z.of_nat i)).
    { rewrite (nth_indep _ 0 (f 0%Z)) by (rewrite map_length, zrange_length; auto).
      rewrite (map_nth f). unfold zrange. rewrite (nth_indep _ 0%Z (Z.of_nat 0)) by (rewrite map_length, seq_length; auto).
      rewrite (map_nth Z.of_nat), seq_nth by auto. reflexivity. }
    rewrite V. unfold f. assert (P : 0 < inject_Z (n - 1)) by (apply inject_Z_pos; lia).
    replace (Z.of_nat (Z.to_nat n - 1)) with (n - 1)%Z by lia. field. lra.
Qed.

Lemma in_combine_nth : forall (a b : list Q) n x y, List.length a = n -> List.length b = n ->
  (In (x, y) (combine a b) <-> exists i, (i < n)%nat /\ x = nth i a 0 /\ y = nth i b 0).
Proof.
  intros a b n x y LA LB. split.
  - intros I. apply (In_nth _ _ (0, 0)) in I. destruct I as [i [I1 I2]].
    rewrite combine_length in I1. rewrite combine_nth in I2 by lia.
    exists i. inversion I2; subst. split; [lia|auto].
  - intros [i [I1 [-> ->]]]. rewrite <- combine_nth by lia. apply nth_In. rewrite combine_length. lia.
Qed.

Lemma allclose_even : forall a b n ef eg, (2 <= n)%nat -> 0 <= a -> even_grid a n ef -> even_grid b n eg ->
  (allclose eg ef = true <-> near b a).
Proof.
  intros a b n ef eg N A EF EG. unfold allclose, near.
  pose proof (even_top _ _ _ N EF) as TF. pose proof (even_top _ _ _ N EG) as TG.
  split.
  - intros H. rewrite forallb_forall in H.
    specialize (H (nth (n - 1) eg 0, nth (n - 1) ef 0)).
    assert (I : In (nth (n - 1) eg 0, nth (n - 1) ef 0) (combine eg ef)).
    { apply (in_combine_nth _ _ n); [apply EG|apply EF|]. exists (n - 1)%nat. split; [lia|auto]. }
    specialize (H I). cbn [fst snd] in H. apply Qle_bool_iff in H.
    rewrite TF, TG in H. rewrite (Qabs_pos a A) in H. exact H.
  - intros H. apply forallb_forall. intros [x y] I.
    apply (in_combine_nth _ _ n) in I; [|apply EG|apply EF]. destruct I as [i [I [-> ->]]].
    cbn [fst snd]. apply Qle_bool_iff.
    destruct (even_between a n ef i N A EF I) as [F0 F1].
    destruct EF as [LF VF]. destruct EG as [LG VG]. specialize (VF i I). specialize (VG i I).
    assert (P : 0 < inject_Z (Z.of_nat (n - 1))) by (apply inject_Z_pos; lia).
    rewrite (Qabs_pos (nth i ef 0)) by exact F0.
    assert (K0 : 0 <= inject_Z (Z.of_nat i)) by (apply inject_Z_nonneg; lia).
    assert (K1 : inject_Z (Z.of_nat i) <= inject_Z (Z.of_nat (n - 1))) by (rewrite <- Zle_Qle; lia).
    set (x := nth i eg 0) in *. set (y := nth i ef 0) in *.
    set (k := inject_Z (Z.of_nat i)) in *. set (m := inject_Z (Z.of_nat (n - 1))) in *.
    apply (Qmult_le_r _ _ m P).
    assert (E : Qabs (x - y) * m == k * Qabs (b - a)).
    { rewrite <- (Qabs_pos m) at 1 by lra. rewrite <- Qabs_Qmult.
      setoid_replace ((x - y) * m) with (k * (b - a)) by (setoid_replace ((x - y) * m) with (x * m - y * m) by ring; rewrite VF, VG; ring).
      rewrite Qabs_Qmult, (Qabs_pos k) by exact K0. reflexivity. }
    rewrite E.
    assert (E2 : ((1 # 100000000) + (1 # 100000) * y) * m == (1 # 100000000) * m + (1 # 100000) * (k * a)).
    { rewrite <- VF. ring. }
    rewrite E2.
    apply Qle_trans with (k * ((1 # 100000000) + (1 # 100000) * a)).
    + setoid_replace (k * Qabs (b - a)) with (Qabs (b - a) * k) by ring.
      setoid_replace (k * ((1 # 100000000) + (1 # 100000) * a)) with (((1 # 100000000) + (1 # 100000) * a) * k) by ring.
      apply Qmult_le_compat_r; auto.
    + assert (X : k * ((1 # 100000000) + (1 # 100000) * a) == (1 # 100000000) * k + (1 # 100000) * (k * a)) by ring.
      rewrite X. lra.
Qed.

Lemma out_even : forall a b n ef eg, (2 <= n)%nat -> 0 <= a -> 0 <= b -> even_grid a n ef -> even_grid b n eg ->
  (out_of_range ef eg = true <-> a < b).
Proof.
  intros a b n ef eg N A B EF EG.
  pose proof (even_top _ _ _ N EF) as TF. pose proof (even_top _ _ _ N EG) as TG.
  pose proof (even_low _ _ _ N EF) as BF.
  assert (O : out_of_range ef eg = existsb (fun x => Qltb x (nth 0 ef 0) || Qltb (nth (n - 1) ef 0) x) eg).
  { destruct ef as [|x0 t]; [destruct EF as [L _]; simpl in L; lia|].
    unfold out_of_range. cbn [nth].
    assert (E : last (x0 :: t) x0 = nth (n - 1) (x0 :: t) 0).
    { rewrite last_nth. destruct EF as [L _]. rewrite L. apply nth_indep. rewrite L. lia. }
    rewrite E. reflexivity. }
  rewrite O. rewrite existsb_exists. split.
  - intros [x [I C]]. apply (In_nth _ _ 0) in I. destruct I as [i [I E]]. subst x.
    destruct EG as [LG VG]. rewrite LG in I.
    destruct (even_between b n eg i N B (conj LG VG) I) as [G0 G1].
    apply orb_true_iff in C. destruct C as [C|C]; qb; lra.
  - intros H. exists (nth (n - 1) eg 0). split.
    + apply nth_In. destruct EG as [LG _]. lia.
    + apply orb_true_iff. right. apply Qltb_lt. lra.
Qed.

(** ** Supports *)
Lemma prepare_support : forall coords s d m h edge nn sup m' hr,
  prepare coords s d m h edge nn = Ok (sup, m', hr) ->
  m' = metric_used m d /\ make_support (nn m') s = Ok sup.
Proof.
  intros coords s d m h edge nn sup m' hr H. unfold prepare in H. destruct edge; [discriminate|].
  destruct (prepare_hull coords h); [|discriminate]. cbn [bind] in H. destruct (is_none d && _); [discriminate|].
  unfold metric_used.
  destruct m; try discriminate;
    (destruct (make_support _ s) as [su|] eqn:E in H; [|discriminate]); cbn [bind] in H; inversion H; subst; auto.
Qed.

Lemma make_support_fixed : forall a b s, step_count s = None -> make_support a s = make_support b s.
Proof. intros a b s H. destruct s; try discriminate; reflexivity. Qed.

Lemma make_support_steps : forall nn s n sup, step_count s = Some n -> make_support nn s = Ok sup ->
  exists x l, nn = Ok (x :: l) /\ linspace 0 (Qmax_list x l) n = Ok sup.
Proof.
  intros nn s n sup S H. destruct s; inversion S; subst; simpl in H;
    apply bind_ok in H; destruct H as [d [H1 H2]]; destruct d as [|x l]; try discriminate; exists x, l; auto.
Qed.

Lemma make_support_length : forall na nb s a b, make_support na s = Ok a -> make_support nb s = Ok b ->
  List.length a = List.length b.
Proof.
  intros na nb s a b HA HB. destruct (step_count s) as [n|] eqn:S.
  - destruct (make_support_steps _ _ _ _ S HA) as [x [l [_ LA]]].
    destruct (make_support_steps _ _ _ _ S HB) as [x' [l' [_ LB]]].
    destruct (C61_linspace _ _ _ _ LA) as [EA _]. destruct (C61_linspace _ _ _ _ LB) as [EB _]. congruence.
  - rewrite (make_support_fixed nb na s S) in HB. congruence.
Qed.

Lemma cdf_length : forall l e v, cdf l e = Ok v ->
  List.length v = Nat.max 1 (List.length e).
Proof.
  intros l e v H. destruct (Nat.lt_ge_cases (List.length e) 2) as [C|C].
  - rewrite cdf_short in H by auto. inversion H; subst. simpl List.length at 1. lia.
  - destruct (cdf_spec l e v C H) as [_ [L _]]. lia.
Qed.
