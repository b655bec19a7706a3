(** Properties C14, C15 and C16: the centres of a point pattern. *)
From Coq Require Import ZArith QArith Qabs Qminmax List Bool Permutation Sorted Lia Lqa Psatz.
From Verif Require Import Base BaseLemmas Spec Quadrat_model Pattern_spec QStat_proofs Center_model Center_spec
  Center_proofs.
Import ListNotations.
Local Open Scope Q_scope.

(** ** C14 *)
Theorem C14_mean_center : forall pts, pts <> [] ->
  exists m, mean_center pts = (Fin (fst m), Fin (snd m)) /\
    (forall c, ssd pts m <= ssd pts c) /\
    (forall c, ssd pts c <= ssd pts m -> pt_same c m) /\
    (forall b, (forall p, In p pts -> covers b p) -> covers b m).
Proof.
  intros pts N. exists (Qsum (map fst pts) / Qlen pts, Qsum (map snd pts) / Qlen pts).
  split; [rewrite mean_center_value by auto; reflexivity|].
  pose proof (Qlen_pos _ pts N) as P.
  assert (D : forall c, ssd pts c == ssd pts (Qsum (map fst pts) / Qlen pts, Qsum (map snd pts) / Qlen pts) +
     Qlen pts * sqd (Qsum (map fst pts) / Qlen pts, Qsum (map snd pts) / Qlen pts) c)
    by (intro c; exact (ssd_decomp pts c N)).
  split; [|split].
  - intros c. specialize (D c). revert D.
    generalize (Qsum (map fst pts) / Qlen pts, Qsum (map snd pts) / Qlen pts). intros m D.
    pose proof (mul_nonneg _ _ (Qlt_le_weak _ _ P) (sqd_nonneg m c)). rewrite D. lra.
  - intros c H. specialize (D c). revert D H.
    generalize (Qsum (map fst pts) / Qlen pts, Qsum (map snd pts) / Qlen pts). intros m D H.
    rewrite D in H.
    assert (E : sqd m c == 0) by (apply (pos_mul_zero _ _ P (sqd_nonneg m c)); lra).
    apply sqd_zero in E. destruct E as [E1 E2]. split; symmetry; auto.
  - intros b H. split; apply mean_between; auto; intros p Hp; apply (H p Hp).
Qed.
Print Assumptions C14_mean_center.

Theorem C14_mean_center_equivariant : forall pts d k, pts <> [] ->
  exists m ms mk, mean_center pts = (Fin (fst m), Fin (snd m)) /\
    mean_center (map (shift d) pts) = (Fin (fst ms), Fin (snd ms)) /\ pt_same ms (shift d m) /\
    mean_center (map (scale k) pts) = (Fin (fst mk), Fin (snd mk)) /\ pt_same mk (scale k m).
Proof.
  intros pts d k N. pose proof (Qlen_pos _ pts N) as P.
  assert (L : forall f : pt -> pt, Qlen (map f pts) = Qlen pts) by (intros; unfold Qlen; rewrite map_length; auto).
  assert (N2 : forall f : pt -> pt, map f pts <> []) by (intros; destruct pts; simpl; congruence).
  pose (mean := fun l : list pt => (Qsum (map fst l) / Qlen pts, Qsum (map snd l) / Qlen pts)).
  exists (mean pts), (mean (map (shift d) pts)), (mean (map (scale k) pts)). rewrite !mean_center_value by auto. rewrite !L.
  split; [reflexivity|]. split; [reflexivity|]. split; [|split; [reflexivity|]].
  - unfold mean, pt_same, shift; cbn [fst snd]. rewrite !map_map; cbn [fst snd].
    split.
    + apply (mean_shift pt fst); auto.
    + apply (mean_shift pt snd); auto.
  - unfold mean, pt_same, scale; cbn [fst snd]. rewrite !map_map; cbn [fst snd].
    split; [apply (mean_scale pt fst) | apply (mean_scale pt snd)]; auto.
Qed.
Print Assumptions C14_mean_center_equivariant.

(** No points: the result is not a number. *)
Theorem C14_mean_center_empty : forall pts, mean_center pts = (NaN, NaN) <-> pts = [].
Proof.
  intros pts; split; intro H; [|subst; reflexivity]. destruct pts as [|p l]; auto.
  rewrite mean_center_value in H by congruence. discriminate.
Qed.
Print Assumptions C14_mean_center_empty.

Example C14_case : exists x y, mean_center [(0, 0); (4, 0); (5, 6)] = (Fin x, Fin y) /\ x == 3 /\ y == 2.
Proof. do 2 eexists. split; [reflexivity|]. split; reflexivity. Qed.

(** ** C15 *)
Theorem C15_weighted_mean_center : forall pts weights,
  length weights = length pts -> 0 < Qsum weights ->
  exists m, weighted_mean_center pts weights = Ok (Some m) /\
    (** zero weighted residual *)
    Qsum (map (fun wp => fst wp * (fst (snd wp) - fst m)) (combine weights pts)) == 0 /\
    Qsum (map (fun wp => fst wp * (snd (snd wp) - snd m)) (combine weights pts)) == 0 /\
    (** unique weighted least-squares centre *)
    (forall c, wssd (combine weights pts) c == wssd (combine weights pts) m + Qsum weights * sqd m c) /\
    (forall c, wssd (combine weights pts) m <= wssd (combine weights pts) c) /\
    (forall c, wssd (combine weights pts) c <= wssd (combine weights pts) m -> pt_same c m) /\
    (** in every box around the points when no weight is negative *)
    ((forall w, In w weights -> 0 <= w) ->
     forall b, (forall p, In p pts -> covers b p) -> covers b m) /\
    (** rescaled weights *)
    (forall k, ~ k == 0 -> exists m', weighted_mean_center pts (map (Qmult k) weights) = Ok (Some m') /\ pt_same m' m).
Proof.
  intros pts weights L S.
  assert (SF : forall (f : pt -> Q), let q := Qsum (map (fun wp => fst wp * f (snd wp)) (combine weights pts)) in
     forall v, Qsum (map (fun wp => fst wp * (f (snd wp) - v)) (combine weights pts)) == q - v * Qsum weights).
  { intros f q v. unfold q. clear S q. revert pts L. induction weights as [|w ws IH]; intros [|p pts] L; simpl in L |- *; try discriminate; try ring.
    rewrite IH by lia. ring. }
  assert (SQ : forall (f : pt -> Q) v u, Qsum (map (fun wp => fst wp * ((f (snd wp) - v) * (f (snd wp) - v))) (combine weights pts)) ==
     Qsum (map (fun wp => fst wp * ((f (snd wp) - u) * (f (snd wp) - u))) (combine weights pts)) +
     2 * (u - v) * Qsum (map (fun wp => fst wp * (f (snd wp) - u)) (combine weights pts)) + (u - v) * (u - v) * Qsum weights).
  { intros f v u. clear S SF. revert pts L. induction weights as [|w ws IH]; intros [|p pts] L; simpl in L |- *; try discriminate; try ring.
    rewrite IH by lia. ring. }
  assert (NZ : ~ Qsum weights == 0) by lra.
  unfold weighted_mean_center at 1. rewrite L, Nat.eqb_refl.
  destruct (Qeq_bool (Qsum weights) 0) eqn:E0; [apply Qeq_bool_iff in E0; lra|].
  set (mx := Qsum (map (fun wp => fst wp * fst (snd wp)) (combine (map (fun v => v / Qsum weights) weights) pts))).
  set (my := Qsum (map (fun wp => fst wp * snd (snd wp)) (combine (map (fun v => v / Qsum weights) weights) pts))).
  assert (Ex : mx == Qsum (map (fun wp => fst wp * fst (snd wp)) (combine weights pts)) / Qsum weights)
    by (apply (weighted_sum fst); auto).
  assert (Ey : my == Qsum (map (fun wp => fst wp * snd (snd wp)) (combine weights pts)) / Qsum weights)
    by (apply (weighted_sum snd); auto).
  exists (mx, my). cbn [fst snd].
  split; [reflexivity|].
  assert (Rx : Qsum (map (fun wp => fst wp * (fst (snd wp) - mx)) (combine weights pts)) == 0).
  { rewrite (SF fst), Ex. unfold pt in *; field; auto. }
  assert (Ry : Qsum (map (fun wp => fst wp * (snd (snd wp) - my)) (combine weights pts)) == 0).
  { rewrite (SF snd), Ey. unfold pt in *; field; auto. }
  split; [exact Rx|]. split; [exact Ry|].
  assert (WS : forall c, wssd (combine weights pts) c ==
    Qsum (map (fun wp => fst wp * ((fst (snd wp) - fst c) * (fst (snd wp) - fst c))) (combine weights pts)) +
    Qsum (map (fun wp => fst wp * ((snd (snd wp) - snd c) * (snd (snd wp) - snd c))) (combine weights pts))).
  { intro c. unfold wssd, sqd. rewrite <- Qsum_map_plus. apply Qsum_map_ext. intros x _. cbv beta. unfold pt in *. ring. }
  assert (D : forall c, wssd (combine weights pts) c == wssd (combine weights pts) (mx, my) + Qsum weights * sqd (mx, my) c).
  { intro c. rewrite !WS. cbn [fst snd]. rewrite (SQ fst (fst c) mx), (SQ snd (snd c) my), Rx, Ry. unfold sqd, pt in *. cbn [fst snd]. ring. }
  split; [exact D|]. split; [|split; [|split]].
  - intro c. rewrite (D c). pose proof (mul_nonneg _ _ (Qlt_le_weak _ _ S) (sqd_nonneg (mx, my) c)). lra.
  - intros c H. rewrite (D c) in H. pose proof (sqd_nonneg (mx, my) c).
    assert (E : sqd (mx, my) c == 0) by (apply (pos_mul_zero _ _ S); auto; lra). apply sqd_zero in E. destruct E as [E1 E2]. split; symmetry; auto.
  - intros NN b C.
    assert (B : forall (f : pt -> Q) v, v == Qsum (map (fun wp => fst wp * f (snd wp)) (combine weights pts)) / Qsum weights ->
       forall lo hi, (forall p, In p pts -> lo <= f p <= hi) -> lo <= v <= hi).
    { intros f v Ev lo hi H. rewrite Ev.
      assert (lo * Qsum weights <= Qsum (map (fun wp => fst wp * f (snd wp)) (combine weights pts)) <= hi * Qsum weights).
      { clear - NN H L. revert pts L H. induction weights as [|w ws IH]; intros [|p pts] L H; simpl in L |- *; try discriminate.
        - split; lra.
        - specialize (IH ltac:(intros; apply NN; right; auto) pts ltac:(lia) ltac:(intros; apply H; right; auto)).
          pose proof (NN w (or_introl eq_refl)). pose proof (H p (or_introl eq_refl)).
          assert (lo * w <= w * f p <= hi * w) by nra. lra. }
      split; [apply Qle_shift_div_l | apply Qle_shift_div_r]; lra. }
    split; cbn [fst snd]; [apply (B fst) | apply (B snd)]; auto; intros p Hp; apply (C p Hp).
  - intros k K. unfold weighted_mean_center. rewrite map_length, L, Nat.eqb_refl.
    assert (EK : Qsum (map (Qmult k) weights) == k * Qsum weights).
    { clear. induction weights as [|w ws IH]; simpl; [ring|]. rewrite IH. ring. }
    destruct (Qeq_bool (Qsum (map (Qmult k) weights)) 0) eqn:E1.
    { apply Qeq_bool_iff in E1. rewrite EK in E1. exfalso. destruct (Qmult_integral _ _ E1); auto. }
    eexists. split; [reflexivity|].
    assert (NK : ~ Qsum (map (Qmult k) weights) == 0).
    { intro X. apply Qeq_bool_iff in X. congruence. }
    assert (W : forall f : pt -> Q, Qsum (map (fun wp => fst wp * f (snd wp)) (combine (map (Qmult k) weights) pts)) ==
                k * Qsum (map (fun wp => fst wp * f (snd wp)) (combine weights pts))).
    { intro f. clear. revert pts. induction weights as [|w ws IH]; intros [|p pts]; simpl; try ring. rewrite IH. ring. }
    split; cbn [fst snd].
    + rewrite (weighted_sum fst) by auto. rewrite Ex, W, EK. unfold pt in *. field. auto.
    + rewrite (weighted_sum snd) by auto. rewrite Ey, W, EK. unfold pt in *. field. auto.
Qed.
Print Assumptions C15_weighted_mean_center.

(** Equal weights give the mean centre; another number of weights is refused;
    weights summing to zero give no finite centre. *)
Theorem C15_equal_weights : forall pts c, pts <> [] -> ~ c == 0 ->
  exists m m', weighted_mean_center pts (map (fun _ => c) pts) = Ok (Some m') /\
    mean_center pts = (Fin (fst m), Fin (snd m)) /\ pt_same m' m.
Proof.
  intros pts c N C. pose proof (Qlen_pos _ pts N) as P.
  exists (Qsum (map fst pts) / Qlen pts, Qsum (map snd pts) / Qlen pts).
  unfold weighted_mean_center. rewrite map_length, Nat.eqb_refl.
  assert (E : Qsum (map (fun _ => c) pts) == c * Qlen pts) by apply Qsum_map_const.
  assert (NZ : ~ Qsum (map (fun _ => c) pts) == 0).
  { intro X. rewrite E in X. destruct (Qmult_integral _ _ X); auto. lra. }
  destruct (Qeq_bool (Qsum (map (fun _ => c) pts)) 0) eqn:E0; [apply Qeq_bool_iff in E0; congruence|].
  eexists. split; [reflexivity|]. split; [rewrite mean_center_value by auto; reflexivity|].
  assert (W : forall f : pt -> Q, Qsum (map (fun wp => fst wp * f (snd wp)) (combine (map (fun _ => c) pts) pts)) ==
                c * Qsum (map f pts)).
  { intro f. clear. induction pts as [|p pts IH]; simpl; try ring. rewrite IH. ring. }
  split; cbn [fst snd].
  - rewrite (weighted_sum fst) by auto. rewrite W, E. unfold pt in *. field. split; [lra | auto].
  - rewrite (weighted_sum snd) by auto. rewrite W, E. unfold pt in *. field. split; [lra | auto].
Qed.
Print Assumptions C15_equal_weights.

Theorem C15_errors : forall pts weights,
  ((exists e, weighted_mean_center pts weights = Raise e) <-> length weights <> length pts) /\
  (weighted_mean_center pts weights = Ok None <-> length weights = length pts /\ Qsum weights == 0 /\ pts <> []) /\
  weighted_mean_center [] [] = Ok (Some (0, 0)).
Proof.
  intros pts weights. match goal with |- ?A /\ ?B /\ ?C => cut ((A /\ B) /\ C); [tauto|] end. split; [|reflexivity]. unfold weighted_mean_center.
  destruct (Nat.eqb (length weights) (length pts)) eqn:E.
  - apply Nat.eqb_eq in E. destruct (Qeq_bool (Qsum weights) 0) eqn:Z.
    + apply Qeq_bool_iff in Z. destruct pts as [|p pts].
      * split; split; try (intros [e X]; discriminate); try discriminate; [contradiction|]. intros (_ & _ & X). congruence.
      * split; split; try (intros [e X]; discriminate); intros; auto; try congruence. repeat split; auto. discriminate.
    + assert (~ Qsum weights == 0) by (intro X; apply Qeq_bool_iff in X; congruence).
      split; split; try (intros [e X]; discriminate); intros H1; try discriminate; try congruence; destruct H1 as (_ & H1 & _); contradiction.
  - apply Nat.eqb_neq in E. split; split; auto; intros H; try discriminate; [exists ValueError; auto|destruct H; contradiction].
Qed.
Print Assumptions C15_errors.

Example C15_case : exists x y, weighted_mean_center [(0, 0); (4, 0); (5, 6)] [1; 2; 1] = Ok (Some (x, y)) /\
  x == 13 # 4 /\ y == 3 # 2.
Proof. do 2 eexists. split; [reflexivity|]. split; reflexivity. Qed.

(** ** C16 *)
Theorem C16_manhattan_median : forall pts, pts <> [] ->
  exists m, snd (manhattan_median pts) = (Fin (fst m), Fin (snd m)) /\
    is_median (map fst pts) (fst m) /\ is_median (map snd pts) (snd m) /\
    (forall c, scity pts m <= scity pts c) /\
    (forall pts', Permutation pts pts' ->
       exists m', snd (manhattan_median pts') = (Fin (fst m'), Fin (snd m')) /\ pt_same m' m).
Proof.
  intros pts N.
  assert (NM : forall (f : pt -> Q) l, l <> [] -> map f l <> []) by (intros f [|a l] X; simpl; congruence).
  destruct (np_median_is_median (map fst pts) (NM _ _ N)) as (mx & E1 & M1).
  destruct (np_median_is_median (map snd pts) (NM _ _ N)) as (my & E2 & M2).
  exists (mx, my). unfold manhattan_median. cbn [fst snd]. rewrite E1, E2.
  split; [reflexivity|]. split; [exact M1|]. split; [exact M2|]. split.
  - intro c. rewrite !scity_split. cbn [fst snd].
    pose proof (median_minimises _ _ (fst c) M1). pose proof (median_minimises _ _ (snd c) M2). lra.
  - intros pts' Pm.
    assert (N' : pts' <> []) by (intro X; subst; apply Permutation_sym in Pm; apply Permutation_nil in Pm; auto).
    destruct (np_median_is_median (map fst pts') (NM _ _ N')) as (mx' & E1' & M1').
    destruct (np_median_is_median (map snd pts') (NM _ _ N')) as (my' & E2' & M2').
    exists (mx', my'). rewrite E1', E2'. split; [reflexivity|]. split; cbn [fst snd].
    + apply (is_median_unique (map fst pts') (map fst pts)); auto. apply Permutation_map, Permutation_sym; auto.
    + apply (is_median_unique (map snd pts') (map snd pts)); auto. apply Permutation_map, Permutation_sym; auto.
Qed.
Print Assumptions C16_manhattan_median.

(** The warning: exactly for an even number of points. *)
Theorem C16_warning : forall pts, fst (manhattan_median pts) = true <-> Nat.Even (length pts).
Proof.
  intro pts. unfold manhattan_median. cbn [fst]. rewrite Nat.eqb_eq. split; intro H.
  - exists (length pts / 2)%nat. pose proof (Nat.div_mod (length pts) 2 ltac:(lia)). lia.
  - destruct H as [k Hk]. rewrite Hk, Nat.mul_comm. apply Nat.mod_mul. lia.
Qed.
Print Assumptions C16_warning.

(** The warning's reason: with an even number of points whose two middle
    coordinates differ, other locations do equally well; here any location of
    the segment between the two points. *)
Example C16_case : exists x y, manhattan_median [(5, 1); (1, 7); (2, 2)] = (false, (Fin x, Fin y)) /\ x == 2 /\ y == 2.
Proof. do 2 eexists. split; [reflexivity|]. split; reflexivity. Qed.
Example C16_case_even : exists x y, manhattan_median [(5, 0); (1, 0)] = (true, (Fin x, Fin y)) /\ x == 3 /\ y == 0 /\
  scity [(5, 0); (1, 0)] (2, 0) == scity [(5, 0); (1, 0)] (3, 0).
Proof. do 2 eexists. split; [reflexivity|]. repeat split; reflexivity. Qed.
