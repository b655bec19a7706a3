(** Proofs about the chi-square statistic, its Monte Carlo p-value and QStatistic. *)
From Coq Require Import ZArith QArith Qround Qminmax List Bool Lia Lqa Permutation Setoid Morphisms.
From Verif Require Import Base BaseLemmas Quadrat_model Quadrat_spec Quadrat_proofs
  Geometry_model Random_model Random_spec Random_proofs QStat_model.
Import ListNotations.
Local Open Scope Q_scope.

(** ** chi-square *)
Lemma Qsq_nonneg : forall x : Q, 0 <= x * x.
Proof. intros. nra. Qed.
Definition sumsq (l : list Q) : Q := Qsum (map (fun o => o * o) l).

Lemma sum_sq_dev : forall l e, Qsum (map (fun o => (o - e) * (o - e)) l) ==
  sumsq l - 2 * e * Qsum l + Qlen l * e * e.
Proof.
  unfold sumsq. induction l; intros; simpl.
  - unfold Qlen; simpl. ring.
  - rewrite IHl, Qlen_cons. ring.
Qed.

Lemma sum_dev_div : forall l e, ~ e == 0 ->
  Qsum (map (fun o => (o - e) * (o - e) / e) l) ==
  Qsum (map (fun o => (o - e) * (o - e)) l) / e.
Proof. induction l; intros; simpl. field; auto. rewrite IHl; auto. field; auto. Qed.

Lemma Qmean_sum : forall l, l <> [] -> Qmean l * Qlen l == Qsum l.
Proof. intros. unfold Qmean. pose proof (Qlen_pos _ l H). field. lra. Qed.

Lemma Qmean_zero_iff : forall l, l <> [] -> (Qmean l == 0 <-> Qsum l == 0).
Proof.
  intros. pose proof (Qlen_pos _ l H). pose proof (Qmean_sum l H). split; intros.
  - rewrite <- H1, H2. ring.
  - rewrite H2 in H1. destruct (Qeq_dec (Qmean l) 0); auto.
    assert (Qmean l * Qlen l == 0) by auto. apply Qmult_integral in H3. destruct H3; lra.
Qed.

Lemma chisquare_value : forall obs, obs <> [] -> ~ Qsum obs == 0 ->
  exists t, chisquare obs = Fin t /\
    t == Qlen obs * sumsq obs / Qsum obs - Qsum obs /\
    t == Qsum (map (fun o => (o - Qmean obs) * (o - Qmean obs)) obs) / Qmean obs.
Proof.
  intros obs Hn Hs. unfold chisquare. destruct obs as [|o l]; [congruence|].
  set (obs := o :: l) in *. pose proof (Qlen_pos _ obs Hn). pose proof (Qmean_sum obs Hn) as M.
  destruct (Qeq_bool (Qmean obs) 0) eqn:E; qb.
  - exfalso. apply Hs. apply Qmean_zero_iff; auto.
  - eexists. split; [reflexivity|]. rewrite sum_dev_div by auto. split; [|reflexivity].
    rewrite sum_sq_dev. rewrite <- M. field. split; auto. lra.
Qed.

Lemma sum_sq_nonneg : forall A (f : A -> Q) l, 0 <= Qsum (map (fun x => f x * f x) l).
Proof.
  intros. apply Qsum_nonneg. intros x H. apply in_map_iff in H. destruct H as [y [<- _]].
  nra.
Qed.

Lemma sum_sq_zero : forall A (f : A -> Q) l, Qsum (map (fun x => f x * f x) l) == 0 ->
  forall x, In x l -> f x == 0.
Proof.
  induction l; simpl; intros; [tauto|].
  pose proof (sum_sq_nonneg _ f l). assert (0 <= f a * f a) by nra.
  destruct H0 as [<-|H0].
  - assert (Z : f a * f a == 0) by lra. apply Qmult_integral in Z. tauto.
  - apply IHl; auto. lra.
Qed.

Lemma chisquare_nonneg : forall obs t, (forall o, In o obs -> 0 <= o) ->
  chisquare obs = Fin t -> 0 <= t /\ (t == 0 <-> forall a b, In a obs -> In b obs -> a == b).
Proof.
  intros obs t Hp H.
  assert (Hn : obs <> []) by (intro; subst; discriminate).
  assert (Hs : ~ Qsum obs == 0).
  { intro. unfold chisquare in H. destruct obs; [discriminate|].
    destruct (Qeq_bool (Qmean (q :: obs)) 0) eqn:E; [discriminate|]. qb.
    apply E. apply Qmean_zero_iff; auto. }
  destruct (chisquare_value obs Hn Hs) as [t' [E [_ V]]]. rewrite H in E. inversion E; subst t'.
  assert (P : 0 <= Qsum obs) by (apply Qsum_nonneg; auto).
  pose proof (Qlen_pos _ obs Hn). pose proof (Qmean_sum obs Hn) as M.
  assert (Me : 0 < Qmean obs) by (unfold Qmean; apply Qdiv_pos; lra).
  pose proof (sum_sq_nonneg _ (fun o => o - Qmean obs) obs) as N. simpl in N.
  set (S2 := Qsum (map (fun o => (o - Qmean obs) * (o - Qmean obs)) obs)) in *.
  split; [rewrite V; apply Qdiv_nonneg; auto|]. split.
  - intros Z. assert (S2 == 0).
    { rewrite Z in V. assert (S2 / Qmean obs * Qmean obs == S2) by (field; lra). rewrite <- V in H1. lra. }
    intros a b Ha Hb.
    pose proof (sum_sq_zero _ (fun o => o - Qmean obs) obs H1 a Ha).
    pose proof (sum_sq_zero _ (fun o => o - Qmean obs) obs H1 b Hb). simpl in *. lra.
  - intros Heq. assert (Hm : forall a, In a obs -> a == Qmean obs).
    { intros a Ha. assert (Qsum obs == a * Qlen obs).
      { rewrite <- (map_id obs) at 1. rewrite <- Qsum_map_const. apply Qsum_map_ext. intros; apply Heq; auto. }
      rewrite <- M in H1. assert ((Qmean obs - a) * Qlen obs == 0) by lra.
      apply Qmult_integral in H2. destruct H2; lra. }
    assert (S2 == 0).
    { unfold S2. transitivity (Qsum (map (fun _ : Q => 0) obs)).
      - apply Qsum_map_ext. intros x Hx. rewrite (Hm x Hx). ring.
      - rewrite Qsum_map_const. ring. }
    rewrite V, H1. field. lra.
Qed.

Lemma chisquare_perm : forall o1 o2, Permutation o1 o2 ->
  match chisquare o1, chisquare o2 with
  | Fin a, Fin b => a == b
  | NaN, NaN => True
  | _, _ => False
  end.
Proof.
  intros o1 o2 P. destruct o1 as [|a l].
  { apply Permutation_nil in P. subst. exact I. }
  destruct o2 as [|b m]. { symmetry in P. apply Permutation_nil in P. discriminate. }
  assert (S : Qsum (a :: l) == Qsum (b :: m)) by (apply Qsum_perm; auto).
  assert (L : Qlen (a :: l) == Qlen (b :: m)).
  { unfold Qlen. rewrite (Permutation_length P). reflexivity. }
  assert (SQ : sumsq (a :: l) == sumsq (b :: m)).
  { unfold sumsq. apply Qsum_perm. apply Permutation_map. auto. }
  destruct (Qeq_dec (Qsum (a :: l)) 0) as [Z|Z].
  - assert (E : forall x t, Qsum (x :: t) == 0 -> chisquare (x :: t) = NaN).
    { intros. unfold chisquare. destruct (Qeq_bool (Qmean (x :: t)) 0) eqn:E; auto. qb.
      exfalso. apply E. apply Qmean_zero_iff; auto. discriminate. }
    rewrite !E; auto. rewrite <- S; auto.
  - destruct (chisquare_value (a :: l)) as [t1 [E1 [V1 _]]]; auto; [discriminate|].
    destruct (chisquare_value (b :: m)) as [t2 [E2 [V2 _]]]; [discriminate|rewrite <- S; auto|].
    rewrite E1, E2, V1, V2, S, L, SQ. reflexivity.
Qed.

(** Sum of the per-cell contributions. *)
Fixpoint xsum_fin (l : list xq) : option Q :=
  match l with
  | [] => Some 0
  | Fin q :: t => option_map (Qplus q) (xsum_fin t)
  | _ => None
  end.

Lemma xsum_fin_map : forall A (f : A -> Q) l, xsum_fin (map (fun x => Fin (f x)) l) = Some (Qsum (map f l)).
Proof. induction l; simpl; auto. rewrite IHl. reflexivity. Qed.

Lemma contrib_sum : forall obs t, (forall o, In o obs -> 0 <= o) -> chisquare obs = Fin t ->
  xsum_fin (chi2_contrib obs) = Some t /\ List.length (chi2_contrib obs) = List.length obs /\
  (forall c, In c (chi2_contrib obs) -> exists q, c = Fin q /\ 0 <= q).
Proof.
  intros obs t Hp H. unfold chisquare, chi2_contrib in *. destruct obs as [|o l]; [discriminate|].
  set (obs := o :: l) in *.
  destruct (Qeq_bool (Qmean obs) 0) eqn:E; [discriminate|]. qb.
  assert (P : 0 <= Qmean obs).
  { unfold Qmean. apply Qdiv_nonneg. apply Qsum_nonneg; auto. apply Qlen_pos; discriminate. }
  assert (L : Qltb 0 (Qmean obs) = true) by (apply Qltb_lt; lra). rewrite L.
  split; [|split].
  - rewrite (xsum_fin_map _ (fun o => (o - Qmean obs) * (o - Qmean obs) / Qmean obs)). congruence.
  - apply map_length.
  - intros c Hc. apply in_map_iff in Hc. destruct Hc as [x [<- _]]. eexists; split; [reflexivity|].
    apply Qdiv_nonneg; [apply Qsq_nonneg|lra].
Qed.

(** ** Monte Carlo p-value *)
Lemma mc_pvalue_range : forall sims obs R, (1 <= R)%Z -> Z.of_nat (List.length sims) = R ->
  1 / (inject_Z R + 1) <= mc_pvalue sims obs R <= 1.
Proof.
  intros sims obs R HR HL. unfold mc_pvalue.
  pose proof (count_le_length _ (fun s => xgeb s obs) sims) as C.
  set (c := count _ sims) in *.
  assert (0 < inject_Z R) by (apply inject_Z_pos; lia).
  assert (0 <= inject_Z (Z.of_nat c)) by (apply inject_Z_nonneg; lia).
  assert (inject_Z (Z.of_nat c) <= inject_Z R) by (apply inject_Z_le; lia).
  split.
  - apply Qle_div; [lra|]. assert (1 / (inject_Z R + 1) * (inject_Z R + 1) == 1) by (field; lra). lra.
  - apply Qdiv_le; lra.
Qed.

Lemma xgeb_antitone : forall s a b, a <= b -> xgeb s (Fin b) = true -> xgeb s (Fin a) = true.
Proof. intros [s| | |] a b H; simpl; auto. intros X. qb. apply Qleb_le. lra. Qed.

Lemma mc_pvalue_antitone : forall sims a b R, (1 <= R)%Z -> a <= b ->
  mc_pvalue sims (Fin b) R <= mc_pvalue sims (Fin a) R.
Proof.
  intros sims a b R HR H. unfold mc_pvalue.
  assert (C : (count (fun s => xgeb s (Fin b)) sims <= count (fun s => xgeb s (Fin a)) sims)%nat).
  { apply count_mono. intros; eapply xgeb_antitone; eauto. }
  revert C. generalize (count (fun s => xgeb s (Fin b)) sims) (count (fun s => xgeb s (Fin a)) sims).
  intros c c' C.
  assert (0 < inject_Z R) by (apply inject_Z_pos; lia).
  assert (inject_Z (Z.of_nat c) <= inject_Z (Z.of_nat c')) by (apply inject_Z_le; lia).
  apply (proj2 (Qdiv_le _ (inject_Z R + 1) _ ltac:(lra))).
  assert (E : (inject_Z (Z.of_nat c') + 1) / (inject_Z R + 1) * (inject_Z R + 1) == inject_Z (Z.of_nat c') + 1)
    by (field; lra). rewrite E. lra.
Qed.

(** ** QStatistic *)
Lemma qstat_obs : forall pts shape nx ny rw rh lh sh R w us q rest,
  qstatistic pts shape nx ny rw rh lh sh R w us = Val q rest ->
  exists m d, make_manager pts shape nx ny rw rh lh sh = Ok m /\ manager_sta m = Ok d /\
    q_cell_ids q = dkeys d /\ q_counts q = counts_of d /\ q_chi2 q = chisquare (counts_of d) /\
    q_df q = (Z.of_nat (List.length (dkeys d)) - 1)%Z /\ q_contrib q = chi2_contrib (counts_of d).
Proof.
  intros. unfold qstatistic in H.
  apply rbind_val in H. destruct H as [m [us1 [H1 H]]]. apply lift_val in H1. destruct H1 as [H1 ->].
  apply rbind_val in H. destruct H as [d [us2 [H2 H]]]. apply lift_val in H2. destruct H2 as [H2 ->].
  exists m, d. split; auto. split; auto.
  assert (DF : chi2_df (counts_of d) = (Z.of_nat (List.length (dkeys d)) - 1)%Z).
  { unfold chi2_df, counts_of, dvals, dkeys. rewrite !map_length. reflexivity. }
  destruct (0 <? R)%Z.
  - destruct (Qeq_bool (h_area w) 0); [discriminate|].
    apply rbind_val in H. destruct H as [a [us3 [_ H]]].
    apply rbind_val in H. destruct H as [sims [us4 [_ H]]]. inversion H; subst; simpl. auto.
  - inversion H; subst; simpl. auto.
Qed.

Lemma mapM_ok : forall A B (f : A -> res B) l ys, mapM f l = Ok ys ->
  List.length ys = List.length l /\ Forall2 (fun x y => f x = Ok y) l ys.
Proof.
  induction l; simpl; intros.
  - inversion H; subst. auto.
  - apply bind_ok in H. destruct H as [y [H1 H2]]. apply bind_ok in H2. destruct H2 as [ys' [H2 H3]].
    inversion H3; subst. destruct (IHl _ H2). simpl. split; auto.
Qed.

Lemma mapM_total : forall A B (f : A -> res B) l, (forall x, In x l -> exists y, f x = Ok y) ->
  exists ys, mapM f l = Ok ys.
Proof.
  induction l; simpl; intros; eauto.
  destruct (H a) as [y Hy]; auto. destruct IHl as [ys Hys]; auto.
  rewrite Hy, Hys. simpl. eauto.
Qed.

Lemma qstat_sims : forall pts shape nx ny rw rh lh sh R w us q rest, (1 <= R)%Z ->
  qstatistic pts shape nx ny rw rh lh sh R w us = Val q rest ->
  exists m reals sims, make_manager pts shape nx ny rw rh lh sh = Ok m /\
    poisson w (Some (Qlen pts / h_area w)) (SInt R) us = Val reals rest /\
    q_sims q = Some sims /\ List.length sims = Z.to_nat R /\
    Forall2 (fun i t => sim_chi2 m reals i = Ok t) (seq 0 (Z.to_nat R)) sims /\
    q_r_pvalue q = Some (mc_pvalue sims (q_chi2 q) R).
Proof.
  intros pts shape nx ny rw rh lh sh R w us q rest HR H. unfold qstatistic in H.
  apply rbind_val in H. destruct H as [m [us1 [H1 H]]]. apply lift_val in H1. destruct H1 as [H1 ->].
  apply rbind_val in H. destruct H as [d [us2 [H2 H]]]. apply lift_val in H2. destruct H2 as [H2 ->].
  destruct (0 <? R)%Z eqn:E; qb; [|lia].
  destruct (Qeq_bool (h_area w) 0); [discriminate|].
  apply rbind_val in H. destruct H as [a [us3 [H3 H]]].
  apply rbind_val in H. destruct H as [sims [us4 [H4 H]]]. apply lift_val in H4. destruct H4 as [H4 ->].
  inversion H; subst. exists m, a, sims. simpl.
  destruct (mapM_ok _ _ _ _ _ H4) as [L F]. rewrite seq_length in L. auto 10.
Qed.

(** With one realization there is no result, whatever the data and the stream. *)
Lemma qstat_one_realization : forall pts shape nx ny rw rh lh sh w us q rest,
  qstatistic pts shape nx ny rw rh lh sh 1 w us <> Val q rest.
Proof.
  intros. intro H. destruct (qstat_sims _ _ _ _ _ _ _ _ _ _ _ _ _ (Z.le_refl 1) H)
    as [m [a [sims [_ [P [_ [_ [F _]]]]]]]].
  simpl in F. inversion F as [|x t l l' Hx]; subst.
  apply poisson_inv in P. destruct P as [n [s [it [d [P1 [A [B [P2 ->]]]]]]]].
  assert (s = 1%Z). { simpl in P1. inversion P1; reflexivity. } subst s.
  unfold sim_chi2 in Hx. apply bind_ok in Hx. destruct Hx as [p [Hx _]].
  apply (replicate_sound (fun l => List.length l = Z.to_nat n)) in P2.
  2:{ intros. eapply reject_sound; eauto. }
  destruct P2 as [L F1]. change (Z.to_nat 1) with 1%nat in *.
  unfold squeeze in Hx. simpl in Hx.
  destruct d as [|r [|]]; try discriminate. inversion F1 as [|? ? Hr]; subst. rewrite <- Hr in Hx.
  destruct (Nat.eqb_spec (List.length r) 1).
  - destruct r as [|p0 [|p1 r]]; simpl in *; try lia; simpl in Hx; discriminate Hx.
  - simpl in Hx. destruct r; simpl in Hx; discriminate.
Qed.

(** With several realizations and at least two points per pattern the call
    succeeds as soon as the observed and the simulated patterns have extent. *)
Lemma nth_error_Forall : forall A (P : A -> Prop) l i x, Forall P l -> nth_error l i = Some x -> P x.
Proof. intros. rewrite Forall_forall in H. apply H. eapply nth_error_In; eauto. Qed.

Lemma qstat_rect_runs : forall pts nx ny rw rh lh sh R w us reals rest,
  (2 <= R)%Z -> ~ h_area w == 0 -> spread fst pts -> spread snd pts -> valid_grid nx ny rw rh ->
  poisson w (Some (Qlen pts / h_area w)) (SInt R) us = Val reals rest ->
  (2 <= Qtrunc (Qlen pts / h_area w * h_area w))%Z ->
  (forall i l, sub_pattern reals i = Ok l -> spread fst l /\ spread snd l) ->
  exists q, qstatistic pts ShRect nx ny rw rh lh sh R w us = Val q rest.
Proof.
  intros pts nx ny rw rh lh sh R w us reals rest HR HA Sx Sy V HP Hn Hsp.
  destruct (rect_init_fits pts nx ny rw rh Sx Sy V)
    as [r [cw [ch [H1 [H2 [H3 [H4 [H5 [H6 [H7 [H8 [H9 [H10 _]]]]]]]]]]]]].
  destruct (rect_count_main r cw ch) as [d [Hd _]]; auto; try (rewrite H2; auto).
  unfold qstatistic, make_manager. rewrite H1. simpl. rewrite Hd. simpl.
  destruct (0 <? R)%Z eqn:E; qb; [|lia].
  destruct (Qeq_bool (h_area w) 0) eqn:E2; qb; [tauto|].
  rewrite HP. simpl.
  destruct (mapM_total _ _ (sim_chi2 (MRect r) reals) (seq 0 (Z.to_nat R))) as [sims Hs].
  2:{ rewrite Hs. simpl. eauto. }
  intros i Hi. apply in_seq in Hi.
  destruct (poisson_inv _ _ _ _ _ _ HP) as [n [s [it [dd [P1 [A [B [P2 P3]]]]]]]].
  simpl in P1. inversion P1; subst n s it. clear P1.
  apply (replicate_sound (fun l => List.length l = Z.to_nat (Qtrunc (Qlen pts / h_area w * h_area w)))) in P2.
  2:{ intros. eapply reject_sound; eauto. }
  destruct P2 as [L F1].
  assert (EQ : reals = Arr3 (Z.to_nat R) (Z.to_nat (Qtrunc (Qlen pts / h_area w * h_area w))) dd).
  { rewrite P3. unfold squeeze. destruct (Nat.eqb_spec (Z.to_nat R) 1); [lia|].
    destruct (Nat.eqb_spec (Z.to_nat (Qtrunc (Qlen pts / h_area w * h_area w))) 1); [lia|]. reflexivity. }
  destruct (nth_error dd i) as [l|] eqn:NE.
  2:{ apply nth_error_None in NE. lia. }
  assert (Ll : List.length l = Z.to_nat (Qtrunc (Qlen pts / h_area w * h_area w))).
  { apply (nth_error_Forall _ _ _ _ _ F1 NE). }
  assert (SP : sub_pattern reals i = Ok l).
  { rewrite EQ. simpl. rewrite NE. destruct l; [simpl in Ll; lia|reflexivity]. }
  destruct (Hsp i l SP) as [Lx Ly].
  unfold sim_chi2. rewrite SP. simpl.
  assert (V' : valid_grid (rm_cols r) (rm_rows r) 0 0).
  { right. split; [left; reflexivity|]. destruct H9 as [X _]. destruct H10 as [Y _]. auto. }
  destruct (rect_init_fits l (rm_cols r) (rm_rows r) 0 0 Lx Ly V')
    as [r' [cw' [ch' [G1 [G2 [G3 [G4 [G5 [G6 [G7 [G8 [G9 [G10 _]]]]]]]]]]]]].
  destruct (rect_count_main r' cw' ch') as [d' [Hd' _]]; auto; try (rewrite G2; auto).
  rewrite G1. simpl. rewrite Hd'. simpl. eauto.
Qed.
