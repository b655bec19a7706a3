(** Theorems about the Ripley tests as a whole: properties C113, C114, C115. *)
From Coq Require Import ZArith QArith Qabs Qminmax Qreals Reals List Bool String Permutation Sorted Lia Lqa.
From Verif Require Import Base BaseLemmas Spec Order_spec Quadrat_model Geometry_model Random_model Random_spec Random_proofs
  Pattern_spec Pattern_proofs Pairs_proofs DistStats_proofs Random_props DistStats_props
  DistStats_model DistStats_spec Ripley_model Ripley_spec Ripley_proofs.
Import ListNotations.
Local Open Scope Q_scope.

(** ** C113 *)
(** Whatever the data, the hull, the metric, the distances given by the caller and the
    random numbers: the p-value of f_test and g_test at the first support value is 0. *)
Theorem C113_f_first : forall sk query shape coords s d m user edge keep ns us o rest,
  f_test sk query shape coords s d m user edge keep ns us = Val o rest -> (0 < ns)%Z ->
  exists p, nth 0 (o_pvalue o) NaN = Fin p /\ p == 0.
Proof.
  intros sk query shape coords s d m user edge keep ns us o rest H N.
  assert (F : forall pts s d m h edge us sup v us', stat_F query shape pts s d m h edge us = Val (sup, v) us' ->
            nth 0 v NaN = Fin 0 /\ (0 < List.length v)%nat).
  { intros pts s0 d0 m0 h e us0 sup v us' X. unfold stat_F in X. apply rbind_val in X. destruct X as [d1 [u1 [_ X]]].
    apply f_fun_inv in X. destruct X as [m' [hr [l [_ [C _]]]]]. eapply cdf_first; eauto. }
  assert (O : nth 0 (o_statistic o) NaN = Fin 0 /\ (0 < List.length (o_statistic o))%nat).
  { pose proof H as H'. apply test_run_inv in H'.
    destruct H' as [h [empty [us1 [dd [sup [obs [us2 [sims [H1 [H2 [H3 [H4 [H5 ->]]]]]]]]]]]]]. cbn [o_statistic]. exact (F _ _ _ _ _ _ _ _ _ _ H4). }
  eapply zero_at; eauto; [apply O|]. intros h pts empty e d0 us0 v us' _ X _. apply F in X.
  destruct X as [-> _]. destruct O as [-> _]. reflexivity.
Qed.
Print Assumptions C113_f_first.

Theorem C113_g_first : forall sk query shape coords s d m user edge keep ns us o rest,
  g_test sk query shape coords s d m user edge keep ns us = Val o rest -> (0 < ns)%Z ->
  exists p, nth 0 (o_pvalue o) NaN = Fin p /\ p == 0.
Proof.
  intros sk query shape coords s d m user edge keep ns us o rest H N.
  assert (F : forall pts s d m h edge us sup v us', stat_G query pts s d m h edge us = Val (sup, v) us' ->
            nth 0 v NaN = Fin 0 /\ (0 < List.length v)%nat).
  { intros pts s0 d0 m0 h e us0 sup v us' X. unfold stat_G in X. apply rbind_val in X. destruct X as [d1 [u1 [_ X]]].
    apply lift_val in X. destruct X as [X _]. apply g_fun_inv in X. destruct X as [m' [hr [l [_ [C _]]]]]. eapply cdf_first; eauto. }
  assert (O : nth 0 (o_statistic o) NaN = Fin 0 /\ (0 < List.length (o_statistic o))%nat).
  { pose proof H as H'. apply test_run_inv in H'.
    destruct H' as [h [empty [us1 [dd [sup [obs [us2 [sims [H1 [H2 [H3 [H4 [H5 ->]]]]]]]]]]]]]. cbn [o_statistic]. exact (F _ _ _ _ _ _ _ _ _ _ H4). }
  eapply zero_at; eauto; [apply O|]. intros h pts empty e d0 us0 v us' _ X _. apply F in X.
  destruct X as [-> _]. destruct O as [-> _]. reflexivity.
Qed.
Print Assumptions C113_g_first.

(** At the last support value all curves are 1 (or NaN, when none of the distances of
    a pattern lies on the support): the p-value is 0 there, too. *)
Definition last_of (o : outcome xq) (v : list xq) : xq := nth (List.length (o_support o) - 1) v NaN.
Lemma last_zero : forall sk query shape c stat coords s d m user edge ns us o rest sims,
  (forall pts s d m h edge us sup v us', stat pts s d m h edge us = Val (sup, v) us' ->
     exists l, cdf l sup = Ok v /\ forall a, s = SupArr a -> sup = a) ->
  test_run sk query shape xge NaN c stat coords s d m user edge true ns us = Val o rest -> (0 < ns)%Z ->
  (2 <= List.length (o_support o))%nat -> o_sims o = Some sims ->
  last_of o (o_statistic o) <> NaN -> (forall v, In v sims -> last_of o v <> NaN) ->
  exists p, last_of o (o_pvalue o) = Fin p /\ p == 0.
Proof.
  intros sk query shape c stat coords s d m user edge ns us o rest sims F H N L S1 NO NS.
  assert (O : List.length (o_statistic o) = List.length (o_support o) /\
              exists q, last_of o (o_statistic o) = Fin q /\ q == 1).
  { pose proof H as H'. apply test_run_inv in H'.
    destruct H' as [h [empty [us1 [dd [sup [obs [us2 [sims' [H1 [H2 [H3 [H4 [H5 ->]]]]]]]]]]]]].
    unfold last_of in *. cbn [o_support o_statistic] in *. destruct (F _ _ _ _ _ _ _ _ _ _ H4) as [l [C _]].
    destruct (cdf_last l sup obs L C) as [A [B|B]]; [tauto|auto]. }
  destruct O as [O1 [q [O2 O3]]]. unfold last_of in *.
  eapply zero_at; eauto; [lia|]. intros h pts empty e d0 us0 v us' _ X Iv.
  destruct (F _ _ _ _ _ _ _ _ _ _ X) as [l [C A]]. specialize (A _ eq_refl). subst e.
  destruct (cdf_last l _ v L C) as [_ [B|[q' [B1 B2]]]].
  - exfalso. apply (NS v); auto.
  - rewrite B1, O2. simpl. apply Qle_bool_iff. lra.
Qed.
Theorem C113_f_last : forall sk query shape coords s d m user edge ns us o rest sims,
  f_test sk query shape coords s d m user edge true ns us = Val o rest -> (0 < ns)%Z ->
  (2 <= List.length (o_support o))%nat -> o_sims o = Some sims ->
  last_of o (o_statistic o) <> NaN -> (forall v, In v sims -> last_of o v <> NaN) ->
  exists p, last_of o (o_pvalue o) = Fin p /\ p == 0.
Proof.
  intros sk query shape coords s d m user edge ns us o rest sims H. eapply last_zero; [|exact H].
  intros pts s0 d0 m0 h e us0 sup v us' X. unfold stat_F in X. apply rbind_val in X. destruct X as [d1 [u1 [_ X]]].
  apply f_fun_inv in X. destruct X as [m' [hr [l [P [C _]]]]]. exists l. split; [exact C|].
  intros a ->. eapply prepare_array; eauto.
Qed.
Print Assumptions C113_f_last.
Theorem C113_g_last : forall sk query shape coords s d m user edge ns us o rest sims,
  g_test sk query shape coords s d m user edge true ns us = Val o rest -> (0 < ns)%Z ->
  (2 <= List.length (o_support o))%nat -> o_sims o = Some sims ->
  last_of o (o_statistic o) <> NaN -> (forall v, In v sims -> last_of o v <> NaN) ->
  exists p, last_of o (o_pvalue o) = Fin p /\ p == 0.
Proof.
  intros sk query shape coords s d m user edge ns us o rest sims H. unfold g_test in H. eapply last_zero; [|exact H].
  intros pts s0 d0 m0 h e us0 sup v us' X. unfold stat_G in X. apply rbind_val in X. destruct X as [d1 [u1 [_ X]]].
  apply lift_val in X. destruct X as [X _].
  apply g_fun_inv in X. destruct X as [m' [hr [l [P [C _]]]]]. exists l. split; [exact C|].
  intros a ->. eapply prepare_array; eauto.
Qed.
Print Assumptions C113_g_last.

(** k_test: the p-value is 0 at every support value that is not positive. *)
Lemma k_fun_zero : forall query dist coords s d m edge sup v j,
  k_fun query dist coords s d m edge = Ok (sup, v) -> (forall m p q, 0 <= dist m p q) ->
  (d = DNone) -> (j < List.length sup)%nat -> nth j sup 0 <= 0 ->
  exists q, nth j v NaN = Fin q /\ q == 0.
Proof.
  intros query dist coords s d m edge sup v j H P -> J S0.
  apply k_fun_inv in H. destruct H as [m' [b [l [_ [_ [N [K ->]]]]]]].
  cbn [k_distances] in K. injection K as <-.
  set (D := fun i j => dist m' (nth i coords (0, 0)) (nth j coords (0, 0))).
  rewrite (nth_indep _ NaN (k_value (List.length coords) (box_area b) (pdist (List.length coords) D) 0)) by (rewrite map_length; exact J).
  rewrite map_nth. destruct (C54_k_value (List.length coords) (box_area b) (pdist (List.length coords) D) (nth j sup 0) N)
    as [q [Q1 [Q2 Q3]]]; [apply Qabs_nonneg|].
  exists q. split; [exact Q1|].
  assert (C : Counts (fun x => x < nth j sup 0) (pdist (List.length coords) D) 0).
  { assert (G : forall x, In x (pdist (List.length coords) D) -> 0 <= x).
    { intros x X. apply in_pdist in X. destruct X as [i [k [_ ->]]]. apply P. }
    revert G. generalize (pdist (List.length coords) D). intros pd. induction pd as [|x pd IH]; intros G; constructor.
    - intro X. specialize (G x (or_introl eq_refl)). lra.
    - apply IH. intros y Y. apply G. right. exact Y. }
  specialize (Q2 0%nat C). change (inject_Z (Z.of_nat 0)) with 0 in Q2.
  assert (NN : 0 < inject_Z (Z.of_nat (List.length coords))) by (apply inject_Z_pos; lia).
  set (n := inject_Z (Z.of_nat (List.length coords))) in *. assert (M : q * (n * n) == 0) by lra.
  apply Qmult_integral in M. destruct M as [M|M]; [exact M|]. assert (0 < n * n) by (apply Qmult_lt_0_compat; exact NN). lra.
Qed.
Theorem C113_k_first : forall sk query dist shape coords s m user edge keep ns us o rest j,
  k_test sk query dist shape coords s TDNone m user edge keep ns us = Val o rest -> (0 < ns)%Z ->
  (forall m p q, 0 <= dist m p q) ->
  (j < List.length (o_support o))%nat -> nth j (o_support o) 0 <= 0 ->
  exists p, nth j (o_pvalue o) NaN = Fin p /\ p == 0.
Proof.
  intros sk query dist shape coords s m user edge keep ns us o rest j H N P J S0.
  assert (F : forall pts s m h edge us sup v us', stat_K query dist pts s TDNone m h edge us = Val (sup, v) us' ->
            (j < List.length sup)%nat -> nth j sup 0 <= 0 -> List.length v = List.length sup /\ exists q, nth j v NaN = Fin q /\ q == 0).
  { intros pts s0 m0 h e us0 sup v us' X JJ SS. unfold stat_K in X. cbn [one lift rbind] in X.
    apply lift_val in X. destruct X as [X _]. split.
    - apply k_fun_inv in X. destruct X as [m' [b [l [_ [_ [_ [_ ->]]]]]]]. apply map_length.
    - eapply k_fun_zero; eauto. }
  assert (O : List.length (o_statistic o) = List.length (o_support o) /\ exists q, nth j (o_statistic o) NaN = Fin q /\ q == 0).
  { pose proof H as H'. apply test_run_inv in H'.
    destruct H' as [h [empty [us1 [dd [sup [obs [us2 [sims [H1 [H2 [H3 [H4 [H5 ->]]]]]]]]]]]]].
    cbn [o_support o_statistic] in *. inversion H3; subst dd. eapply F; eauto. }
  destruct O as [O1 [q [O2 O3]]]. eapply zero_at; eauto; [lia|]. intros h pts empty e d0 us0 v us' D X _. inversion D; subst d0.
  assert (E : e = o_support o).
  { unfold stat_K in X. cbn [one lift rbind] in X. apply lift_val in X. destruct X as [X _]. apply k_fun_inv in X.
    destruct X as [m' [b [l [X _]]]]. eapply prepare_array; eauto. }
  subst e. destruct (F _ _ _ _ _ _ _ _ _ X J S0) as [_ [q' [Q1 Q2]]]. rewrite Q1, O2. simpl. apply Qle_bool_iff. lra.
Qed.
Print Assumptions C113_k_first.

(** Every support made from a number of steps, as by default, starts at 0. *)
Theorem C113_k_default : forall sk query dist shape coords s m user edge keep ns us o rest,
  k_test sk query dist shape coords s TDNone m user edge keep ns us = Val o rest -> (0 < ns)%Z ->
  (forall m p q, 0 <= dist m p q) -> (s = SupNone \/ exists z, s = SupInt z /\ (0 < z)%Z) ->
  exists p, nth 0 (o_pvalue o) NaN = Fin p /\ p == 0.
Proof.
  intros sk query dist shape coords s m user edge keep ns us o rest H N P SS.
  assert (E : (0 < List.length (o_support o))%nat /\ nth 0 (o_support o) 0 <= 0).
  { pose proof H as H'. apply test_run_inv in H'.
    destruct H' as [h [empty [us1 [dd [sup [obs [us2 [sims [H1 [H2 [H3 [H4 [H5 ->]]]]]]]]]]]]].
    cbn [o_support]. inversion H3; subst dd. unfold stat_K in H4. cbn [one lift rbind] in H4.
    apply lift_val in H4. destruct H4 as [H4 _]. apply k_fun_inv in H4. destruct H4 as [m' [b [l [Q _]]]].
    unfold prepare in Q. destruct edge; [discriminate|]. cbn [prepare_hull] in Q.
    destruct (compute_mbb coords) as [b'|]; [|discriminate]. cbn [bind] in Q.
    destruct (is_none DNone && _); [discriminate|].
    assert (MS : exists nn, make_support nn s = Ok sup).
    { destruct m; try discriminate; (destruct (make_support _ s) as [sup0|] eqn:MS; [|discriminate]; cbn [bind] in Q; inversion Q; subst; eauto). }
    clear Q. destruct MS as [nn MS].
    assert (LS : exists top z, (0 < z)%Z /\ linspace 0 top z = Ok sup).
    { destruct SS as [->|[z [-> Z0]]]; simpl in MS; destruct nn as [[|x l']|]; try discriminate; cbn [bind] in MS;
        do 2 eexists; (split; [|exact MS]); lia. }
    destruct LS as [top [z [Z0 LS]]]. unfold linspace in LS. assert (ZN : (z <? 0)%Z = false) by (apply Z.ltb_ge; lia).
    rewrite ZN in LS. destruct (z =? 1)%Z; [inversion LS; simpl; split; [lia|lra]|].
    inversion LS. unfold zrange. destruct (Z.to_nat z) as [|z'] eqn:Ez; [lia|]. simpl. split; [lia|]. 
    change (inject_Z 0) with 0. lra. }
  eapply C113_k_first; eauto; apply E.
Qed.
Print Assumptions C113_k_default.

(** j_test: the hazard ratio is 1 at the first support value. *)
Lemma hazard_ratios : forall gv fv, List.length gv = List.length fv ->
  ratios gv fv (map (fun gf => hazard (fst gf) (snd gf)) (combine gv fv)).
Proof.
  intros gv fv L. split; [rewrite map_length, combine_length; lia|]. intros j J.
  assert (E : nth j (map (fun gf => hazard (fst gf) (snd gf)) (combine gv fv)) NaN = hazard (nth j gv NaN) (nth j fv NaN)) by (apply nth_combine; lia).
  rewrite E. destruct C57_hazard_values as [H1 [H2 [H3 [H4 H5]]]].
  destruct (nth j gv NaN) as [g| | |]; destruct (nth j fv NaN) as [f| | |]; simpl; auto.
Qed.
Lemma j_stat_same : forall arr e f g interp, (arr = None \/ arr = Some e) ->
  j_stat arr (e, f) (e, g) interp false = (e, map (fun gf => hazard (fst gf) (snd gf)) (combine g f)).
Proof. intros arr e f g interp [->| ->]; unfold j_stat; rewrite ?allclose_refl; reflexivity. Qed.
Lemma j_fun_values : forall query shape interp coords s gd fd m h edge us sup v us',
  (gd = DNone <-> fd = DNone) ->
  j_fun query shape interp coords s gd fd m h edge us = Val (sup, v) us' ->
  exists fv gv, f_fun query shape coords s fd m h edge us = Val (sup, fv) us' /\
    g_fun query coords s gd m edge = Ok (sup, gv) /\ v = map (fun gf => hazard (fst gf) (snd gf)) (combine gv fv).
Proof.
  intros query shape interp coords s gd fd m h edge us sup v us' GF H. unfold j_fun in H.
  apply rbind_val in H. destruct H as [[fsup fv] [u1 [H1 H]]]. apply rbind_val in H. destruct H as [[gsup gv] [u2 [H2 H]]].
  apply lift_val in H2. destruct H2 as [H2 ->]. pose proof H1 as H1'. pose proof H2 as H2'.
  apply f_fun_inv in H1. destruct H1 as [fm [fh [fl [F1 [F2 _]]]]]. apply g_fun_inv in H2. destruct H2 as [gm [gh [gl [G1 [G2 _]]]]].
  assert (E : fsup = gsup).
  { unfold prepare in F1, G1. destruct edge; [discriminate|].
    destruct (prepare_hull coords h); [|discriminate]. destruct (prepare_hull coords HNone); [|discriminate].
    cbn [bind] in F1, G1. assert (IN : is_none fd = is_none gd).
    { destruct fd, gd; try reflexivity; exfalso; destruct GF as [A B]; try (specialize (A eq_refl)); try (specialize (B eq_refl)); discriminate. }
    rewrite IN in F1. destruct (is_none gd && _); [discriminate|].
    destruct m; try discriminate; (destruct (make_support _ s) as [su|]; [|discriminate]); cbn [bind] in F1, G1;
      inversion F1; inversion G1; congruence. }
  subst gsup. rewrite j_stat_same in H
    by (destruct s; auto; right; f_equal; symmetry; eapply prepare_array; eauto).
  inversion H; subst. exists fv, gv. auto.
Qed.
Lemma j_fun_first : forall query shape interp coords s gd fd m h edge us sup v us',
  (gd = DNone <-> fd = DNone) ->
  j_fun query shape interp coords s gd fd m h edge us = Val (sup, v) us' ->
  (0 < List.length v)%nat /\ exists q, nth 0 v NaN = Fin q /\ q == 1.
Proof.
  intros query shape interp coords s gd fd m h edge us sup v us' GF H. apply j_fun_values in H; [|exact GF].
  destruct H as [fv [gv [H1 [H2 ->]]]]. apply f_fun_inv in H1. destruct H1 as [fm [fh [fl [F1 [F2 _]]]]].
  apply g_fun_inv in H2. destruct H2 as [gm [gh [gl [G1 [G2 _]]]]]. apply cdf_first in F2. apply cdf_first in G2.
  destruct fv as [|f0 fv]; [simpl in F2; lia|]. destruct gv as [|g0 gv]; [simpl in G2; lia|].
  simpl in F2, G2. destruct F2 as [-> _]. destruct G2 as [-> _]. simpl. split; [lia|]. eexists. split; [vm_compute; reflexivity|]. reflexivity.
Qed.
Theorem C113_j_first : forall sk query shape interp coords s m user edge keep ns us o rest,
  j_test_full sk query shape interp coords s TDNone m user edge keep ns us = Val o rest -> (0 < ns)%Z ->
  exists p, nth 0 (o_pvalue o) NaN = Fin p /\ p == 0.
Proof.
  intros sk query shape interp coords s m user edge keep ns us o rest H N.
  assert (F : forall nn pts empty s d m h edge us sup v us', test_distances query TJ nn m pts empty = Ok d ->
            stat_J query shape interp pts s d m h edge us = Val (sup, v) us' ->
            (0 < List.length v)%nat /\ exists q, nth 0 v NaN = Fin q /\ q == 1).
  { intros nn pts empty s0 d0 m0 h e us0 sup v us' D X. unfold test_distances in D.
    destruct (nn m0 pts empty) as [le|]; [|discriminate]. cbn [bind] in D.
    destruct (other_distances query m0 pts pts) as [lg|]; [|discriminate]. inversion D; subst d0.
    cbn [stat_J] in X. eapply j_fun_first; [|exact X]. split; discriminate. }
  assert (O : (0 < List.length (o_statistic o))%nat /\ exists q, nth 0 (o_statistic o) NaN = Fin q /\ q == 1).
  { pose proof H as H'. apply test_run_inv in H'.
    destruct H' as [h [empty [us1 [dd [sup [obs [us2 [sims [H1 [H2 [H3 [H4 [H5 ->]]]]]]]]]]]]]. cbn [o_statistic].
    exact (F _ _ _ _ _ _ _ _ _ _ _ _ H3 H4). }
  destruct O as [O1 [q [O2 O3]]]. eapply zero_at; eauto. intros h pts empty e d0 us0 v us' D X _.
  destruct (F _ _ _ _ _ _ _ _ _ _ _ _ D X) as [_ [q' [Q1 Q2]]]. rewrite Q1, O2. simpl. apply Qle_bool_iff. lra.
Qed.
Print Assumptions C113_j_first.

(** ** C114 *)
Lemma rge_xge : forall lin s a b, 0 <= a -> 0 <= b ->
  rge (l_of_k lin s (Fin a)) (l_of_k lin s (Fin b)) = xge (Fin a) (Fin b).
Proof.
  intros lin s a b A B. unfold l_of_k, rge, xge. pose proof PI_RGT_0 as P.
  assert (QA : (0 <= Q2R a)%R) by (rewrite <- RMicromega.Q2R_0; apply Qle_Rle; exact A).
  assert (QB : (0 <= Q2R b)%R) by (rewrite <- RMicromega.Q2R_0; apply Qle_Rle; exact B).
  assert (I : (0 < / PI)%R) by (apply Rinv_0_lt_compat; exact P).
  assert (M : (sqrt (Q2R b / PI) <= sqrt (Q2R a / PI))%R <-> b <= a).
  { split; intro H.
    - apply sqrt_le_0 in H; [|apply Rmult_le_pos; [assumption|apply Rlt_le, I]..].
      apply Rle_Qle. apply Rmult_le_reg_r with (/ PI)%R; [exact I|exact H].
    - apply sqrt_le_1_alt. apply Rmult_le_compat_r; [apply Rlt_le, I|apply Qle_Rle, H]. }
  assert (M2 : ((if lin then sqrt (Q2R b / PI) - Q2R s else sqrt (Q2R b / PI)) <=
                (if lin then sqrt (Q2R a / PI) - Q2R s else sqrt (Q2R a / PI)))%R <-> b <= a).
  { rewrite <- M. destruct lin; [|tauto]. split; intro H; Lra.lra. }
  cbv zeta. destruct (Rle_dec _ _) as [H|H]; symmetry.
  - apply Qle_bool_iff, M2, H.
  - apply not_true_is_false. intro X. apply H, M2, Qle_bool_iff, X.
Qed.

Lemma stat_L_K : forall query dist lin pts s d m h edge us,
  stat_L query dist lin pts s d m h edge us =
  match stat_K query dist pts s d m h edge us with
  | Val (sup, ks) r => Val (sup, map (fun sk => l_of_k lin (fst sk) (snd sk)) (combine sup ks)) r
  | Exc e => Exc e | Short => Short
  end.
Proof.
  intros. unfold stat_L, stat_K. destruct (one _ d) as [d'|]; [|reflexivity]. cbn [lift rbind]. unfold l_fun.
  destruct (k_fun query dist pts s d' m edge) as [[sup ks]|]; reflexivity.
Qed.

Lemma stat_K_values : forall query dist pts s d m h edge us sup ks us',
  stat_K query dist pts s d m h edge us = Val (sup, ks) us' ->
  (forall a, s = SupArr a -> sup = a) /\ List.length ks = List.length sup /\
  forall j, (j < List.length sup)%nat -> exists q, nth j ks NaN = Fin q /\ 0 <= q.
Proof.
  intros query dist pts s d m h edge us sup ks us' H. unfold stat_K in H. apply rbind_val in H. destruct H as [d' [u1 [_ H]]].
  apply lift_val in H. destruct H as [H _]. apply k_fun_inv in H. destruct H as [m' [b [l [P [_ [N [_ ->]]]]]]].
  split; [intros a ->; eapply prepare_array; eauto|]. split; [apply map_length|]. intros j J.
  rewrite (nth_indep _ NaN (k_value (List.length pts) (box_area b) l 0)) by (rewrite map_length; exact J).
  rewrite map_nth. destruct (C54_k_value (List.length pts) (box_area b) l (nth j sup 0) N) as [q [Q1 [_ Q3]]]; [apply Qabs_nonneg|].
  eauto.
Qed.

Lemma nth_l_of_k : forall lin sup ks j, (j < List.length sup)%nat -> List.length ks = List.length sup ->
  nth j (map (fun sk => l_of_k lin (fst sk) (snd sk)) (combine sup ks)) None = l_of_k lin (nth j sup 0) (nth j ks NaN).
Proof.
  intros lin sup ks j J L.
  rewrite (nth_indep _ None (l_of_k lin (fst (0, NaN)) (snd (0, NaN)))) by (rewrite map_length, combine_length; lia).
  rewrite (map_nth (fun sk : Q * xq => l_of_k lin (fst sk) (snd sk))). rewrite combine_nth by auto. reflexivity.
Qed.

Lemma l_of_k_is_L : forall lin s q, 0 <= q -> is_L lin s (Fin q) (l_of_k lin s (Fin q)).
Proof.
  intros lin s q Q1. exists q, (sqrt (Q2R q / PI)). pose proof PI_RGT_0 as P.
  assert (QA : (0 <= Q2R q)%R) by (rewrite <- RMicromega.Q2R_0; apply Qle_Rle; exact Q1).
  assert (D : (0 <= Q2R q / PI)%R) by (apply Rmult_le_pos; [exact QA|apply Rlt_le, Rinv_0_lt_compat, P]).
  split; [reflexivity|]. split; [unfold l_of_k; destruct lin; f_equal; Lra.lra|]. split; [apply sqrt_pos|].
  rewrite Rmult_assoc, sqrt_sqrt by exact D. field. Lra.lra.
Qed.

(** k_test and l_test, called with the same arguments and the same random numbers, end
    in the same way and return the same support and exactly the same p-values, with or
    without linearisation; the L curves are the transformed K curves, all values finite. *)
Theorem C114_same_pvalues : forall sk query dist shape lin coords s d m user edge keep ns us,
  match k_test sk query dist shape coords s d m user edge keep ns us with
  | Val ok rest => exists ol, l_test sk query dist shape lin coords s d m user edge keep ns us = Val ol rest /\
      o_support ol = o_support ok /\ o_pvalue ol = o_pvalue ok /\
      List.length (o_statistic ol) = List.length (o_statistic ok) /\
      (forall j, (j < List.length (o_support ok))%nat ->
         is_L lin (nth j (o_support ok) 0) (nth j (o_statistic ok) NaN) (nth j (o_statistic ol) None)) /\
      (forall ks, o_sims ok = Some ks -> exists ls, o_sims ol = Some ls /\ List.length ls = List.length ks /\
         forall i j, (i < List.length ks)%nat -> (j < List.length (o_support ok))%nat ->
           is_L lin (nth j (o_support ok) 0) (nth j (nth i ks []) NaN) (nth j (nth i ls []) None))
  | Exc e => l_test sk query dist shape lin coords s d m user edge keep ns us = Exc e
  | Short => l_test sk query dist shape lin coords s d m user edge keep ns us = Short
  end.
Proof.
  intros sk query dist shape lin coords s d m user edge keep ns us.
  unfold k_test, l_test, test_run.
  destruct (build_best_tree sk m) as [tr|]; [|reflexivity]. cbn [lift rbind].
  destruct (prepare_hull coords user) as [h|]; [|reflexivity]. cbn [lift rbind].
  set (d1 := match d with TDNone => lift (test_distances query TK (other_distances query) m coords []) us | _ => Val d us end).
  change (match d with TDNone => lift (test_distances query TL (other_distances query) m coords []) us | _ => Val d us end) with d1.
  destruct d1 as [dd u1|e|]; [|reflexivity..]. cbn [rbind].
  rewrite stat_L_K. destruct (stat_K query dist coords s dd m (as_arg 0 h) edge u1) as [[sup ks] u2|e|] eqn:EK; [|reflexivity..].
  cbn [rbind]. set (f := fun v : list xq => map (fun sk => l_of_k lin (fst sk) (snd sk)) (combine sup v)).
  set (one1 := one_simulation query TK (stat_K query dist) (List.length coords) (hull_seen shape coords h) (as_arg 0 h) m edge [] sup).
  set (one2 := one_simulation query TL (stat_L query dist lin) (List.length coords) (hull_seen shape coords h) (as_arg 0 h) m edge [] sup).
  assert (O12 : forall us, one2 us = match one1 us with Val v r => Val (f v) r | Exc e => Exc e | Short => Short end).
  { intros us0. unfold one1, one2, one_simulation.
    destruct (simulated_pattern (hull_seen shape coords h) (List.length coords) us0) as [a r|e|]; [|reflexivity..]. cbn [rbind].
    destruct (two_dim a) as [pts|]; [|reflexivity]. cbn [lift rbind test_distances].
    rewrite stat_L_K. destruct (stat_K query dist pts (SupArr sup) TDNone m (as_arg 0 h) edge r) as [[sup' ks'] u3|e|] eqn:EK'; [|reflexivity..].
    cbn [rbind snd]. apply stat_K_values in EK'. destruct EK' as [A _]. rewrite (A _ eq_refl). reflexivity. }
  rewrite (simulations_map _ _ f one1 one2 O12).
  destruct (simulations one1 (Z.to_nat ns) u2) as [sims rest|e|] eqn:ES; [|reflexivity..]. cbn [rbind].
  destruct (stat_K_values _ _ _ _ _ _ _ _ _ _ _ _ EK) as [_ [LK VK]].
  destruct (simulations_inv _ _ _ _ _ _ ES) as [_ FS].
  assert (VS : forall v, In v sims -> List.length v = List.length sup /\
            forall j, (j < List.length sup)%nat -> exists q, nth j v NaN = Fin q /\ 0 <= q).
  { intros v Hv. destruct (FS v Hv) as [ua [ub O]]. unfold one1, one_simulation in O.
    apply rbind_val in O. destruct O as [a [uc [_ O]]]. apply rbind_val in O. destruct O as [pts [ud [_ O]]].
    apply rbind_val in O. destruct O as [d' [ue [_ O]]]. apply rbind_val in O. destruct O as [[s' v'] [ug [O1 O]]].
    inversion O; subst. apply stat_K_values in O1. destruct O1 as [A [B C]]. specialize (A _ eq_refl). subst s'. auto. }
  eexists. split; [reflexivity|]. cbn [o_support o_pvalue o_statistic o_sims]. split; [reflexivity|].
  assert (LF : List.length (f ks) = List.length ks) by (unfold f; rewrite map_length, combine_length; lia).
  split; [|split; [exact LF|split]].
  - destruct sims as [|v0 sims]; [reflexivity|]. cbn [map]. change (map (fun sk0 : Q * xq => l_of_k lin (fst sk0) (snd sk0)) (combine sup ks)) with (f ks). rewrite LF. apply map_ext_in. intros j J. apply in_seq in J.
    f_equal. unfold pvalue_of. change (f v0 :: map f sims) with (map f (v0 :: sims)). rewrite count_map.
    assert (CE : count (fun x => rge (nth j (f x) None) (nth j (f ks) None)) (v0 :: sims) =
                 count (fun r => xge (nth j r NaN) (nth j ks NaN)) (v0 :: sims)).
    { apply count_ext. intros v Hv. destruct (VS v Hv) as [LV QV]. unfold f. rewrite !nth_l_of_k by (auto; lia).
      destruct (QV j) as [a [-> A]]; [lia|]. destruct (VK j) as [b [-> B]]; [lia|]. apply rge_xge; auto. }
    rewrite CE. reflexivity.
  - intros j J. change (map (fun sk0 : Q * xq => l_of_k lin (fst sk0) (snd sk0)) (combine sup ks)) with (f ks).
    unfold f. rewrite nth_l_of_k by auto. destruct (VK j J) as [q [-> Q1]]. apply l_of_k_is_L. exact Q1.
  - intros ks' HK. destruct keep; [|discriminate]. inversion HK; subst ks'. exists (map f sims). split; [reflexivity|].
    split; [apply map_length|]. intros i j I J.
    rewrite (nth_indep _ [] (f [])) by (rewrite map_length; exact I). rewrite map_nth.
    destruct (VS (nth i sims [])) as [LV QV]; [apply nth_In; exact I|]. unfold f. rewrite nth_l_of_k by auto.
    destruct (QV j J) as [q [-> Q1]]. apply l_of_k_is_L. exact Q1.
Qed.
Print Assumptions C114_same_pvalues.

(** ** C115 *)
Lemma Forall2_imp : forall A B (P Q : A -> B -> Prop), (forall a b, P a b -> Q a b) ->
  forall la lb, Forall2 P la lb -> Forall2 Q la lb.
Proof. intros A B P Q H la lb F. induction F; constructor; auto. Qed.
Lemma Forall2_len : forall A B (P : A -> B -> Prop) la lb, Forall2 P la lb -> List.length la = List.length lb.
Proof. intros A B P la lb F. induction F; simpl; auto. Qed.
Lemma pvalues_mc : forall ns obs sims, (0 < ns)%Z -> List.length sims = Z.to_nat ns ->
  mc_pvalues ns obs sims (map (fun j => Fin (pvalue_of xge NaN ns sims obs j)) (seq 0 (List.length obs))).
Proof.
  intros ns obs sims N L. 
  assert (E : map (fun i => nth i sims []) (seq 0 (Z.to_nat ns)) = sims).
  { rewrite <- L. clear. induction sims as [|v sims IH]; [reflexivity|]. simpl. f_equal. rewrite <- seq_shift, map_map. exact IH. }
  destruct (C60_pvalues [] obs (fun i => nth i sims []) ns true N) as [_ [_ [_ [A B]]]].
  unfold ripley_test in A, B. assert (NZ : (ns <=? 0)%Z = false) by (apply Z.leb_gt; lia). rewrite NZ, E in A, B.
  destruct sims as [|v0 sims]; [simpl in L; lia|]. cbn [r_pvalue] in A, B. split; [exact A|].
  intros j c J C. destruct (B j c J) as [p [P1 [P2 _]]].
  - clear -C E. assert (G : forall ids, Counts (fun v => at_least (nth j v NaN) (nth j obs NaN)) (map (fun i => nth i (v0 :: sims) []) ids) c ->
      Counts (fun i => at_least (nth j (nth i (v0 :: sims) []) NaN) (nth j obs NaN)) ids c).
    { intros ids. revert c C. intros c _. revert c. induction ids as [|i ids IH]; intros c X; inversion X; subst; constructor; auto. }
    apply G. rewrite E. exact C.
  - eauto.
Qed.

Section C115.
Variable sk : option (list string * list string).
Variable query : metric -> list pt -> pt -> nat -> row.
Variable dist : metric -> pt -> pt -> Q.
Variable shape : list pt -> hullres -> hull.
Hypothesis tree_ok : good_tree query dist.

(** g_test without distances of the caller: the observed curve and the curve of every
    simulated pattern are the cumulative fractions, on the same support, of the
    distances (in the metric asked for) of the points of the pattern at hand to their
    nearest neighbours; the simulated patterns have n points of the hull. *)
Theorem C115_g : forall coords s m user edge keep ns us o rest,
  g_test sk query shape coords s TDNone m user edge keep ns us = Val o rest -> (0 < ns)%Z -> unit_stream us ->
  (forall h, prepare_hull coords user = Ok h -> sane_box (h_bbox (hull_seen shape coords h))) ->
  (2 <= List.length (o_support o))%nat ->
  exists h pats sims, prepare_hull coords user = Ok h /\
    o_sims o = (if keep then Some sims else None) /\ List.length pats = Z.to_nat ns /\
    (exists d, closest (dist m) other_number coords coords d /\ cumulative (o_support o) d (o_statistic o)) /\
    Forall2 (fun p v => drawn_in (hull_seen shape coords h) (List.length coords) p /\
      exists d, closest (dist m) other_number p p d /\ cumulative (o_support o) d v) pats sims /\
    mc_pvalues ns (o_statistic o) sims (o_pvalue o).
Proof using tree_ok.
  intros coords s m user edge keep ns us o rest H N U SB L.
  assert (G : forall p s h us sup v us', stat_G query p s TDNone m h edge us = Val (sup, v) us' -> (2 <= List.length sup)%nat ->
            (exists d, closest (dist m) other_number p p d /\ cumulative sup d v)).
  { intros p s0 h us0 sup v us' X LS. unfold stat_G in X. cbn [one lift rbind] in X. apply lift_val in X. destruct X as [X _].
    apply g_fun_inv in X. destruct X as [m' [hr [l [P [C D]]]]]. apply prepare_metric in P. subst m'.
    exists l. split; [|apply cdf_cumulative; auto]. cbn [g_distances] in D. eapply other_closest; eauto. }
  apply test_shape in H; auto.
  - destruct H as [h [empty [dd [u1 [u2 [sims [pats [H1 [H2 [H3 [H4 [H5 [H6 [H7 H8]]]]]]]]]]]]]].
    exists h, pats, sims. inversion H3; subst dd. split; [exact H1|]. split; [exact H7|].
    split; [rewrite (Forall2_len _ _ _ _ _ H6); exact H5|]. split; [eapply G; eauto|]. split.
    + eapply Forall2_imp; [|exact H6]. intros p v [A [B [d [ua [ub [sup' [C D]]]]]]]. split; [split; auto|].
      inversion C; subst d. assert (E : sup' = o_support o).
      { unfold stat_G in D. cbn [one lift rbind] in D. apply lift_val in D. destruct D as [D _]. apply g_fun_inv in D.
        destruct D as [m' [hr [l [P _]]]]. eapply prepare_array; eauto. }
      subst sup'. eapply G; eauto.
    + rewrite H8 by auto. apply pvalues_mc; auto.
  - intros p empty nn s0 d hu us0 sv us' A B. unfold stat_G in B. apply rbind_val in B. destruct B as [d1 [u1 [B1 B]]].
    apply lift_val in B1. apply lift_val in B. destruct B1 as [_ ->]. tauto.
Qed.

(** k_test likewise, with the bounding box of the pattern at hand. *)
Theorem C115_k : forall coords s m user edge keep ns us o rest,
  k_test sk query dist shape coords s TDNone m user edge keep ns us = Val o rest -> (0 < ns)%Z -> unit_stream us ->
  (forall h, prepare_hull coords user = Ok h -> sane_box (h_bbox (hull_seen shape coords h))) ->
  exists h pats sims, prepare_hull coords user = Ok h /\
    o_sims o = (if keep then Some sims else None) /\ List.length pats = Z.to_nat ns /\
    (forall j, (j < List.length (o_support o))%nat -> exists q, nth j (o_statistic o) NaN = Fin q /\
       is_K (dist m) coords (nth j (o_support o) 0) q) /\
    Forall2 (fun p v => drawn_in (hull_seen shape coords h) (List.length coords) p /\
      forall j, (j < List.length (o_support o))%nat -> exists q, nth j v NaN = Fin q /\
        is_K (dist m) p (nth j (o_support o) 0) q) pats sims /\
    mc_pvalues ns (o_statistic o) sims (o_pvalue o).
Proof using Type.
  clear tree_ok. intros coords s m user edge keep ns us o rest H N U SB.
  assert (G : forall p s h us sup v us', stat_K query dist p s TDNone m h edge us = Val (sup, v) us' ->
            forall j, (j < List.length sup)%nat -> exists q, nth j v NaN = Fin q /\ is_K (dist m) p (nth j sup 0) q).
  { intros p s0 h us0 sup v us' X j J. unfold stat_K in X. cbn [one lift rbind] in X. apply lift_val in X. destruct X as [X _].
    apply k_fun_inv in X. destruct X as [m' [b [l [P [B [NP [D ->]]]]]]]. apply prepare_metric in P. subst m'.
    cbn [k_distances] in D. injection D as <-.
    set (DD := fun i j => dist m (nth i p (0, 0)) (nth j p (0, 0))).
    rewrite (nth_indep _ NaN (k_value (List.length p) (box_area b) (pdist (List.length p) DD) 0)) by (rewrite map_length; exact J).
    rewrite map_nth. destruct (C54_k_value (List.length p) (box_area b) (pdist (List.length p) DD) (nth j sup 0) NP)
      as [q [Q1 [Q2 _]]]; [apply Qabs_nonneg|].
    exists q. split; [exact Q1|]. pose proof (mbb_tight_box _ _ B) as T.
    set (prs := List.concat (map (fun i => map (fun j => (i, j)) (seq (S i) (List.length p - S i))) (seq 0 (List.length p)))).
    assert (PD : pdist (List.length p) DD = map (fun ij => DD (fst ij) (snd ij)) prs).
    { unfold pdist, prs. rewrite concat_map, map_map. f_equal. apply map_ext. intros i. rewrite map_map. reflexivity. }
    exists b, (count (fun x => Qltb x (nth j sup 0)) (pdist (List.length p) DD)).
    split; [exact T|]. split.
    - fold prs. rewrite PD, count_map. apply Counts_filter. intros ij _. apply Qltb_lt.
    - assert (A : 0 <= (bxmax b - bxmin b) * (bymax b - bymin b)).
      { destruct (tight_box_sane _ _ T). apply Qmult_le_0_compat; lra. }
      assert (BA : box_area b == (bxmax b - bxmin b) * (bymax b - bymin b)) by (unfold box_area; rewrite Qabs_pos; [reflexivity|exact A]).
      rewrite (Q2 (count (fun x => Qltb x (nth j sup 0)) (pdist (List.length p) DD))).
      + rewrite BA. reflexivity.
      + apply Counts_filter. intros x _. apply Qltb_lt. }
  apply test_shape in H; auto.
  - destruct H as [h [empty [dd [u1 [u2 [sims [pats [H1 [H2 [H3 [H4 [H5 [H6 [H7 H8]]]]]]]]]]]]]].
    exists h, pats, sims. inversion H3; subst dd. split; [exact H1|]. split; [exact H7|].
    split; [rewrite (Forall2_len _ _ _ _ _ H6); exact H5|]. split; [eapply G; eauto|]. split.
    + eapply Forall2_imp; [|exact H6]. intros p v [A [B [d [ua [ub [sup' [C D]]]]]]]. split; [split; auto|].
      inversion C; subst d. assert (E : sup' = o_support o).
      { unfold stat_K in D. cbn [one lift rbind] in D. apply lift_val in D. destruct D as [D _]. apply k_fun_inv in D.
        destruct D as [m' [hr [l [P _]]]]. eapply prepare_array; eauto. }
      subst sup'. eapply G; eauto.
    + rewrite H8 by auto. apply pvalues_mc; auto.
  - intros p empty nn s0 d hu us0 sv us' A B. unfold stat_K in B. apply rbind_val in B. destruct B as [d1 [u1 [B1 B]]].
    apply lift_val in B1. apply lift_val in B. destruct B1 as [_ ->]. tauto.
Qed.

(** f_test: the same 1000 points of the bounding box of the coordinates are used
    throughout, but for the data the distance of empty-space point number i is that to
    the closest pattern point other than number i, for a simulated pattern that to the
    closest of all its points. *)
Theorem C115_f : forall coords s m user edge keep ns us o rest,
  f_test sk query shape coords s TDNone m user edge keep ns us = Val o rest -> (0 < ns)%Z -> unit_stream us ->
  (forall h, prepare_hull coords user = Ok h -> sane_box (h_bbox (hull_seen shape coords h))) ->
  (2 <= List.length (o_support o))%nat ->
  exists h empty pats sims, prepare_hull coords user = Ok h /\
    List.length empty = 1000%nat /\ (exists b, tight_box b coords /\ forall p, In p empty -> in_box b p) /\
    o_sims o = (if keep then Some sims else None) /\ List.length pats = Z.to_nat ns /\
    (exists d, closest (dist m) other_number coords empty d /\ cumulative (o_support o) d (o_statistic o)) /\
    Forall2 (fun p v => drawn_in (hull_seen shape coords h) (List.length coords) p /\
      exists d, closest (dist m) any_point p empty d /\ cumulative (o_support o) d v) pats sims /\
    mc_pvalues ns (o_statistic o) sims (o_pvalue o).
Proof using tree_ok.
  intros coords s m user edge keep ns us o rest H N U SB L.
  assert (G : forall p s h us sup l v us', stat_F query shape p s (TDArr (D1 l)) m h edge us = Val (sup, v) us' -> (2 <= List.length sup)%nat ->
            cumulative sup l v).
  { intros p s0 h us0 sup l v us' X LS. unfold stat_F in X. cbn [one lift rbind] in X.
    apply f_fun_inv in X. destruct X as [m' [hr [l' [P [C D]]]]]. destruct D as [D _]; [discriminate|].
    inversion D; subst l'. apply cdf_cumulative; auto. }
  apply test_shape in H; auto.
  - destruct H as [h [empty [dd [u1 [u2 [sims [pats [H1 [[H2 H2'] [H3 [H4 [H5 [H6 [H7 H8]]]]]]]]]]]]]].
    exists h, empty, pats, sims. cbn [test_distances] in H3.
    destruct (other_distances query m coords empty) as [e|] eqn:E; [|discriminate]. cbn [bind] in H3. inversion H3; subst dd.
    split; [exact H1|]. split; [exact H2|]. split; [exact H2'|]. split; [exact H7|].
    split; [rewrite (Forall2_len _ _ _ _ _ H6); exact H5|]. split; [|split].
    + exists e. split; [eapply other_closest; eauto|eapply G; eauto].
    + eapply Forall2_imp; [|exact H6]. intros p v [A [B [d [ua [ub [sup' [C D]]]]]]]. split; [split; auto|].
      cbn [test_distances] in C. destruct (nearest_distances query m p empty) as [e'|] eqn:E'; [|discriminate]. cbn [bind] in C.
      inversion C; subst d. exists e'. split; [eapply nearest_closest; eauto|].
      assert (ES : sup' = o_support o).
      { unfold stat_F in D. cbn [one lift rbind] in D. apply f_fun_inv in D.
        destruct D as [m' [hr [l [P _]]]]. eapply prepare_array; eauto. }
      subst sup'. eapply G; eauto.
    + rewrite H8 by auto. apply pvalues_mc; auto.
  - intros p empty nn s0 d hu us0 sv us' A B. cbn [test_distances] in A. destruct (nn m p empty) as [e|]; [|discriminate].
    inversion A; subst d. unfold stat_F in B. cbn [one lift rbind] in B. destruct sv as [su v].
    apply f_fun_inv in B. destruct B as [m' [hr [l [_ [_ D]]]]]. apply D. discriminate.
Qed.

(** A support given as a number of steps ends at the largest nearest-neighbour
    distance; g_test and k_test take it in the metric asked for, f_test always in the
    Euclidean metric. *)
Lemma support_max : forall coords z d m h edge sup m' hr,
  prepare coords (SupInt z) d m h edge (nnd query coords) = Ok (sup, m', hr) ->
  (d = DNone -> m' = m) /\ (d <> DNone -> m' = MName "euclidean") /\
  exists l, closest (dist m') other_number coords coords l /\ support_to_max l z sup.
Proof using tree_ok.
  intros coords z d m h edge sup m' hr H. unfold prepare in H. destruct edge; [discriminate|].
  destruct (prepare_hull coords h); [|discriminate]. cbn [bind] in H. destruct (is_none d && _); [discriminate|].
  assert (E : m' = (if is_none d then m else MName "euclidean") /\ make_support (nnd query coords m') (SupInt z) = Ok sup).
  { destruct m; try discriminate;
      (match type of H with context [make_support ?a ?b] => destruct (make_support a b) as [su|] eqn:MS end; [|discriminate];
       cbn [bind] in H; inversion H; subst; auto). }
  destruct E as [E1 E2]. split; [intros ->; exact E1|]. split; [intros D; destruct d; [congruence|exact E1..]|].
  cbn [make_support] in E2. destruct (nnd query coords m') as [[|x l]|] eqn:NN; try discriminate. cbn [bind] in E2.
  exists (x :: l). split; [eapply other_closest; eauto|]. destruct (C61_linspace _ _ _ _ E2) as [A [B _]]. split; [exact A|].
  exists (Qmax_list x l). split; [exact B|]. split; [apply Qmax_list_in|].
  destruct (Qmax_list_ge l x) as [C D]. intros y [<-|Y]; auto.
Qed.
Theorem C115_support : forall coords z m user edge keep ns us o rest,
  (g_test sk query shape coords (SupInt z) TDNone m user edge keep ns us = Val o rest ->
     exists l, closest (dist m) other_number coords coords l /\ support_to_max l z (o_support o)) /\
  (k_test sk query dist shape coords (SupInt z) TDNone m user edge keep ns us = Val o rest ->
     exists l, closest (dist m) other_number coords coords l /\ support_to_max l z (o_support o)) /\
  (f_test sk query shape coords (SupInt z) TDNone m user edge keep ns us = Val o rest ->
     exists l, closest (dist (MName "euclidean")) other_number coords coords l /\ support_to_max l z (o_support o)).
Proof using tree_ok.
  intros coords z m user edge keep ns us o rest. split; [|split]; intros H; apply test_run_inv in H;
    destruct H as [h [empty [us1 [dd [sup [obs [us2 [sims [H1 [H2 [H3 [H4 [H5 ->]]]]]]]]]]]]]; cbn [o_support].
  - inversion H3; subst dd. unfold stat_G in H4. cbn [one lift rbind] in H4. apply lift_val in H4. destruct H4 as [H4 _].
    apply g_fun_inv in H4. destruct H4 as [m' [hr [l [P _]]]]. apply support_max in P. destruct P as [P [_ Q]].
    rewrite <- (P eq_refl). exact Q.
  - inversion H3; subst dd. unfold stat_K in H4. cbn [one lift rbind] in H4. apply lift_val in H4. destruct H4 as [H4 _].
    apply k_fun_inv in H4. destruct H4 as [m' [b [l [P _]]]]. apply support_max in P. destruct P as [P [_ Q]].
    rewrite <- (P eq_refl). exact Q.
  - cbn [test_distances] in H3. destruct (other_distances query m coords empty) as [e|]; [|discriminate]. inversion H3; subst dd.
    unfold stat_F in H4. cbn [one lift rbind] in H4. apply f_fun_inv in H4. destruct H4 as [m' [hr [l [P _]]]].
    apply support_max in P. destruct P as [_ [P Q]]. rewrite <- P by discriminate. exact Q.
Qed.

(** j_test divides 1 - G by 1 - F, both on the support that f_test would use; the data
    are again the only place where the points of the same number are left out of F. *)
Theorem C115_j : forall interp coords s m user edge keep ns us o rest,
  j_test_full sk query shape interp coords s TDNone m user edge keep ns us = Val o rest -> (0 < ns)%Z -> unit_stream us ->
  (forall h, prepare_hull coords user = Ok h -> sane_box (h_bbox (hull_seen shape coords h))) ->
  (2 <= List.length (o_support o))%nat ->
  exists h empty pats sims, prepare_hull coords user = Ok h /\
    List.length empty = 1000%nat /\ (exists b, tight_box b coords /\ forall p, In p empty -> in_box b p) /\
    o_sims o = (if keep then Some sims else None) /\ List.length pats = Z.to_nat ns /\
    (exists df dg fv gv, closest (dist m) other_number coords empty df /\ cumulative (o_support o) df fv /\
       closest (dist m) other_number coords coords dg /\ cumulative (o_support o) dg gv /\
       ratios gv fv (o_statistic o)) /\
    Forall2 (fun p v => drawn_in (hull_seen shape coords h) (List.length coords) p /\
      exists df dg fv gv, closest (dist m) any_point p empty df /\ cumulative (o_support o) df fv /\
        closest (dist m) other_number p p dg /\ cumulative (o_support o) dg gv /\ ratios gv fv v) pats sims /\
    mc_pvalues ns (o_statistic o) sims (o_pvalue o).
Proof using tree_ok.
  intros interp coords s m user edge keep ns us o rest H N U SB L.
  assert (G : forall p s h us sup lf lg v us', stat_J query shape interp p s (TDPair (D1 lg) (D1 lf)) m h edge us = Val (sup, v) us' ->
            us' = us /\ (forall a, s = SupArr a -> sup = a) /\ ((2 <= List.length sup)%nat ->
            exists fv gv, cumulative sup lf fv /\ cumulative sup lg gv /\ ratios gv fv v)).
  { intros p s0 h us0 sup lf lg v us' X. cbn [stat_J] in X. apply j_fun_values in X; [|split; discriminate].
    destruct X as [fv [gv [X1 [X2 ->]]]]. apply f_fun_inv in X1. destruct X1 as [m' [hr [l [P [C D]]]]].
    destruct D as [D ->]; [discriminate|]. inversion D; subst l. split; [reflexivity|].
    split; [intros a ->; eapply prepare_array; eauto|]. intros LS.
    apply g_fun_inv in X2. destruct X2 as [m2 [hr2 [l2 [P2 [C2 D2]]]]]. cbn [g_distances] in D2.
    destruct (Nat.eqb _ _); [|discriminate]. inversion D2; subst l2.
    apply cdf_cumulative in C; [|exact LS]. apply cdf_cumulative in C2; [|exact LS]. exists fv, gv. split; [exact C|].
    split; [exact C2|]. apply hazard_ratios. destruct C as [-> _]. destruct C2 as [-> _]. reflexivity. }
  assert (T : forall nn p empty d, test_distances query TJ nn m p empty = Ok d ->
            exists e g, nn m p empty = Ok e /\ other_distances query m p p = Ok g /\ d = TDPair (D1 g) (D1 e)).
  { intros nn p empty d X. unfold test_distances in X. destruct (nn m p empty) as [e|]; [|discriminate]. cbn [bind] in X.
    destruct (other_distances query m p p) as [g|]; [|discriminate]. inversion X. exists e, g. auto. }
  apply test_shape in H; auto.
  - destruct H as [h [empty [dd [u1 [u2 [sims [pats [H1 [[H2 H2'] [H3 [H4 [H5 [H6 [H7 H8]]]]]]]]]]]]]].
    exists h, empty, pats, sims. apply T in H3. destruct H3 as [e [g [E1 [E2 ->]]]].
    split; [exact H1|]. split; [exact H2|]. split; [exact H2'|]. split; [exact H7|].
    split; [rewrite (Forall2_len _ _ _ _ _ H6); exact H5|]. split; [|split].
    + apply G in H4. destruct H4 as [_ [_ H4]]. destruct (H4 L) as [fv [gv [A [B C]]]]. exists e, g, fv, gv.
      split; [eapply other_closest; eauto|]. split; [exact A|]. split; [eapply other_closest; eauto|]. auto.
    + eapply Forall2_imp; [|exact H6]. intros p v [A [B [d [ua [ub [sup' [C D]]]]]]]. split; [split; auto|].
      apply T in C. destruct C as [e' [g' [C1 [C2 ->]]]]. apply G in D. destruct D as [_ [D1 D2]].
      specialize (D1 _ eq_refl). subst sup'. destruct (D2 L) as [fv [gv [F1 [F2 F3]]]]. exists e', g', fv, gv.
      split; [eapply nearest_closest; eauto|]. split; [exact F1|]. split; [eapply other_closest; eauto|]. auto.
    + rewrite H8 by auto. apply pvalues_mc; auto.
  - intros p empty nn s0 d hu us0 sv us' A B. apply T in A. destruct A as [e [g [_ [_ ->]]]]. destruct sv as [su v].
    apply G in B. apply B.
Qed.

(** f called without distances draws 1000 points in the hull, not in the bounding box,
    and measures the distances to the nearest data points, none left out. *)
Theorem C115_f_function : forall coords s m user edge us sup v rest,
  f_fun query shape coords s DNone m user edge us = Val (sup, v) rest -> unit_stream us ->
  (forall h, prepare_hull coords user = Ok h -> sane_box (h_bbox (hull_seen shape coords h))) ->
  (2 <= List.length sup)%nat ->
  exists h pts d, prepare_hull coords user = Ok h /\ drawn_in (hull_seen shape coords h) 1000 pts /\
    closest (dist m) any_point coords pts d /\ cumulative sup d v.
Proof using tree_ok.
  intros coords s m user edge us sup v rest H U SB L. unfold f_fun in H.
  apply rbind_val in H. destruct H as [[[sup' m'] hr] [u0 [P H]]]. apply lift_val in P. destruct P as [P ->].
  apply rbind_val in H. destruct H as [a [u1 [A H]]]. apply rbind_val in H. destruct H as [rs [u2 [B H]]].
  apply lift_val in B. destruct B as [B ->]. apply rbind_val in H. destruct H as [e [u3 [C H]]]. apply lift_val in C. destruct C as [C ->].
  apply rbind_val in H. destruct H as [w [u4 [D H]]]. apply lift_val in D. destruct D as [D ->]. inversion H; subst. clear H.
  assert (PH : prepare_hull coords user = Ok hr).
  { unfold prepare in P. destruct edge; [discriminate|]. destruct (prepare_hull coords user); [|discriminate]. cbn [bind] in P.
    destruct (is_none DNone && _); [discriminate|]. destruct m; try discriminate;
      (match type of P with context [make_support ?a ?b] => destruct (make_support a b) as [su|] end; [|discriminate];
       cbn [bind] in P; inversion P; reflexivity). }
  assert (M : m' = m) by (eapply prepare_metric; exact P). subst m'.
  destruct a as [x|l|ll]; try discriminate. cbn [two_dim] in B. inversion B; subst rs.
  destruct (C31_poisson_in_hull _ _ _ _ _ _ U (SB _ PH) A) as [n [z [it [d [S1 [_ [_ [HR [IN _]]]]]]]]].
  exists hr, l, e. split; [exact PH|]. split.
  - split; [|intros q Q; apply IN; exact Q]. unfold parse_size_and_intensity in S1. cbn in S1. destruct (div_area 1000 (hull_seen shape coords hr)) as [i|]; [|discriminate]. cbn [bind] in S1. injection S1 as <- <- _.
    change (Z.to_nat 1) with 1%nat in HR. change (Z.to_nat 1000) with 1000%nat in HR. destruct HR as [HR1 [HR2 HR3]].
    destruct d as [|r [|r' d]]; try discriminate. cbn [arr_points List.concat] in HR3. rewrite app_nil_r in HR3. subst r.
    inversion HR2; assumption.
  - split; [eapply nearest_closest; eauto|]. unfold f_stat in D. cbn [f_distances bind] in D. apply cdf_cumulative; auto.
Qed.
End C115.
Print Assumptions C115_j.
Print Assumptions C115_f_function.
Print Assumptions C115_g.
Print Assumptions C115_k.
Print Assumptions C115_f.
Print Assumptions C115_support.

(** Hulls that are boxes: the bounding box of the data by default, or the four numbers
    (left, bottom, right, top) of an array. *)
Theorem C115_hull : forall shape coords,
  (forall user h, user = HNone \/ user = HStr "bbox" -> prepare_hull coords user = Ok h ->
     exists b, tight_box b coords /\ h_bbox (hull_seen shape coords h) = b /\
       forall p, h_contains (hull_seen shape coords h) p = true <-> in_box b p) /\
  (forall a b c d h, prepare_hull coords (HArr (Vec [a; b; c; d])) = Ok h ->
     forall p, h_contains (hull_seen shape coords h) p = true <-> a <= fst p <= c /\ b <= snd p <= d).
Proof.
  intros shape coords. split.
  - intros user h [-> | ->] H; cbn in H; (destruct (compute_mbb coords) as [b|] eqn:E; [|discriminate]); cbn [bind] in H;
      injection H as <-; exists b; (split; [apply mbb_tight_box; exact E|]); (split; [reflexivity|]); intros p; apply box_contains_iff.
  - intros a b c d h H p. cbn in H. injection H as <-. cbn [hull_seen]. cbn. rewrite box_contains_iff. unfold in_box. cbn. tauto.
Qed.
Print Assumptions C115_hull.

(** A pair of distances, as j_test takes it, is never accepted by the other tests. *)
Theorem C115_pair : forall sk query dist shape coords s g f m user edge keep ns us,
  (forall o rest, f_test sk query shape coords s (TDPair g f) m user edge keep ns us <> Val o rest) /\
  (forall o rest, g_test sk query shape coords s (TDPair g f) m user edge keep ns us <> Val o rest) /\
  (forall o rest, k_test sk query dist shape coords s (TDPair g f) m user edge keep ns us <> Val o rest).
Proof.
  intros sk query dist shape coords s g f m user edge keep ns us. split; [|split]; intros o rest H; apply test_run_inv in H;
    destruct H as [h [empty [us1 [dd [sup [obs [us2 [sims [H1 [H2 [H3 [H4 _]]]]]]]]]]]]; cbn in H3; subst dd;
    unfold stat_F, stat_G, stat_K in H4; cbn [one] in H4; apply rbind_val in H4; destruct H4 as [d' [u [H4 _]]]; apply lift_val in H4;
    destruct H4 as [H4 _]; match type of H4 with context [bind ?x _] => destruct x end; discriminate.
Qed.
Print Assumptions C115_pair.

(** j_test takes an array of two rows for the pair of its rows, and never accepts a
    one-dimensional array. *)
Theorem C115_j_array : forall sk query shape interp coords s m user edge keep ns us,
  (forall k p g f, j_test_full sk query shape interp coords s (TDArr (D2 k p [g; f])) m user edge keep ns us =
     j_test_full sk query shape interp coords s (TDPair (D1 g) (D1 f)) m user edge keep ns us) /\
  (forall l o rest, j_test_full sk query shape interp coords s (TDArr (D1 l)) m user edge keep ns us <> Val o rest).
Proof.
  intros sk query shape interp coords s m user edge keep ns us. split; [reflexivity|].
  intros l o rest H. apply test_run_inv in H.
  destruct H as [h [empty [us1 [dd [sup [obs [us2 [sims [H1 [H2 [H3 [H4 _]]]]]]]]]]]]. cbn in H3. subst dd. cbn [stat_J] in H4.
  apply rbind_val in H4. destruct H4 as [[g f] [u [H4 H5]]]. apply lift_val in H4. destruct H4 as [H4 ->].
  destruct l as [|x [|y [|z l]]]; try discriminate. cbn [unpack] in H4. injection H4 as <- <-. cbn [fst snd] in H5.
  unfold j_fun in H5. apply rbind_val in H5. destruct H5 as [fs [u' [_ H5]]]. apply rbind_val in H5. destruct H5 as [gs [u2 [H5 _]]].
  apply lift_val in H5. destruct H5 as [H5 _]. unfold g_fun in H5.
  destruct (prepare _ _ _ _ _ _ _) as [[[su m'] hr]|]; discriminate.
Qed.
Print Assumptions C115_j_array.

(** Distances given by the caller, as the warning of _prepare recommends for metrics of
    one's own, concern the data only: the simulations of g_test and k_test do not
    depend on them. *)
Theorem C115_given_distances : forall sk query dist shape coords l d1 d2 m user edge keep ns us o1 o2 r1 r2,
  (g_test sk query shape coords (SupArr l) (TDArr d1) m user edge keep ns us = Val o1 r1 ->
   g_test sk query shape coords (SupArr l) (TDArr d2) m user edge keep ns us = Val o2 r2 ->
   o_sims o1 = o_sims o2 /\ o_support o1 = o_support o2 /\ r1 = r2) /\
  (k_test sk query dist shape coords (SupArr l) (TDArr d1) m user edge keep ns us = Val o1 r1 ->
   k_test sk query dist shape coords (SupArr l) (TDArr d2) m user edge keep ns us = Val o2 r2 ->
   o_sims o1 = o_sims o2 /\ o_support o1 = o_support o2 /\ r1 = r2).
Proof.
  intros sk query dist shape coords l d1 d2 m user edge keep ns us o1 o2 r1 r2. split; intros A B;
    apply test_run_inv in A; apply test_run_inv in B;
    destruct A as [h [empty [us1 [dd [sup [obs [us2 [sims [H1 [[H2 H2'] [H3 [H4 [H5 ->]]]]]]]]]]]]];
    destruct B as [h' [empty' [us1' [dd' [sup' [obs' [us2' [sims' [I1 [[I2 I2'] [I3 [I4 [I5 ->]]]]]]]]]]]]];
    cbn [o_support o_sims]; subst; rewrite H1 in I1; inversion I1; subst h'.
  - unfold stat_G in H4, I4. cbn [one lift rbind] in H4, I4. apply lift_val in H4. apply lift_val in I4.
    destruct H4 as [H4 ->]. destruct I4 as [I4 ->]. apply g_fun_inv in H4. apply g_fun_inv in I4.
    destruct H4 as [? [? [? [H4 _]]]]. destruct I4 as [? [? [? [I4 _]]]]. apply prepare_array in H4. apply prepare_array in I4. subst.
    rewrite H5 in I5. inversion I5; subst. auto.
  - unfold stat_K in H4, I4. cbn [one lift rbind] in H4, I4. apply lift_val in H4. apply lift_val in I4.
    destruct H4 as [H4 ->]. destruct I4 as [I4 ->]. apply k_fun_inv in H4. apply k_fun_inv in I4.
    destruct H4 as [? [? [? [H4 _]]]]. destruct I4 as [? [? [? [I4 _]]]]. apply prepare_array in H4. apply prepare_array in I4. subst.
    rewrite H5 in I5. inversion I5; subst. auto.
Qed.
Print Assumptions C115_given_distances.

(** They are the whole of the observed curve: the cumulative fractions of the distances
    given to g_test, one for each point, and for k_test the counts of the distances given,
    one for each pair, over the tight box of the points. *)
Theorem C115_given_curve : forall sk query dist shape coords s l m user edge keep ns us o rest,
  (g_test sk query shape coords s (TDArr (D1 l)) m user edge keep ns us = Val o rest ->
   List.length l = List.length coords /\ ((2 <= List.length (o_support o))%nat -> cumulative (o_support o) l (o_statistic o))) /\
  (k_test sk query dist shape coords s (TDArr (D1 l)) m user edge keep ns us = Val o rest ->
   (2 * List.length l = List.length coords * (List.length coords - 1))%nat /\
   exists b, tight_box b coords /\ forall j, (j < List.length (o_support o))%nat -> exists q, nth j (o_statistic o) NaN = Fin q /\
     forall c, Counts (fun x => x < nth j (o_support o) 0) l c ->
       q * inject_Z (Z.of_nat (List.length coords)) * inject_Z (Z.of_nat (List.length coords)) ==
       (bxmax b - bxmin b) * (bymax b - bymin b) * 2 * inject_Z (Z.of_nat c)).
Proof.
  intros sk query dist shape coords s l m user edge keep ns us o rest. split; intro A; apply test_run_inv in A;
    destruct A as [h [empty [us1 [dd [sup [obs [us2 [sims [H1 [[H2 H2'] [H3 [H4 [H5 ->]]]]]]]]]]]]]; cbn [o_support o_statistic]; cbn in H3; subst dd.
  - unfold stat_G in H4. cbn [one lift rbind] in H4. apply lift_val in H4. destruct H4 as [H4 _]. apply g_fun_inv in H4.
    destruct H4 as [m' [hr [l' [P [C D]]]]]. cbn [g_distances] in D.
    destruct (Nat.eqb_spec (List.length l) (List.length coords)) as [E|E]; [|discriminate]. injection D as <-.
    split; [exact E|]. intro L. apply cdf_cumulative; auto.
  - unfold stat_K in H4. cbn [one lift rbind] in H4. apply lift_val in H4. destruct H4 as [H4 _]. apply k_fun_inv in H4.
    destruct H4 as [m' [b [l' [P [B [N [D ->]]]]]]]. unfold k_distances in D.
    destruct (Nat.eqb_spec (2 * List.length l) (List.length coords * (List.length coords - 1))) as [E|E]; [|discriminate]. injection D as <-.
    split; [exact E|]. exists b. pose proof (mbb_tight_box _ _ B) as T. split; [exact T|]. intros j J.
    rewrite (nth_indep _ NaN (k_value (List.length coords) (box_area b) l 0)) by (rewrite map_length; exact J). rewrite map_nth.
    destruct (C54_k_value (List.length coords) (box_area b) l (nth j sup 0) N) as [q [Q1 [Q2 _]]]; [apply Qabs_nonneg|].
    exists q. split; [exact Q1|]. intros c Hc. rewrite (Q2 c Hc).
    assert (BA : box_area b == (bxmax b - bxmin b) * (bymax b - bymin b)).
    { destruct (tight_box_sane _ _ T). unfold box_area. rewrite Qabs_pos; [reflexivity|]. apply Qmult_le_0_compat; lra. }
    rewrite BA. reflexivity.
Qed.
Print Assumptions C115_given_curve.

(** metric="precomputed", accepted by g and k together with distances, is refused by
    the tests: the tree cannot be built. *)
Theorem C115_precomputed : forall sk query dist shape coords s d user edge keep ns us,
  match sk with Some (kd, ball) => ~ In "precomputed"%string kd /\ ~ In "precomputed"%string ball | None => True end ->
  g_test sk query shape coords s d (MName "precomputed") user edge keep ns us = Exc KeyError /\
  k_test sk query dist shape coords s d (MName "precomputed") user edge keep ns us = Exc KeyError /\
  f_test sk query shape coords s d (MName "precomputed") user edge keep ns us = Exc KeyError.
Proof.
  intros sk query dist shape coords s d user edge keep ns us H.
  assert (E : build_best_tree sk (MName "precomputed") = Raise KeyError).
  { unfold build_best_tree. destruct sk as [[kd ball]|]; [|reflexivity]. destruct H as [A B].
    assert (NE : forall l, ~ In "precomputed"%string l -> existsb (String.eqb "precomputed") l = false).
    { intros l. induction l as [|x l IH]; intros X; [reflexivity|]. cbn [existsb].
      destruct (String.eqb_spec "precomputed" x); [subst; exfalso; apply X; left; reflexivity|]. apply IH. intro; apply X; right; auto. }
    rewrite !NE by auto. reflexivity. }
  unfold g_test, k_test, f_test, test_run. rewrite E. auto.
Qed.
Print Assumptions C115_precomputed.

(** ** A tree *)
(** Sorting all points by distance answers queries correctly, for every metric. *)
Fixpoint ins (e : Q * nat) (l : row) : row :=
  match l with
  | [] => [e]
  | x :: t => if Qle_bool (fst e) (fst x) then e :: l else x :: ins e t
  end.
Definition sort_row (l : row) : row := fold_right ins [] l.
Definition sorted_query (dist : metric -> pt -> pt -> Q) (m : metric) (pts : list pt) (p : pt) (k : nat) : row :=
  firstn k (sort_row (map (fun j => (dist m p (nth j pts (0, 0)), j)) (seq 0 (List.length pts)))).

Lemma ins_perm : forall e l, Permutation (ins e l) (e :: l).
Proof.
  intros e l. induction l as [|x l IH]; simpl; [reflexivity|]. destruct (Qle_bool (fst e) (fst x)); [reflexivity|].
  rewrite IH. apply perm_swap.
Qed.
Lemma sort_perm : forall l, Permutation (sort_row l) l.
Proof. induction l as [|x l IH]; simpl; [reflexivity|]. rewrite ins_perm, IH. reflexivity. Qed.
Definition by_distance (a b : Q * nat) : Prop := fst a <= fst b.
Lemma ins_sorted : forall e l, StronglySorted by_distance l -> StronglySorted by_distance (ins e l).
Proof.
  intros e l H. induction H as [|x l S1 IH F]; simpl; [repeat constructor|].
  destruct (Qle_bool (fst e) (fst x)) eqn:E.
  - apply Qle_bool_iff in E. constructor; [constructor; auto|]. constructor; [exact E|].
    eapply Forall_impl; [|exact F]. intros a A. unfold by_distance in *. lra.
  - constructor; [exact IH|]. rewrite Forall_forall in *. intros a A.
    apply (Permutation_in _ (ins_perm e l)) in A. destruct A as [<-|A]; [|apply F; exact A].
    unfold by_distance. destruct (Qlt_le_dec (fst e) (fst x)) as [L|L]; [|exact L].
    apply Qlt_le_weak, Qle_bool_iff in L. congruence.
Qed.
Lemma sort_sorted : forall l, StronglySorted by_distance (sort_row l).
Proof. induction l; simpl; [constructor|apply ins_sorted; auto]. Qed.

Lemma sorted_nth : forall (l : row) a b, StronglySorted by_distance l -> (a < b < List.length l)%nat ->
  fst (nth a l (0, 0%nat)) <= fst (nth b l (0, 0%nat)).
Proof.
  intros l a b S1. revert a b. induction S1 as [|x l S1 IH F]; intros a b AB; [simpl in AB; lia|].
  destruct b as [|b]; [lia|]. destruct a as [|a]; simpl.
  - rewrite Forall_forall in F. apply F. apply nth_In. simpl in AB. lia.
  - apply IH. simpl in AB. lia.
Qed.
Lemma sorted_app : forall pre post x y, StronglySorted by_distance (pre ++ post) -> In x pre -> In y post -> fst x <= fst y.
Proof.
  induction pre as [|z pre IH]; intros post x y S1 X Y; [destruct X|]. inversion S1 as [|? ? S2 F]; subst.
  rewrite Forall_forall in F. destruct X as [<-|X]; [apply F; apply in_or_app; auto|]. eapply IH; eauto.
Qed.

Lemma sorted_query_good : forall dist, good_tree (sorted_query dist) dist.
Proof.
  intros dist m pts p k K. unfold sorted_query.
  set (D := fun j => dist m p (nth j pts (0, 0))). set (all := map (fun j => (D j, j)) (seq 0 (List.length pts))).
  change (map (fun j => (dist m p (nth j pts (0, 0)), j)) (seq 0 (List.length pts))) with all.
  set (s := sort_row all).
  pose proof (sort_perm all) as P. pose proof (sort_sorted all) as SS. fold s in P, SS.
  assert (LS : List.length s = List.length pts) by (rewrite (Permutation_length P); unfold all; rewrite map_length, seq_length; reflexivity).
  assert (IA : forall e, In e s <-> (fst e = D (snd e) /\ (snd e < List.length pts)%nat)).
  { intros e. split; intro H.
    - apply (Permutation_in _ P) in H. unfold all in H. apply in_map_iff in H. destruct H as [j [<- J]]. apply in_seq in J. simpl. split; [reflexivity|lia].
    - apply (Permutation_in _ (Permutation_sym P)). unfold all. apply in_map_iff. exists (snd e). destruct H as [H1 H2].
      split; [rewrite <- H1; destruct e; reflexivity|]. apply in_seq. lia. }
  assert (ND : NoDup (map snd s)).
  { apply (Permutation_NoDup (l := seq 0 (List.length pts))); [|apply seq_NoDup].
    apply Permutation_sym. transitivity (map snd all); [apply Permutation_map; exact P|]. unfold all. rewrite map_map. simpl. rewrite map_id. reflexivity. }
  assert (SP : s = firstn k s ++ skipn k s) by (symmetry; apply firstn_skipn).
  assert (L1 : List.length (firstn k s) = k) by (rewrite firstn_length, LS; lia).
  assert (SUB : forall e, In e (firstn k s) -> In e s) by (intros e E; rewrite SP; apply in_or_app; auto).
  split.
  - split; [rewrite map_length; exact L1|]. split.
    + rewrite SP, map_app in ND. clear -ND. induction (map snd (firstn k s)) as [|x l IH]; [constructor|].
      simpl in ND. inversion ND; subst. constructor; [intro X; apply H1; apply in_or_app; auto|apply IH; auto].
    + split; [|split].
      * intros j J. apply in_map_iff in J. destruct J as [e [<- E]]. apply IA, SUB, E.
      * intros a b AB. rewrite map_length, L1 in AB.
        assert (V : forall c, (c < k)%nat -> D (nth c (map snd (firstn k s)) 0%nat) = fst (nth c s (0, 0%nat))).
        { intros c C. rewrite (nth_indep _ 0%nat (snd (0, 0%nat))) by (rewrite map_length; lia). rewrite map_nth.
          assert (I1 : In (nth c (firstn k s) (0, 0%nat)) s) by (apply SUB, nth_In; lia).
          apply IA in I1. destruct I1 as [I1 _]. rewrite <- I1. rewrite SP at 2. rewrite app_nth1 by lia. reflexivity. }
        rewrite !V by lia. apply sorted_nth; [exact SS|]. rewrite LS. lia.
      * intros j l J L NI. apply in_map_iff in J. destruct J as [e [<- E]].
        assert (IE : In (D l, l) s) by (apply IA; simpl; auto).
        pose proof (SUB _ E) as IE2. apply IA in IE2. destruct IE2 as [IE2 _]. change (D (snd e) <= D l). rewrite <- IE2.
        change (D l) with (fst (D l, l)). rewrite SP in SS. eapply sorted_app; [exact SS|exact E|].
        rewrite SP in IE. apply in_app_or in IE. destruct IE as [X|X]; [|exact X].
        exfalso. apply NI. apply in_map_iff. exists (D l, l). auto.
  - intros d j E. apply SUB, IA in E. simpl in E. destruct E as [-> _]. reflexivity.
Qed.

(** ** Cases *)
(** The metrics of the witnesses: chebyshev, cityblock, and Euclidean distances of
    points with integral coordinates and distances. *)
Definition metrics (m : metric) (p q : pt) : Q :=
  let dx := Qabs (fst p - fst q) in
  let dy := Qabs (snd p - snd q) in
  match m with
  | MName "chebyshev" => Qmax dx dy
  | MName "cityblock" => Qred (dx + dy)
  | _ => inject_Z (Z.sqrt (Qnum (Qred (dx * dx + dy * dy))))
  end.
Definition names : option (list string * list string) := Some (["chebyshev"; "cityblock"; "euclidean"]%string, []).
Definition no_shape (_ : list pt) (_ : hullres) : hull := bbox_hull (mkbox 0 0 6 6).
Definition three : list pt := [(0, 0); (4, 1); (6, 6)].
Definition numbers : list Q := [0; 0; 4#5; 0; 0; 4#5; 8#10; 2#10; 1#4; 6#10; 3#10; 3#10].
Definition red_x (x : xq) : xq := match x with Fin q => Fin (Qred q) | _ => x end.

Example C113_case :
  (exists o, g_test names (sorted_query metrics) no_shape three (SupArr [0; 9#2; 5]) TDNone (MName "chebyshev") HNone false true 2 numbers = Val o [] /\
     map red_x (o_pvalue o) = [Fin 0; Fin (1#3); Fin 0]) /\
  (exists o, k_test names (sorted_query metrics) metrics no_shape three SupNone TDNone (MName "chebyshev") HNone false true 2 numbers = Val o [] /\
     red_x (nth 0 (o_pvalue o) NaN) = Fin 0 /\ red_x (nth 19 (o_pvalue o) NaN) = Fin (1#3)).
Proof. split; eexists; (split; [vm_compute; reflexivity|]); vm_compute; auto. Qed.

Example C114_case : exists ok, k_test names (sorted_query metrics) metrics no_shape three (SupArr [0; 4; 5; 8]) TDNone
    (MName "chebyshev") HNone false true 2 numbers = Val ok [] /\
  map red_x (o_pvalue ok) = [Fin 0; Fin 0; Fin (1#3); Fin (1#3)] /\
  exists ol, l_test names (sorted_query metrics) metrics no_shape true three (SupArr [0; 4; 5; 8]) TDNone
    (MName "chebyshev") HNone false true 2 numbers = Val ol [] /\ o_pvalue ol = o_pvalue ok.
Proof.
  pose proof (C114_same_pvalues names (sorted_query metrics) metrics no_shape true three (SupArr [0; 4; 5; 8]) TDNone
    (MName "chebyshev") HNone false true 2 numbers) as H.
  assert (X : exists ok, k_test names (sorted_query metrics) metrics no_shape three (SupArr [0; 4; 5; 8]) TDNone
    (MName "chebyshev") HNone false true 2 numbers = Val ok [] /\ map red_x (o_pvalue ok) = [Fin 0; Fin 0; Fin (1#3); Fin (1#3)])
    by (eexists; (split; [vm_compute; reflexivity|]); vm_compute; reflexivity).
  destruct X as [ok [X1 X2]]. rewrite X1 in H. destruct H as [ol [H1 [_ [H2 _]]]]. exists ok. split; [exact X1|]. split; [exact X2|].
  exists ol. auto.
Qed.

(** f_test handles the data and the simulations differently.  Here the only simulation
    has drawn exactly the observed points, with the same 1000 empty-space points, and
    still its curve differs from the observed one: for the data, the point with the same
    number as the query is left out; for the simulation it is not. *)
Definition two : list pt := [(0, 0); (1, 1)].
Definition two_numbers : list Q := repeat 0 2000 ++ [0; 0; 1#2; 1#2].
Theorem C115_f_refuted : exists o sim,
  f_test names (sorted_query metrics) no_shape two (SupSteps 0 1 3) TDNone (MName "chebyshev")
    (HArr (Vec [0; 0; 2; 2])) false true 1 two_numbers = Val o [] /\
  o_sims o = Some [sim] /\
  (exists e rest, empty_space_points two two_numbers = Val e rest /\
     exists a, simulated_pattern (bbox_hull (mkbox 0 0 2 2)) 2 rest = Val (Arr2 a) [] /\
       Forall2 (fun p q => fst p == fst q /\ snd p == snd q) a two) /\
  map red_x (o_statistic o) = [Fin 0; Fin (999#1000); Fin 1] /\ map red_x sim = [Fin 0; Fin 1; Fin 1].
Proof.
  eexists. eexists. split; [vm_compute; reflexivity|]. split; [vm_compute; reflexivity|].
  split; [|split; vm_compute; reflexivity].
  eexists. eexists. split; [vm_compute; reflexivity|]. eexists. split; [vm_compute; reflexivity|].
  unfold two. constructor; [split; vm_compute; reflexivity|]. constructor; [split; vm_compute; reflexivity|constructor].
Qed.
Print Assumptions C115_f_refuted.

(** With metric="cityblock", two points at (0, 0) and (3, 4) are 7 apart, where the
    support of g_test ends; that of f_test ends at 5, their Euclidean distance. *)
Theorem C115_support_refuted :
  (exists o, g_test names (sorted_query metrics) no_shape [(0, 0); (3, 4)] (SupInt 3) TDNone (MName "cityblock") HNone
     false true 1 [0; 0; 1#2; 1#2] = Val o [] /\ map Qred (o_support o) = [0; 7#2; 7]) /\
  (exists o, f_test names (sorted_query metrics) no_shape [(0, 0); (3, 4)] (SupInt 3) TDNone (MName "cityblock") HNone
     false true 1 two_numbers = Val o [] /\ map Qred (o_support o) = [0; 5#2; 5]).
Proof. split; eexists; (split; [vm_compute; reflexivity|]); vm_compute; reflexivity. Qed.
Print Assumptions C115_support_refuted.

(** Distances handed to g_test change the observed curve and not the simulated one. *)
Example C115_given_case : exists o1 o2,
  g_test names (sorted_query metrics) no_shape three (SupArr [0; 9#2; 5]) (TDArr (D1 [1; 1; 1])) (MName "chebyshev") HNone
    false true 2 numbers = Val o1 [] /\
  g_test names (sorted_query metrics) no_shape three (SupArr [0; 9#2; 5]) (TDArr (D1 [5; 5; 5])) (MName "chebyshev") HNone
    false true 2 numbers = Val o2 [] /\
  o_sims o1 = o_sims o2 /\
  map red_x (o_statistic o1) = [Fin 0; Fin 1; Fin 1] /\ map red_x (o_statistic o2) = [Fin 0; Fin 0; Fin 1].
Proof. eexists. eexists. split; [vm_compute; reflexivity|]. split; [vm_compute; reflexivity|]. repeat split; vm_compute; reflexivity. Qed.

(** The hypotheses of the theorems hold in this run. *)
Example C115_case : exists o, g_test names (sorted_query metrics) no_shape three (SupArr [0; 9#2; 5]) TDNone
    (MName "chebyshev") HNone false true 2 numbers = Val o [] /\
  (2 <= List.length (o_support o))%nat /\ unit_stream numbers /\ good_tree (sorted_query metrics) metrics /\
  (forall h, prepare_hull three HNone = Ok h -> sane_box (h_bbox (hull_seen no_shape three h))) /\
  map red_x (o_statistic o) = [Fin 0; Fin (2#3); Fin 1] /\
  option_map (map (map red_x)) (o_sims o) = Some [[Fin 0; Fin 0; Fin 1]; [Fin 0; Fin 1; Fin 1]] /\
  map red_x (o_pvalue o) = [Fin 0; Fin (1#3); Fin 0].
Proof.
  eexists. split; [vm_compute; reflexivity|]. split; [simpl; lia|].
  split; [unfold unit_stream, numbers; repeat constructor; try lra; unfold Qlt; simpl; lia|].
  split; [apply sorted_query_good|]. split; [|repeat split; vm_compute; reflexivity].
  intros h H. vm_compute in H. injection H as <-. unfold hull_seen, sane_box. simpl. lra.
Qed.

Example C115_j_case : exists o, j_test_full names (sorted_query metrics) no_shape (fun _ y _ => y) two (SupSteps 0 1 3) TDNone
    (MName "chebyshev") (HArr (Vec [0; 0; 2; 2])) false true 1 two_numbers = Val o [] /\
  map red_x (o_statistic o) = [Fin 1; Fin 1000; NaN] /\
  option_map (map (map red_x)) (o_sims o) = Some [[Fin 1; PInf; NaN]] /\ (2 <= List.length (o_support o))%nat.
Proof. eexists. split; [vm_compute; reflexivity|]. split; [vm_compute; reflexivity|]. split; [vm_compute; reflexivity|simpl; lia]. Qed.
Example C115_f_function_case : exists sup v, f_fun (sorted_query metrics) no_shape two (SupSteps 0 1 3) DNone
    (MName "chebyshev") (HArr (Vec [0; 0; 2; 2])) false (repeat 0 1000 ++ repeat (3#4) 1000) = Val (sup, v) [] /\
  map Qred sup = [0; 1#2; 1] /\   map red_x v = [Fin 0; Fin (1#2); Fin 1].
Proof. eexists. eexists. split; [vm_compute; reflexivity|]. split; vm_compute; reflexivity. Qed.
