(** The tests run on data that are themselves simulated: law of the reported p-values
    over the stream of random numbers. *)
From Coq Require Import Reals Qreals ZArith QArith Qround List Bool Arith Lia Lra Psatz Permutation String.
From Verif Require Import Base BaseLemmas Quadrat_model Geometry_model Random_model Random_spec Random_proofs Random_props Joint_spec Joint_proofs Joint_props
  QStat_model QStat_proofs DistStats_model Ripley_model Ripley_props
  Spacetime_model Spacetime_proofs Size_spec Size_proofs Size2_proofs Size_props Null_spec Null_proofs Null2_proofs Null3_proofs Null4_proofs.
Import ListNotations.
Local Open Scope R_scope.

Section Laws.
Variables (G : list Q) (w : Q -> R).
Hypothesis LW : is_law G w.
Notation chance L r X := (mean G w (2 * L) (fun us => of_run (r us) (fun b => yes (X b)))).

(** ** Whole patterns *)
(** Any function of the replications: the patterns are independent of each other and of
    how long the rejection takes. *)
Theorem C138_patterns : forall h i sz n s it, parse_size_and_intensity h i sz = Ok (n, s, it) -> (0 <= n)%Z -> (0 <= s)%Z ->
  let n' := Z.to_nat n in let s' := Z.to_nat s in
  (forall L F, mean G w (2 * L) (fun us => of_run (poisson h i sz us) (fun a => F (chunks n' s' (arr_points a)))) *
     kept G w (box_candidate (h_bbox h)) (h_contains h) always ^ (s' * n') =
   kept_patterns G w h n' s' F * mean G w (2 * L) (fun us => of_run (poisson h i sz us) always)) /\
  (forall s F, kept_patterns G w h n' (S s) F =
     kept_all G w (h_contains h) (repeat (box_candidate (h_bbox h)) n') (fun p => kept_patterns G w h n' s (fun ps => F (p :: ps)))).
Proof using LW.
  intros h i sz n s it P Hn Hs n' s'. split.
  - intros L F. rewrite (chance_poisson G w h i sz n s it P Hn Hs L (fun l => F (chunks n' s' l))).
    pose proof (chance_poisson G w h i sz n s it P Hn Hs L (fun _ => 1)) as T.
    change (mean G w (2 * L) (fun us => of_run (poisson h i sz us) always)) with (mean G w (2 * L) (fun us => of_run (poisson h i sz us) (fun a => (fun _ : list pt => 1) (arr_points a)))).
    etransitivity; [|apply f_equal; symmetry; exact T]. rewrite <- all_power.
    apply (law_joint G w (h_contains h) LW L).
  - intros s0 F. unfold kept_patterns.
    rewrite (chunks_iter G w (h_contains h) (box_candidate (h_bbox h)) n' (S s0) F). cbn [iter].
    apply all_ext. intros p _. rewrite <- (chunks_iter G w (h_contains h) (box_candidate (h_bbox h)) n' s0). reflexivity.
Qed.
Print Assumptions C138_patterns.

Lemma Q2R_nat : forall k, Q2R (Qnat k) = INR k.
Proof. intro k. unfold Qnat, Q2R. cbn [inject_Z Qnum Qden]. rewrite INR_IZR_INZ. field. Qed.
Lemma chance_never : forall (B : Type) (r : list Q -> run B) e, (forall us, r us = Exc e) -> forall L X, chance L r X = 0.
Proof using LW.
  intros B r e H L X. rewrite <- (mean_const G w LW (2 * L) 0). apply mean_ext. intro us. rewrite H. reflexivity.
Qed.

(** ** QStatistic *)
Definition small_p (alpha : Q) (q : qresult) : bool := small alpha (q_r_pvalue q).
Definition no_ties (q : qresult) : bool := match q_sims q with Some s => untied xgeb (q_chi2 q :: s) | None => false end.
Section Quadrat.
Variables (shape : qshape) (nx ny : Z) (rw rh lh sh : Q) (W : hull) (n : nat) (realizations : Z).
Notation run_test := (experiment W n (fun pts => qstatistic pts shape nx ny rw rh lh sh realizations W)).
(** The number of rows and columns (or the side of the hexagons) is fixed beforehand. *)
Hypothesis fixed : shape = ShRect -> (rw == 0)%Q \/ (rh == 0)%Q.
Lemma quadrat_ranks : (1 <= realizations)%Z ->
  (exists e, forall us, run_test us = Exc e) \/
  forall L, (forall k, INR (S (Z.to_nat realizations)) * chance L run_test (fun q => true && Nat.leb (rk xgeb (qvalues q)) k) <= INR k * chance L run_test (fun _ => true)) /\
    (forall f, INR (S (Z.to_nat realizations)) * chance L run_test (fun q => true && (untied xgeb (qvalues q) && f (rk xgeb (qvalues q)))) =
      INR (count f (seq 1 (S (Z.to_nat realizations)))) * chance L run_test (fun q => true && untied xgeb (qvalues q))).
Proof using LW fixed.
  intro HR. destruct (experiment_run _ W n (fun pts => qstatistic pts shape nx ny rw rh lh sh realizations W)) as [X|X]; [left; exact X|right].
  set (M := Z.to_nat realizations) in *. assert (EM : realizations = Z.of_nat M) by (unfold M; lia). clearbody M. subst realizations. assert (HM : (1 <= M)%nat) by lia.
  pose proof (qev_num shape nx ny rw rh lh sh W n M fixed HM) as EN. pose proof (qexp_ok shape nx ny rw rh lh sh W n M HM X) as EO.
  assert (TO : forall l, (forall v, In v l -> v <> NaN) -> total_order xgeb l) by (intros l HL; apply xgeb_order; intro Y; apply (HL _ Y eq_refl)).
  intro L. split.
  - intro k. apply (test_upper G w _ _ n LW xgeb (fun v => v <> NaN) (qscore shape nx ny rw rh lh sh) TO (qscore_good shape nx ny rw rh lh sh) _ (qc W n M) (fun _ => true) qvalues M EN _ EO L k).
  - intro f. apply (test_untied G w _ _ n LW xgeb (fun v => v <> NaN) (qscore shape nx ny rw rh lh sh) TO (qscore_good shape nx ny rw rh lh sh) _ (qc W n M) (fun _ => true) qvalues M EN _ EO L f).
Qed.
Lemma run_inv : (1 <= realizations)%Z -> forall us q r, run_test us = Val q r -> exists sims, q_sims q = Some sims /\
  List.length sims = Z.to_nat realizations /\ q_r_pvalue q = Some (mc_pvalue sims (q_chi2 q) realizations) /\ xgeb (q_chi2 q) (q_chi2 q) = true.
Proof.
  clear LW fixed. intros HR us q r H. unfold experiment in H. apply rbind_val in H. destruct H as [a [us' [_ H]]].
  destruct (qstat_sims _ _ _ _ _ _ _ _ _ _ _ _ _ HR H) as [m [reals [sims [_ [_ [S1 [S2 [_ S4]]]]]]]].
  exists sims. repeat (split; [assumption|]).
  destruct (qstat_obs _ _ _ _ _ _ _ _ _ _ _ _ _ H) as [m' [d [E1 [E2 [_ [_ [E3 _]]]]]]].
  assert (C : chi shape nx ny rw rh lh sh (arr_points a) = Ok (q_chi2 q)) by (unfold chi; rewrite E1; cbn [bind]; rewrite E2, E3; reflexivity).
  apply chi_fin in C. destruct C as [t ->]. cbn. apply Qle_bool_iff, Qle_refl.
Qed.
Lemma small_rank : (1 <= realizations)%Z -> forall alpha us q r, (0 <= alpha)%Q -> run_test us = Val q r ->
  small_p alpha q = Nat.leb (rk xgeb (qvalues q)) (level alpha (Z.to_nat realizations)) /\ no_ties q = untied xgeb (qvalues q).
Proof.
  clear LW fixed. intros HR alpha us q r HA H. destruct (run_inv HR us q r H) as [sims [S1 [S2 [S3 S4]]]].
  split; [|unfold no_ties, qvalues; rewrite S1; reflexivity].
  unfold small_p. rewrite S3. unfold qvalues, rk. rewrite S1. unfold above. rewrite count_cons, S4. cbn [small].
  etransitivity; [|apply (pvalue_level alpha (Z.to_nat realizations) (count (fun y => xgeb y (q_chi2 q)) sims) HA)].
  unfold mc_pvalue, perm_pvalue, Qnat. rewrite Z2Nat.id by lia. reflexivity.
Qed.
Lemma of_run_same : forall (B : Type) (r : run B) F F', (forall b us, r = Val b us -> F b = F' b) -> of_run r F = of_run r F'.
Proof. clear. intros B [b us|e|] F F' H; cbn; auto. apply (H b us). reflexivity. Qed.

Theorem C138_quadrat : forall L alpha, (0 <= alpha)%Q ->
  chance L run_test (small_p alpha) <= Q2R alpha * mean G w (2 * L) (fun us => of_run (run_test us) always).
Proof using LW fixed.
  intros L alpha HA. pose proof (Qle_Rle _ _ HA) as HA'. replace (Q2R 0) with 0 in HA' by (unfold Q2R; cbn; field).
  change (mean G w (2 * L) (fun us => of_run (run_test us) always)) with (chance L run_test (fun _ => true)).
  assert (P0 : 0 <= chance L run_test (fun _ => true)).
  { rewrite <- (mean_const G w LW (2 * L) 0) at 1. apply mean_le; auto. intro us. destruct (run_test us); cbn; lra. }
  destruct (Z.ltb_spec 0 realizations) as [HR|HR].
  - destruct (quadrat_ranks ltac:(lia)) as [[e X]|X]; [rewrite !(chance_never _ _ e X); lra|].
    destruct (X L) as [X1 _]. specialize (X1 (level alpha (Z.to_nat realizations))). set (M := Z.to_nat realizations) in *.
    assert (EQ : chance L run_test (small_p alpha) = chance L run_test (fun q => true && Nat.leb (rk xgeb (qvalues q)) (level alpha M))).
    { apply mean_ext. intro us. apply of_run_same. intros q r H. destruct (small_rank ltac:(lia) alpha us q r HA H) as [-> _]. reflexivity. }
    rewrite EQ. set (x := chance L run_test (fun q => true && _)) in *. set (y := chance L run_test (fun _ => true)) in *.
    pose proof (level_le alpha M HA) as K. apply Qle_Rle in K. rewrite Q2R_mult, !Q2R_nat in K.
    assert (SM : 0 < INR (S M)) by (apply lt_0_INR; lia).
    apply (Rmult_le_reg_l _ _ _ SM). eapply Rle_trans; [exact X1|]. rewrite <- Rmult_assoc, (Rmult_comm (INR (S M))). apply Rmult_le_compat_r; auto.
  - assert (EQ : chance L run_test (small_p alpha) = 0).
    { rewrite <- (mean_const G w LW (2 * L) 0). apply mean_ext. intro us. destruct (run_test us) as [q r| |] eqn:H; try reflexivity. cbn [of_run].
      unfold experiment in H. apply rbind_val in H. destruct H as [a [us' [_ H]]]. unfold qstatistic in H.
      apply rbind_val in H. destruct H as [m [us1 [_ H]]]. apply rbind_val in H. destruct H as [d [us2 [_ H]]].
      destruct (Z.ltb_spec 0 realizations); [lia|]. injection H as <- _. reflexivity. }
    rewrite EQ. apply Rmult_le_pos; auto.
Qed.
Theorem C138_quadrat_exact : forall L k, (1 <= realizations)%Z -> (k <= S (Z.to_nat realizations))%nat ->
  chance L run_test (fun q => no_ties q && small_p (Qnat k / Qnat (S (Z.to_nat realizations))) q) =
  INR k / INR (S (Z.to_nat realizations)) * chance L run_test no_ties.
Proof using LW fixed.
  intros L k HR K. set (M := Z.to_nat realizations) in *. assert (SM : 0 < INR (S M)) by (apply lt_0_INR; lia).
  destruct (quadrat_ranks HR) as [[e X]|X]; [rewrite !(chance_never _ _ e X); ring|].
  destruct (X L) as [_ X2]. specialize (X2 (fun r => Nat.leb r k)). fold M in X2. rewrite count_seq in X2.
  replace (Nat.min (S M) (S k - 1)) with k in X2 by lia.
  assert (PQ : (0 < Qnat (S M))%Q) by (apply Qnat_pos; lia).
  assert (LK : level (Qnat k / Qnat (S M)) M = k).
  { unfold level. setoid_replace (Qnat k / Qnat (S M) * Qnat (S M))%Q with (Qnat k) by (field; intro Z; rewrite Z in PQ; apply (Qlt_irrefl _ PQ)).
    unfold Qnat. rewrite Qfloor_Z. apply Nat2Z.id. }
  assert (A0 : (0 <= Qnat k / Qnat (S M))%Q) by (apply Qle_shift_div_l; [exact PQ|]; rewrite Qmult_0_l; apply (Qnat_le 0); lia).
  assert (E1 : chance L run_test (fun q => no_ties q && small_p (Qnat k / Qnat (S M)) q) =
               chance L run_test (fun q => true && (untied xgeb (qvalues q) && Nat.leb (rk xgeb (qvalues q)) k))).
  { apply mean_ext. intro us. apply of_run_same. intros q r H. destruct (small_rank HR _ us q r A0 H) as [-> ->]. fold M. rewrite LK. reflexivity. }
  assert (E2 : chance L run_test no_ties = chance L run_test (fun q => true && untied xgeb (qvalues q))).
  { apply mean_ext. intro us. apply of_run_same. intros q r H. destruct (small_rank HR _ us q r A0 H) as [_ ->]. reflexivity. }
  rewrite E1, E2. set (x := chance L run_test (fun q => true && (_ && _))) in *. set (y := chance L run_test _) in *.
  apply (Rmult_eq_reg_l (INR (S M))); [|lra]. rewrite X2. field. lra.
Qed.
End Quadrat.
Print Assumptions C138_quadrat.
Print Assumptions C138_quadrat_exact.

(** ** G, K and L, for a hull and a support given by the user *)
Section Ripley.
Variables (sk : option (list string * list string)) (query : metric -> list pt -> pt -> nat -> Geometry_model.row)
  (dist : metric -> pt -> pt -> Q) (shape : list pt -> hullres -> hull).
Variables (m : metric) (user : hullarg) (H : hull) (edge : bool) (sup : list Q) (n M j : nat).
Hypothesis HM : (1 <= M)%nat.
Hypothesis hull_ok : forall x, exists r, prepare_hull x user = Ok r /\ hull_seen shape x r = H.
Definition is_num (v : xq) : bool := match v with NaN => false | _ => true end.
Definition is_real (v : option R) : bool := match v with Some _ => true | None => false end.
Lemma num_order : forall l, (forall v, In v l -> is_num v = true) -> total_order xge l.
Proof. clear. intros l HL. apply xge_order. intro Y. specialize (HL _ Y). discriminate. Qed.
Lemma real_order : forall l, (forall v, In v l -> is_real v = true) -> total_order rge l.
Proof. clear. intros l HL. apply rge_order. intro Y. specialize (HL _ Y). discriminate. Qed.
Section One.
Context {V : Type} (ge : V -> V -> bool) (nan : V) (isn : V -> bool) (c : calltype) (stat : statistic V) (st : list pt -> res (list V)).
Hypothesis ord : forall l, (forall v, In v l -> isn v = true) -> total_order ge l.
Hypothesis nan_ok : isn nan = false.
Hypothesis plain : c = TG \/ c = TK \/ c = TL.
Hypothesis stat_ok : forall x hu us, stat x (SupArr sup) TDNone m hu edge us = lift (let! v := st x in Ok (sup, v)) us.
Notation test := (fun x => test_run sk query shape ge nan c stat x (SupArr sup) TDNone m user edge true (Z.of_nat M)).
Notation run_test := (experiment H n test).
Definition ties (o : outcome V) : bool := negb (untied ge (rvalues nan j o)).
Lemma ripley_size : forall L k, (k <= M)%nat ->
  INR (S k) / INR (S M) * chance L run_test (rnum nan isn j) <= chance L run_test (fun o => rnum nan isn j o && reported M j k o) /\
  chance L run_test (fun o => rnum nan isn j o && negb (ties o) && reported M j k o) =
  INR (Nat.min (S M) (2 * k + 1)) / INR (S M) * chance L run_test (fun o => rnum nan isn j o && negb (ties o)).
Proof using LW HM hull_ok ord nan_ok plain stat_ok.
  intros L k K. assert (SM : 0 < INR (S M)) by (apply lt_0_INR; lia).
  destruct (experiment_run _ H n test) as [[e XE]|XR]; [rewrite !(chance_never _ _ e XE); split; [lra|ring]|].
  assert (DR : (exists e, forall us, run_test us = Exc e) \/ forall us, simulated_pattern H n us = rbind (reject (box_candidate (h_bbox H)) (h_contains H) us n) (fun l us => Val (squeeze 1 n [l]) us)).
  { unfold simulated_pattern, poisson, parse_size_and_intensity. destruct (div_area (Z.of_nat n) H) as [i|e] eqn:DA.
    - right. intro us. cbn [lift bind rbind]. unfold alloc. destruct (Z.ltb_spec (Z.of_nat n) 0); [lia|]. cbn [orb Z.ltb Z.compare lift rbind]. change (Z.to_nat 1) with 1%nat. rewrite Nat2Z.id.
      cbn [replicate]. destruct (reject _ _ us n); reflexivity.
    - left. exists e. intro us. unfold experiment, poisson, parse_size_and_intensity. rewrite DA. reflexivity. }
  destruct DR as [[e XE]|DR]; [rewrite !(chance_never _ _ e XE); split; [lra|ring]|].
  pose proof (rev_num sk ge nan isn m H sup n M j st) as EN.
  pose proof (rexp_ok sk query shape ge nan c stat m user H edge sup n M st plain stat_ok hull_ok HM DR XR) as EO.
  assert (RF : forall x, isn x = true -> ge x x = true).
  { intros x Hx. apply (order_refl ge [x] x); [apply ord|left; reflexivity]. intros v [<-|[]]. exact Hx. }
  pose proof (test_folded G w _ _ n LW ge (fun v => isn v = true) (rscore nan isn j st) ord (rscore_good nan isn j st) _ (rc sk m n) (rnum nan isn j) (rvalues nan j) M EN _ EO L k K) as X1.
  pose proof (test_untied G w _ _ n LW ge (fun v => isn v = true) (rscore nan isn j st) ord (rscore_good nan isn j st) _ (rc sk m n) (rnum nan isn j) (rvalues nan j) M EN _ EO L (fun r => Nat.leb r k || Nat.leb (S M - k) r)) as X2.
  pose proof (reported_rank sk ge nan isn m H sup n M j st nan_ok RF k) as RR.
  pose proof (chance_same G w _ _ n LW ge (fun v => isn v = true) (rscore nan isn j st) ord (rscore_good nan isn j st) _ (rc sk m n) (rnum nan isn j) (rvalues nan j) M EN _ EO L) as CS.
  split.
  - rewrite (CS (fun o => rnum nan isn j o && reported M j k o) (fun o => rnum nan isn j o && (Nat.leb (rk ge (rvalues nan j o)) k || Nat.leb (S M - k) (rk ge (rvalues nan j o))))) by exact RR.
    apply (Rmult_le_reg_l _ _ _ SM). eapply Rle_trans; [|exact X1]. right. field. lra.
  - rewrite (CS (fun o => rnum nan isn j o && negb (ties o) && reported M j k o) (fun o => rnum nan isn j o && (untied ge (rvalues nan j o) && (Nat.leb (rk ge (rvalues nan j o)) k || Nat.leb (S M - k) (rk ge (rvalues nan j o)))))).
    2:{ intros d b A1 A2. specialize (RR d b A1 A2). unfold ties. rewrite negb_involutive. destruct (rnum nan isn j b); cbn [andb] in *; [|reflexivity]. rewrite RR. reflexivity. }
    rewrite (CS (fun o => rnum nan isn j o && negb (ties o)) (fun o => rnum nan isn j o && untied ge (rvalues nan j o))) by (intros d b _ _; unfold ties; rewrite negb_involutive; reflexivity).
    rewrite count_outside in X2 by lia. replace (k + (S (S M) - (S M - k)))%nat with (2 * k + 1)%nat in X2 by lia.
    apply (Rmult_eq_reg_l (INR (S M))); [|lra]. etransitivity; [exact X2|]. field. lra.
Qed.
End One.
(** The values are numbers; no two of them, observed or simulated, are equal. *)
Notation numeric := (rnum NaN is_num j).
Notation untied_at := (fun o => negb (ties xge NaN o)).
Notation at_most := (reported M j).
Theorem C138_G_refuted : forall L k, (k <= M)%nat ->
  let run_test := experiment H n (fun x => g_test sk query shape x (SupArr sup) TDNone m user edge true (Z.of_nat M)) in
  INR (S k) / INR (S M) * chance L run_test numeric <= chance L run_test (fun o => numeric o && at_most k o) /\
  chance L run_test (fun o => numeric o && untied_at o && at_most k o) =
  INR (Nat.min (S M) (2 * k + 1)) / INR (S M) * chance L run_test (fun o => numeric o && untied_at o).
Proof using LW HM hull_ok.
  intros L k K. apply (ripley_size xge NaN is_num TG (stat_G query) (fun x => let! sv := g_fun query x (SupArr sup) DNone m edge in Ok (snd sv))); auto; [exact num_order|].
  intros x hu us. unfold stat_G. cbn [one lift rbind]. f_equal. unfold g_fun, prepare. destruct edge; [reflexivity|].
  destruct (prepare_hull x HNone); [|reflexivity]. cbn [bind is_none andb]. destruct m as [y|y|y]; try reflexivity.
  - destruct (String.eqb y "precomputed"); [reflexivity|]. cbn [make_support bind]. destruct (g_stat _ _ _ _); reflexivity.
  - cbn [make_support bind]. destruct (g_stat _ _ _ _); reflexivity.
Qed.
Theorem C138_K_refuted : forall L k, (k <= M)%nat ->
  let run_test := experiment H n (fun x => k_test sk query dist shape x (SupArr sup) TDNone m user edge true (Z.of_nat M)) in
  INR (S k) / INR (S M) * chance L run_test numeric <= chance L run_test (fun o => numeric o && at_most k o) /\
  chance L run_test (fun o => numeric o && untied_at o && at_most k o) =
  INR (Nat.min (S M) (2 * k + 1)) / INR (S M) * chance L run_test (fun o => numeric o && untied_at o).
Proof using LW HM hull_ok.
  intros L k K. apply (ripley_size xge NaN is_num TK (stat_K query dist) (fun x => let! sv := k_fun query dist x (SupArr sup) DNone m edge in Ok (snd sv))); auto; [exact num_order|].
  intros x hu us. unfold stat_K. cbn [one lift rbind]. f_equal. unfold k_fun, prepare. destruct edge; [reflexivity|].
  destruct (prepare_hull x HNone) as [h|]; [|reflexivity]. cbn [bind is_none andb]. destruct m as [y|y|y]; try reflexivity.
  - destruct (String.eqb y "precomputed"); [reflexivity|]. cbn [make_support bind]. destruct h; try reflexivity; destruct (k_stat _ _ _ _ _); reflexivity.
  - cbn [make_support bind]. destruct h; try reflexivity; destruct (k_stat _ _ _ _ _); reflexivity.
Qed.
Theorem C138_L_refuted : forall linearized L k, (k <= M)%nat ->
  let run_test := experiment H n (fun x => l_test sk query dist shape linearized x (SupArr sup) TDNone m user edge true (Z.of_nat M)) in
  let numeric := rnum None is_real j in let untied_at := fun o => negb (ties rge None o) in
  INR (S k) / INR (S M) * chance L run_test numeric <= chance L run_test (fun o => numeric o && at_most k o) /\
  chance L run_test (fun o => numeric o && untied_at o && at_most k o) =
  INR (Nat.min (S M) (2 * k + 1)) / INR (S M) * chance L run_test (fun o => numeric o && untied_at o).
Proof using LW HM hull_ok.
  intros lin L k K. apply (ripley_size rge None is_real TL (stat_L query dist lin) (fun x => let! sv := l_fun query dist lin x (SupArr sup) DNone m edge in Ok (snd sv))); auto; [exact real_order|].
  intros x hu us. unfold stat_L. cbn [one lift rbind]. f_equal. unfold l_fun, k_fun, prepare. destruct edge; [reflexivity|].
  destruct (prepare_hull x HNone) as [h|]; [|reflexivity]. cbn [bind is_none andb]. destruct m as [y|y|y]; try reflexivity.
  - destruct (String.eqb y "precomputed"); [reflexivity|]. cbn [make_support bind]. destruct h; try reflexivity; destruct (k_stat _ _ _ _ _); reflexivity.
  - cbn [make_support bind]. destruct h; try reflexivity; destruct (k_stat _ _ _ _ _); reflexivity.
Qed.
End Ripley.
Print Assumptions C138_G_refuted.
Print Assumptions C138_K_refuted.
Print Assumptions C138_L_refuted.
End Laws.

(** ** Cases *)
(** Equally likely numbers: an expectation is a share of the streams. *)
Lemma mean1_uniform : forall G, G <> [] -> forall F, mean1 G (fun _ => / INR (List.length G)) F = / INR (List.length G) * fold_right Rplus 0 (map F G).
Proof.
  intros G _ F. unfold mean1. set (c := / INR (List.length G)). clearbody c.
  induction G as [|u G IH]; cbn [map fold_right]; [ring|]. rewrite IH. ring.
Qed.
Lemma mean_uniform : forall G, G <> [] -> forall L (X : list Q -> bool),
  mean G (fun _ => / INR (List.length G)) L (fun us => yes (X us)) = INR (count X (tuples L G)) / INR (List.length G ^ L).
Proof.
  intros G NE. assert (P : 0 < INR (List.length G)) by (apply lt_0_INR; destruct G; [contradiction|cbn; lia]).
  induction L as [|L IH]; intro X.
  - cbn [mean tuples Nat.pow]. unfold yes. rewrite count_cons. change (count X []) with 0%nat. destruct (X []); cbn; field.
  - cbn [mean]. rewrite mean1_uniform by exact NE.
    assert (E : forall G', fold_right Rplus 0 (map (fun u => mean G (fun _ => / INR (List.length G)) L (fun us => yes (X (u :: us)))) G') =
                INR (count X (flat_map (fun x => map (cons x) (tuples L G)) G')) / INR (List.length G ^ L)).
    { induction G' as [|u G' I]; cbn [map fold_right flat_map]; [cbn; field; apply Rgt_not_eq; rewrite pow_INR; apply pow_lt, P|].
      rewrite I, IH, count_app, count_map, plus_INR. field. apply Rgt_not_eq. rewrite pow_INR. apply pow_lt, P. }
    rewrite E. cbn [tuples Nat.pow]. rewrite mult_INR. field. split; [apply Rgt_not_eq; rewrite pow_INR; apply pow_lt, P|lra].
Qed.
Lemma chance_uniform : forall G, G <> [] -> forall (B : Type) L (r : list Q -> run B) X,
  mean G (fun _ => / INR (List.length G)) L (fun us => of_run (r us) (fun b => yes (X b))) =
  INR (count (fun us => match r us with Val b _ => X b | _ => false end) (tuples L G)) / INR (List.length G ^ L).
Proof. intros G NE B L r X. rewrite <- mean_uniform by exact NE. apply mean_ext. intro us. destruct (r us); reflexivity. Qed.

Definition coin : list Q := [1#8; 5#8]%Q.
Definition field66 : hull := bbox_hull (mkbox 0 0 6 6).
Lemma coin_law : is_law coin (fun _ => / INR (List.length coin)).
Proof. split; [intros; cbn; lra|]. unfold mean1. cbn. lra. Qed.
Ltac count_runs := rewrite chance_uniform by discriminate; match goal with |- context [INR (count ?f ?l)] => let c := eval vm_compute in (count f l) in replace (count f l) with c by (vm_compute; reflexivity) end;
  match goal with |- context [INR (?b ^ ?l)] => let c := eval vm_compute in (b ^ l)%nat in change (b ^ l)%nat with c end; rewrite !INR_IZR_INZ;
  repeat match goal with |- context [Z.of_nat ?k] => let z := eval vm_compute in (Z.of_nat k) in change (Z.of_nat k) with z end; lra.
Notation coins L r X := (mean coin (fun _ => / INR (List.length coin)) L (fun us => of_run (r us) (fun b => yes (X b)))).
(** Two patterns of one point in a triangle: the first on the left, the second on the right. *)
Definition left_right (ps : list (list pt)) : bool :=
  match ps with [[p]; [q]] => Qle_bool (fst p) 2 && negb (Qle_bool (fst q) 2) | _ => false end.
Example C138_patterns_case : parse_size_and_intensity tri None (STuple [1; 2]%Z) = Ok (1%Z, 2%Z, Fin (1#8)) /\
  coins 4 (poisson tri None (STuple [1; 2]%Z)) (fun a => left_right (chunks 1 2 (arr_points a))) = 1 / 8 /\
  coins 4 (poisson tri None (STuple [1; 2]%Z)) (fun _ => true) = 9 / 16.
Proof. split; [reflexivity|]. split; count_runs. Qed.
(** Two points, hexagons of side 2, two realizations: of the 4096 streams 1728 end. *)
Notation hexagons := (experiment field66 2 (fun pts => qstatistic pts ShHex 3 3 0 0 2 (173#100) 2 field66)).
Example C138_quadrat_case :
  coins 12 hexagons (small_p (1#3)) = 256 / 4096 /\ coins 12 hexagons (small_p (2#3)) = 512 / 4096 /\ coins 12 hexagons (fun _ => true) = 1728 / 4096.
Proof. repeat split; count_runs. Qed.
(** Two points, one simulation: a p-value of 0 in 208 of 256 streams, in half of those without ties. *)
Notation box66 := (HArr (Vec [0; 0; 6; 6]%Q)).
Lemma box66_ok : forall x, exists r, prepare_hull x box66 = Ok r /\ hull_seen no_shape x r = field66.
Proof. intro x. eexists. split; reflexivity. Qed.
Notation g2 := (experiment field66 2 (fun x => g_test names (sorted_query metrics) no_shape x (SupArr [0; 2; 9]%Q) TDNone (MName "chebyshev") box66 false true 1)).
Notation k2 := (experiment field66 2 (fun x => k_test names (sorted_query metrics) metrics no_shape x (SupArr [0; 2; 9]%Q) TDNone (MName "cityblock") box66 false true 1)).
Example C138_G_case : coins 8 g2 (fun o => rnum NaN is_num 1 o && reported 1 1 0 o) = 208 / 256 /\ coins 8 g2 (rnum NaN is_num 1) = 1 /\
  coins 8 g2 (fun o => rnum NaN is_num 1 o && negb (ties 1 xge NaN o) && reported 1 1 0 o) = 48 / 256 /\
  coins 8 g2 (fun o => rnum NaN is_num 1 o && negb (ties 1 xge NaN o)) = 96 / 256.
Proof. repeat split; count_runs. Qed.
Example C138_K_case : coins 8 k2 (fun o => rnum NaN is_num 2 o && reported 1 2 0 o) = 208 / 256 /\
  coins 8 k2 (fun o => rnum NaN is_num 2 o && negb (ties 2 xge NaN o) && reported 1 2 0 o) = 48 / 256 /\
  coins 8 k2 (fun o => rnum NaN is_num 2 o && negb (ties 2 xge NaN o)) = 96 / 256.
Proof. repeat split; count_runs. Qed.
Example C138_L_case :
  coins 8 (experiment field66 2 (fun x => l_test names (sorted_query metrics) metrics no_shape true x (SupArr [0; 2; 9]%Q) TDNone (MName "cityblock") box66 false true 1))
    (reported 1 2 0) = 208 / 256.
Proof.
  transitivity (coins 8 k2 (reported 1 2 0)); [|count_runs]. apply mean_ext. intro us. unfold experiment.
  destruct (poisson field66 None (SInt (Z.of_nat 2)) us) as [a r|e|]; cbn [rbind]; try reflexivity.
  pose proof (C114_same_pvalues names (sorted_query metrics) metrics no_shape true (arr_points a) (SupArr [0; 2; 9]%Q) TDNone
    (MName "cityblock") box66 false true 1 r) as T.
  destruct (k_test _ _ _ _ _ _ _ _ _ _ _ _ r) as [o r'|e|]; [|rewrite T; reflexivity|rewrite T; reflexivity].
  destruct T as [ol [-> [_ [P _]]]]. cbn [of_run]. unfold reported. rewrite P. reflexivity.
Qed.
