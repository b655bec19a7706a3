(** QStatistic and the Ripley tests as functions of the data and the simulated patterns. *)
From Coq Require Import Reals Qreals ZArith QArith Qround List Bool Arith Lia Lra Psatz Permutation String.
From Verif Require Import Base BaseLemmas Quadrat_model Geometry_model Random_model Random_spec Random_proofs Joint_spec Joint_proofs
  QStat_model QStat_proofs DistStats_model Ripley_model
  Spacetime_model Spacetime_proofs Size_spec Size_proofs Size2_proofs Null_spec Null_proofs Null2_proofs.
Import ListNotations.
Local Open Scope R_scope.

Lemma of_run_zero : forall (A : Type) (r : run A) (F : A -> R), (forall x, F x = 0) -> of_run r F = 0.
Proof. intros A [x us|e|] F H; cbn; auto. Qed.
Lemma mapM_index : forall (A B : Type) (F : nat -> res B) (f : A -> res B) ls k,
  (forall i p, nth_error ls i = Some p -> F (k + i)%nat = f p) -> mapM F (seq k (List.length ls)) = mapM f ls.
Proof.
  induction ls as [|x ls IH]; intros k H; [reflexivity|]. cbn [List.length seq mapM].
  pose proof (H 0%nat x eq_refl) as H0. rewrite Nat.add_0_r in H0. rewrite H0.
  rewrite (IH (S k)); [reflexivity|]. intros i p P. rewrite Nat.add_succ_comm. apply H. exact P.
Qed.

(** ** QStatistic *)
Section Quadrat.
Variables (shape : qshape) (nx ny : Z) (rw rh lh sh : Q) (W : hull) (n M : nat).
Notation mkm x := (make_manager x shape nx ny rw rh lh sh).
Notation draw := (fun us => reject (box_candidate (h_bbox W)) (h_contains W) us n).
Definition chi (p : list pt) : res xq := let! m := mkm p in let! d := manager_sta m in Ok (chisquare (counts_of d)).
Definition qeval (x : list pt) (ls : list (list pt)) : res qresult :=
  let! m := mkm x in
  let! d := manager_sta m in
  let obs := counts_of d in
  if Qeq_bool (h_area W) 0 then Raise ZeroDivisionError
  else let! sims := mapM (sim_chi2 m (squeeze M n ls)) (seq 0 M) in
       Ok (mkq (dkeys d) obs (chisquare obs) (chi2_df obs) (chi2_contrib obs) (Some sims) (Some (mc_pvalue sims (chisquare obs) (Z.of_nat M)))).
Definition ok_or_0 {A : Type} (r : res A) (g : A -> R) : R := match r with Ok a => g a | Raise _ => 0 end.
Lemma qstat_eval : forall x us g, (1 <= M)%nat -> List.length x = n ->
  of_run (qstatistic x shape nx ny rw rh lh sh (Z.of_nat M) W us) g = of_run (replicate draw M us) (fun ls => ok_or_0 (qeval x ls) g).
Proof.
  intros x us g HM L. unfold qstatistic, qeval.
  destruct (mkm x) as [m|]; cbn [lift rbind bind]; [|symmetry; apply of_run_zero; reflexivity].
  destruct (manager_sta m) as [d|]; cbn [lift rbind bind]; [|symmetry; apply of_run_zero; reflexivity].
  destruct (Z.ltb_spec 0 (Z.of_nat M)); [|lia].
  destruct (Qeq_bool (h_area W) 0) eqn:A; [symmetry; apply of_run_zero; reflexivity|].
  assert (N : ~ (h_area W == 0)%Q) by (intro Z; apply Qeq_bool_iff in Z; congruence).
  assert (TR : Qtrunc (Qlen x / h_area W * h_area W) = Z.of_nat n).
  { setoid_replace (Qlen x / h_area W * h_area W)%Q with (inject_Z (Z.of_nat n)); [apply Qtrunc_inject|]. unfold Qlen. rewrite L. field. exact N. }
  unfold poisson. cbn [parse_size_and_intensity lift rbind]. rewrite TR. unfold alloc.
  destruct (Z.ltb_spec (Z.of_nat n) 0); [lia|]. destruct (Z.ltb_spec (Z.of_nat M) 0); [lia|]. cbn [orb lift rbind]. rewrite !Nat2Z.id.
  destruct (replicate draw M us) as [ls r|e|]; cbn [rbind of_run]; try reflexivity.
  destruct (mapM (sim_chi2 m (squeeze M n ls)) (seq 0 M)); reflexivity.
Qed.

Hypothesis fixed : shape = ShRect -> (rw == 0)%Q \/ (rh == 0)%Q.
Lemma sim_same : forall x m p, mkm x = Ok m -> sim_manager m p = mkm p.
Proof using fixed.
  intros x m p H. destruct shape; cbn [make_manager] in *; try discriminate.
  - assert (C : negb (Qeq_bool rw 0) && negb (Qeq_bool rh 0) = false).
    { destruct (fixed eq_refl) as [Z|Z]; apply Qeq_bool_iff in Z; rewrite Z; cbn; auto. apply andb_false_r. }
    unfold rect_init in *. rewrite C in *. destruct (compute_mbb x) as [b|]; [|discriminate]. cbn [bind] in H. injection H as <-.
    cbn [sim_manager rm_cols rm_rows]. unfold rect_init. change (negb (Qeq_bool 0 0) && negb (Qeq_bool 0 0)) with false. cbv iota. reflexivity.
  - unfold hex_init in H. destruct (compute_mbb x) as [b|]; [|discriminate]. cbn [bind] in H. injection H as <-. reflexivity.
Qed.
Lemma sta_sum : forall m d, manager_sta m = Ok d ->
  Zsum (dvals d) = Z.of_nat (List.length (match m with MRect r => rm_points r | MHex h => hx_points h end)).
Proof.
  clear. intros m d H.
  assert (X : forall (step : zdict -> pt -> res zdict) l d0 d', (forall a p b, step a p = Ok b -> Zsum (dvals b) = (Zsum (dvals a) + 1)%Z) ->
    foldM step l d0 = Ok d' -> Zsum (dvals d') = (Zsum (dvals d0) + Z.of_nat (List.length l))%Z).
  { intros step l. induction l as [|p l IH]; intros d0 d' ST F; cbn [foldM] in F.
    - injection F as <-. cbn. lia.
    - apply bind_ok in F. destruct F as [a [F1 F2]]. rewrite (IH _ _ ST F2), (ST _ _ _ F1). cbn [List.length]. lia. }
  assert (I : forall a k b, dincr a k = Ok b -> Zsum (dvals b) = (Zsum (dvals a) + 1)%Z).
  { intros a k b E. pose proof (dincr_ok_inv _ _ _ E) as K. destruct (dincr_ok a k K) as [b' [E' [_ [S' _]]]]. rewrite E in E'. injection E' as <-. exact S'. }
  assert (Z0 : forall l, Zsum (dvals (map (fun k => (k, 0%Z)) l)) = 0%Z) by (induction l as [|k l IH]; [reflexivity|cbn; exact IH]).
  destruct m as [r|h]; cbn [manager_sta] in H.
  - unfold rect_location_sta in H. apply X in H; [rewrite H, Z0; reflexivity|]. intros a p b E. apply bind_ok in E. destruct E as [k [_ E]]. apply (I _ _ _ E).
  - unfold hex_location_sta in H. apply X in H; [rewrite H, Z0; reflexivity|]. intros a p b E. apply (I _ _ _ E).
Qed.
Lemma chi_fin : forall p v, chi p = Ok v -> exists q, v = Fin q.
Proof.
  clear fixed. intros p v H. unfold chi in H. apply bind_ok in H. destruct H as [m [M1 H]]. apply bind_ok in H. destruct H as [d [D1 H]]. injection H as <-.
  apply sta_sum in D1.
  assert (P : (0 < Zsum (dvals d))%Z).
  { rewrite D1. destruct p as [|p0 p]; [destruct shape; discriminate M1|]. destruct shape; cbn [make_manager] in M1; try discriminate M1.
    - unfold rect_init in M1. cbn [compute_mbb bind] in M1. destruct (negb _ && negb _) in M1; injection M1 as <-; cbn [rm_points List.length]; lia.
    - unfold hex_init in M1. cbn [compute_mbb bind] in M1. injection M1 as <-. cbn [hx_points List.length]. lia. }
  assert (QS : (Qsum (counts_of d) == inject_Z (Zsum (dvals d)))%Q).
  { unfold counts_of. clear. induction (dvals d) as [|z l IH]; [reflexivity|]. change (inject_Z z + Qsum (map inject_Z l) == inject_Z (z + Zsum l))%Q. rewrite IH, inject_Z_plus. reflexivity. }
  destruct (chisquare_value (counts_of d)) as [t [E _]].
  - intro Z. unfold counts_of in Z. destruct (dvals d); [cbn in P; lia|discriminate].
  - intro Z. rewrite QS in Z. change (inject_Z (Zsum (dvals d)) == inject_Z 0)%Q in Z. apply (proj1 (inject_Z_injective _ _)) in Z. rewrite Z in P. apply (Z.lt_irrefl _ P).
  - exists t. exact E.
Qed.
Definition qscore (p : list pt) : option xq := match chi p with Ok v => Some v | Raise _ => None end.
Lemma qscore_good : forall p v, qscore p = Some v -> v <> NaN.
Proof. clear fixed. intros p v H. unfold qscore in H. destruct (chi p) as [u|] eqn:E; [|discriminate]. injection H as <-. apply chi_fin in E. destruct E as [q ->]. discriminate. Qed.
Lemma mapM_score : forall ls vs, mapM chi ls = Ok vs -> map qscore ls = map Some vs.
Proof.
  clear fixed. induction ls as [|p ls IH]; intros vs H; cbn [mapM] in H; [injection H as <-; reflexivity|].
  apply bind_ok in H. destruct H as [v [H1 H]]. apply bind_ok in H. destruct H as [us [H2 H]]. injection H as <-.
  cbn [map]. rewrite (IH _ H2). unfold qscore. rewrite H1. reflexivity.
Qed.
Lemma score_mapM : forall ls, forallb is_some (map qscore ls) = true -> exists vs, mapM chi ls = Ok vs.
Proof.
  clear fixed. intros ls H. apply mapM_total. intros p P. rewrite forallb_forall in H. specialize (H (qscore p) (in_map _ _ _ P)).
  unfold qscore in H. destruct (chi p) as [v|]; [eauto|discriminate].
Qed.
Definition qc : bool := Nat.leb 2 M && Nat.leb 2 n && negb (Qeq_bool (h_area W) 0).
Definition qev (d : list (list pt)) : option qresult :=
  match d with x :: ls => match qeval x ls with Ok q => Some q | Raise _ => None end | [] => None end.
Definition qvalues (q : qresult) : list xq := q_chi2 q :: match q_sims q with Some s => s | None => [] end.
Lemma qev_num : (1 <= M)%nat -> forall d, all_of (D (h_contains W) n) (S M) d ->
  (qc && forallb is_some (map qscore d) = true -> exists q, qev d = Some q /\ true = true /\ map Some (qvalues q) = map qscore d) /\
  (qc && forallb is_some (map qscore d) = false -> forall q, qev d = Some q -> true = false).
Proof using fixed.
  intros HM d [LD AD]. destruct d as [|x ls]; [discriminate|]. cbn [List.length] in LD. injection LD as LD.
  assert (Lx : List.length x = n) by (apply (AD x); left; reflexivity).
  assert (Ll : Forall (fun l => List.length l = n) ls) by (apply Forall_forall; intros l L; apply (AD l); right; exact L).
  assert (MM : forall m, mkm x = Ok m -> Nat.leb 2 M && Nat.leb 2 n = true -> mapM (sim_chi2 m (squeeze M n ls)) (seq 0 M) = mapM chi ls).
  { intros m E C. apply andb_true_iff in C. rewrite !Nat.leb_le in C. rewrite <- LD at 2. apply mapM_index. intros i p P. cbn [plus].
    unfold squeeze. destruct (Nat.eqb_spec M 1); [lia|]. destruct (Nat.eqb_spec n 1); [lia|].
    assert (Lp : List.length p = n) by (apply (nth_error_Forall _ _ _ _ _ Ll P)).
    unfold sim_chi2. cbn [sub_pattern]. rewrite P. destruct p as [|p0 p]; [cbn in Lp; lia|]. cbn [bind]. rewrite (sim_same x m _ E). reflexivity. }
  split.
  - intro C. apply andb_true_iff in C. destruct C as [C S0]. unfold qc in C. apply andb_true_iff in C. destruct C as [C A].
    cbn [map forallb] in S0. apply andb_true_iff in S0. destruct S0 as [S1 S2]. destruct (score_mapM ls S2) as [vs VS].
    cbn [qev]. unfold qeval. cbn [map]. unfold qscore at 1. unfold qscore, chi in S1. unfold chi.
    destruct (mkm x) as [m|] eqn:EM; [|discriminate]. cbn [bind] in *. destruct (manager_sta m) as [dd|]; [|discriminate]. cbn [bind] in *.
    apply negb_true_iff in A. rewrite A. rewrite (MM m eq_refl C), VS. cbn [bind].
    eexists. split; [reflexivity|]. split; [reflexivity|]. unfold qvalues. cbn [q_chi2 q_sims map]. rewrite (mapM_score _ _ VS). reflexivity.
  - intros C q Q. exfalso. cbn [qev] in Q. destruct (qeval x ls) as [q'|] eqn:EQ; [|discriminate]. injection Q as ->.
    unfold qeval in EQ. apply bind_ok in EQ. destruct EQ as [m [EM EQ]]. apply bind_ok in EQ. destruct EQ as [dd [ED EQ]]. cbv zeta in EQ.
    destruct (Qeq_bool (h_area W) 0) eqn:A; [discriminate|]. apply bind_ok in EQ. destruct EQ as [sims [ES EQ]].
    assert (CC : Nat.leb 2 M && Nat.leb 2 n = true).
    { destruct (Nat.leb_spec 2 n) as [N2|N2].
      - destruct (Nat.leb_spec 2 M) as [M2|M2]; [reflexivity|]. exfalso. assert (M1 : M = 1%nat) by lia. rewrite M1 in *. cbn [seq mapM] in ES.
        apply bind_ok in ES. destruct ES as [v [ES _]]. unfold sim_chi2 in ES. apply bind_ok in ES. destruct ES as [p [ES _]].
        destruct ls as [|l [|l' ls']]; try discriminate LD. unfold squeeze in ES. cbn [Nat.eqb] in ES. destruct (Nat.eqb_spec n 1); [lia|]. cbn [sub_pattern] in ES. destruct (nth_error l 0); discriminate ES.
      - exfalso. destruct n as [|[|n']]; try lia.
        + destruct x; [destruct shape; discriminate EM|discriminate Lx].
        + assert (SQ : exists l, squeeze M 1 ls = Arr2 l \/ exists p, squeeze M 1 ls = Arr1 p).
          { unfold squeeze. cbn [Nat.eqb]. destruct (Nat.eqb_spec M 1) as [e|e]; [|exists (List.concat ls); left; reflexivity].
            rewrite e in LD. destruct ls as [|l [|l' ls']]; try discriminate LD. inversion Ll as [|? ? Hl _]; subst.
            destruct l as [|p [|]]; try discriminate Hl. exists []. right. exists p. reflexivity. }
          destruct M as [|M']; [lia|]. cbn [seq mapM] in ES. apply bind_ok in ES. destruct ES as [v [ES _]]. unfold sim_chi2 in ES. apply bind_ok in ES. destruct ES as [p [ES _]].
          destruct SQ as [l [SQ|[p' SQ]]]; rewrite SQ in ES; cbn [sub_pattern] in ES; [destruct (nth_error l 0); discriminate ES|discriminate ES]. }
    unfold qc in C. rewrite CC, A in C. cbn [negb andb map forallb] in C.
    rewrite (MM m EM CC) in ES. rewrite (mapM_score _ _ ES) in C.
    assert (S1 : qscore x = Some (chisquare (counts_of dd))) by (unfold qscore, chi; rewrite EM; cbn [bind]; rewrite ED; reflexivity).
    rewrite S1 in C. cbn [is_some andb] in C. clear - C. induction sims as [|v sims IH]; [discriminate|exact (IH C)].
Qed.
Lemma qexp_ok : (1 <= M)%nat -> (forall us, experiment W n (fun pts => qstatistic pts shape nx ny rw rh lh sh (Z.of_nat M) W) us =
    rbind (draw us) (fun pts => qstatistic pts shape nx ny rw rh lh sh (Z.of_nat M) W)) ->
  forall us g, of_run (experiment W n (fun pts => qstatistic pts shape nx ny rw rh lh sh (Z.of_nat M) W) us) g =
    of_run (replicate draw (S M) us) (get qev g).
Proof.
  clear fixed. intros HM X us g. rewrite X. cbn [replicate]. destruct (draw us) as [l r|e|] eqn:DR; cbn [rbind of_run]; try reflexivity.
  rewrite qstat_eval; [|exact HM|apply reject_sound in DR; apply DR].
  destruct (replicate draw M r) as [ls r'|e|]; cbn [rbind of_run]; try reflexivity.
  unfold get. cbn [qev]. destruct (qeval l ls); reflexivity.
Qed.
End Quadrat.
