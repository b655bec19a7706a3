(** The Ripley tests for G, K and L as functions of the data and the simulated patterns. *)
From Coq Require Import Reals Qreals ZArith QArith Qminmax List Bool Arith Lia Lra Psatz Permutation String.
From Verif Require Import Base BaseLemmas Quadrat_model Geometry_model Random_model Random_spec Random_proofs Joint_spec Joint_proofs
  QStat_proofs DistStats_model Ripley_model
  Spacetime_model Spacetime_proofs Size_spec Size_proofs Size2_proofs Null_spec Null_proofs Null2_proofs Null3_proofs.
Import ListNotations.
Local Open Scope R_scope.

Section Ripley.
Variables (sk : option (list string * list string)) (query : metric -> list pt -> pt -> nat -> Geometry_model.row)
  (shape : list pt -> hullres -> hull).
Context {V : Type} (ge : V -> V -> bool) (nan : V) (isnum : V -> bool).
Variables (c : calltype) (stat : statistic V) (m : metric) (user : hullarg) (H : hull) (edge : bool) (sup : list Q) (n M j : nat).
Variable st : list pt -> res (list V).
Hypothesis plain : c = TG \/ c = TK \/ c = TL.
Hypothesis stat_ok : forall x hu us, stat x (SupArr sup) TDNone m hu edge us = lift (let! v := st x in Ok (sup, v)) us.
Hypothesis hull_ok : forall x, exists r, prepare_hull x user = Ok r /\ hull_seen shape x r = H.
Notation draw := (fun us => reject (box_candidate (h_bbox H)) (h_contains H) us n).
Notation test x := (test_run sk query shape ge nan c stat x (SupArr sup) TDNone m user edge true (Z.of_nat M)).
Definition rc : bool := match build_best_tree sk m with Ok _ => true | Raise _ => false end && negb (Nat.eqb n 1).
Definition reval (x : list pt) (ls : list (list pt)) : option (outcome V) :=
  match st x, mapM st ls with
  | Ok o, Ok vs => if rc then Some (mkoutcome sup o (map (fun j => Fin (pvalue_of ge nan (Z.of_nat M) vs o j)) (seq 0 (List.length o))) (Some vs)) else None
  | _, _ => None
  end.
Definition rev' (d : list (list pt)) : option (outcome V) := match d with x :: ls => reval x ls | [] => None end.

Lemma simulated_draw : forall us, (exists e, forall us, simulated_pattern H n us = Exc e) \/ simulated_pattern H n us = rbind (draw us) (fun l us => Val (squeeze 1 n [l]) us).
Proof.
  clear. intro us. unfold simulated_pattern, poisson. unfold parse_size_and_intensity. destruct (div_area (Z.of_nat n) H) as [i|e]; cbn [lift bind rbind].
  - right. unfold alloc. destruct (Z.ltb_spec (Z.of_nat n) 0); [lia|]. cbn [orb Z.ltb Z.compare lift rbind]. change (Z.to_nat 1) with 1%nat. rewrite Nat2Z.id.
    cbn [replicate]. destruct (draw us); reflexivity.
  - left. exists e. reflexivity.
Qed.
Lemma test_dist_none : forall pts nn empty, test_distances query c nn m pts empty = Ok TDNone.
Proof using plain. intros. destruct plain as [->|[->| ->]]; reflexivity. Qed.
(** One simulation: draw, then evaluate. *)
Lemma simulations_eval : (forall us, simulated_pattern H n us = rbind (draw us) (fun l us => Val (squeeze 1 n [l]) us)) -> forall hu empty s us F,
  of_run (simulations (one_simulation query c stat n H hu m edge empty sup) s us) F =
  of_run (replicate draw s us) (fun ls => match mapM st ls with Ok vs => if Nat.eqb s 0 || negb (Nat.eqb n 1) then F vs else 0 | Raise _ => 0 end).
Proof using plain stat_ok.
  clear hull_ok. intros DR hu empty. induction s as [|s IH]; intros us F; [reflexivity|]. cbn [simulations replicate]. unfold one_simulation at 1. rewrite DR.
  destruct (draw us) as [l r|e|] eqn:EL; cbn [rbind of_run]; try reflexivity.
  apply reject_sound in EL. destruct EL as [LL _].
  destruct (Nat.eqb_spec n 1) as [N1|N1].
  - assert (SQ : two_dim (squeeze 1 n [l]) = Raise ValueError) by (rewrite N1 in *; destruct l as [|p [|q l]]; try discriminate LL; reflexivity).
    rewrite SQ. cbn [lift rbind of_run orb negb Nat.eqb]. symmetry.
    destruct (replicate draw s r) as [ls r'|e|]; cbn [rbind of_run]; try reflexivity. destruct (mapM st (l :: ls)); reflexivity.
  - assert (SQ : two_dim (squeeze 1 n [l]) = Ok l) by (unfold squeeze; cbn [Nat.eqb]; destruct (Nat.eqb_spec n 1); [contradiction|reflexivity]).
    rewrite SQ. cbn [lift rbind]. rewrite test_dist_none. cbn [lift rbind]. rewrite stat_ok. cbn [mapM].
    assert (GE : forall F', of_run (rbind (replicate draw s r) (fun ls us => Val (l :: ls) us)) F' = of_run (replicate draw s r) (fun ls => F' (l :: ls))) by (intro F'; destruct (replicate draw s r); reflexivity).
    rewrite GE. cbn [mapM negb orb Nat.eqb].
    destruct (st l) as [v|e]; cbn [bind lift rbind snd of_run]; [|symmetry; apply of_run_zero; reflexivity].
    transitivity (of_run (simulations (one_simulation query c stat n H hu m edge empty sup) s r) (fun vs => F (v :: vs))).
    + destruct (simulations _ s r); reflexivity.
    + rewrite IH. destruct (replicate draw s r) as [ls r'|e|]; cbn [of_run]; try reflexivity.
      destruct (mapM st ls); cbn [bind]; [|reflexivity]. rewrite orb_true_r. reflexivity.
Qed.
Lemma test_eval : (forall us, simulated_pattern H n us = rbind (draw us) (fun l us => Val (squeeze 1 n [l]) us)) -> (1 <= M)%nat ->
  forall x us g, List.length x = n ->
  of_run (test x us) g = of_run (replicate draw M us) (fun ls => match reval x ls with Some b => g b | None => 0 end).
Proof using plain stat_ok hull_ok.
  intros DR HM x us g L. unfold test_run, reval, rc.
  destruct (build_best_tree sk m) as [t|]; cbn [lift rbind].
  2:{ symmetry. apply of_run_zero. intro ls. cbn [andb]. destruct (st x), (mapM st ls); reflexivity. }
  destruct (hull_ok x) as [r [-> HS]]. cbn [lift rbind]. cbv zeta. rewrite HS, L.
  assert (EM : match c with TF | TJ => rbind (empty_space_points x us) (fun a us => lift (two_dim a) us) | _ => Val [] us end = Val [] us) by (destruct plain as [->|[->| ->]]; reflexivity).
  rewrite EM. cbn [rbind]. rewrite test_dist_none. cbn [lift rbind]. rewrite stat_ok.
  destruct (st x) as [o|]; cbn [bind lift rbind]; [|symmetry; apply of_run_zero; reflexivity].
  set (pv := fun sims => match sims with [] => map (fun _ => NaN) sup | _ => map (fun j => Fin (pvalue_of ge nan (Z.of_nat M) sims o j)) (seq 0 (List.length o)) end).
  set (sim := simulations _ _ us).
  transitivity (of_run sim (fun sims => g (mkoutcome sup o (pv sims) (Some sims)))); [destruct sim; reflexivity|].
  unfold sim. rewrite (simulations_eval DR). rewrite Nat2Z.id.
  destruct (replicate draw M us) as [ls r'|e|] eqn:RE; cbn [of_run]; try reflexivity.
  apply (replicate_sound (fun _ => True)) in RE; [|auto]. destruct RE as [LS _].
  destruct (mapM st ls) as [vs|] eqn:EV; [|reflexivity]. apply mapM_ok in EV. destruct EV as [LV _].
  destruct (Nat.eqb_spec M 0); [lia|]. cbn [orb andb]. destruct (negb (Nat.eqb n 1)); [|reflexivity].
  destruct vs as [|v vs]; [cbn [List.length] in LV; lia|]. reflexivity.
Qed.

Hypothesis nan_num : isnum nan = false.
Definition rscore (x : list pt) : option V :=
  match st x with Ok v => if isnum (nth j v nan) then Some (nth j v nan) else None | Raise _ => None end.
Definition rnum (o : outcome V) : bool :=
  isnum (nth j (o_statistic o) nan) && match o_sims o with Some vs => forallb (fun v => isnum (nth j v nan)) vs | None => false end.
Definition rvalues (o : outcome V) : list V := nth j (o_statistic o) nan :: match o_sims o with Some vs => map (fun v => nth j v nan) vs | None => [] end.
Lemma rscore_good : forall p v, rscore p = Some v -> isnum v = true.
Proof. clear. intros p v E. unfold rscore in E. destruct (st p) as [u|]; [|discriminate]. destruct (isnum (nth j u nan)) eqn:I; [|discriminate]. congruence. Qed.
Lemma rscores : forall ls vs, mapM st ls = Ok vs ->
  forallb is_some (map rscore ls) = forallb (fun v => isnum (nth j v nan)) vs /\
  (forallb (fun v => isnum (nth j v nan)) vs = true -> map rscore ls = map Some (map (fun v => nth j v nan) vs)).
Proof.
  clear. induction ls as [|x ls IH]; intros vs E; cbn [mapM] in E; [injection E as <-; split; reflexivity|].
  apply bind_ok in E. destruct E as [v [E1 E]]. apply bind_ok in E. destruct E as [us [E2 E]]. injection E as <-.
  destruct (IH _ E2) as [I1 I2]. cbn [map forallb]. unfold rscore at 1 3. rewrite E1.
  destruct (isnum (nth j v nan)); cbn [is_some andb]; split; auto; try discriminate. intro F. rewrite (I2 F). reflexivity.
Qed.
Lemma rev_num : forall d, all_of (D (h_contains H) n) (S M) d ->
  (rc && forallb is_some (map rscore d) = true -> exists o, rev' d = Some o /\ rnum o = true /\ map Some (rvalues o) = map rscore d) /\
  (rc && forallb is_some (map rscore d) = false -> forall o, rev' d = Some o -> rnum o = false).
Proof.
  clear plain stat_ok hull_ok nan_num. intros d [LD _]. destruct d as [|x ls]; [discriminate|]. cbn [rev']. unfold reval. split.
  - intro C. apply andb_true_iff in C. destruct C as [C S0]. cbn [map forallb] in S0. apply andb_true_iff in S0. destruct S0 as [S1 S2].
    destruct (mapM_total _ _ st ls) as [vs EV].
    { intros p P. rewrite forallb_forall in S2. specialize (S2 _ (in_map rscore _ _ P)). unfold rscore in S2. destruct (st p) as [v|]; [eauto|discriminate]. }
    destruct (rscores ls vs EV) as [R1 R2]. rewrite R1 in S2. unfold rscore in S1. cbn [map]. unfold rscore at 1.
    destruct (st x) as [o|]; [|discriminate]. destruct (isnum (nth j o nan)) eqn:I; [|discriminate].
    rewrite EV, C. eexists. split; [reflexivity|]. split.
    + unfold rnum. cbn [o_statistic o_sims]. rewrite I, S2. reflexivity.
    + unfold rvalues. cbn [o_statistic o_sims map]. rewrite (R2 S2). reflexivity.
  - intros C o E. destruct (st x) as [v|] eqn:EX; [|discriminate]. destruct (mapM st ls) as [vs|] eqn:EV; [|discriminate].
    destruct rc; [|discriminate]. injection E as <-. cbn [andb map forallb] in C. destruct (rscores ls vs EV) as [R1 _]. rewrite R1 in C.
    unfold rscore in C. rewrite EX in C. unfold rnum. cbn [o_statistic o_sims].
    destruct (isnum (nth j v nan)); cbn [is_some andb] in C |- *; [exact C|reflexivity].
Qed.
(** The reported p-value at point j of the support is at most k / (M + 1). *)
Definition reported (k : nat) (o : outcome V) : bool :=
  match nth j (o_pvalue o) NaN with Fin p => Qle_bool p (Qnat k / Qnat (S M)) | _ => false end.
Lemma reported_rank : (forall x, isnum x = true -> ge x x = true) -> forall k d o, all_of (D (h_contains H) n) (S M) d -> rev' d = Some o ->
  rnum o && reported k o = rnum o && (Nat.leb (rk ge (rvalues o)) k || Nat.leb (S M - k) (rk ge (rvalues o))).
Proof using nan_num.
  clear plain stat_ok hull_ok. intros RF k d o [LD _] E. destruct d as [|x ls]; [discriminate|]. cbn [List.length] in LD. injection LD as LD.
  cbn [rev'] in E. unfold reval in E. destruct (st x) as [v|]; [|discriminate]. destruct (mapM st ls) as [vs|] eqn:EV; [|discriminate].
  destruct rc; [|discriminate]. injection E as <-. apply mapM_ok in EV. destruct EV as [LV _].
  unfold rnum, reported, rvalues, rk. cbn [o_statistic o_sims o_pvalue].
  destruct (isnum (nth j v nan)) eqn:I; [|reflexivity]. cbn [andb]. f_equal.
  assert (J : (j < List.length v)%nat).
  { destruct (Nat.ltb_spec j (List.length v)); auto. rewrite nth_overflow in I by assumption. congruence. }
  rewrite (nth_indep _ NaN (Fin (pvalue_of ge nan (Z.of_nat M) vs v 0))) by (rewrite map_length, seq_length; exact J).
  rewrite (map_nth (fun j => Fin (pvalue_of ge nan (Z.of_nat M) vs v j))). rewrite seq_nth by exact J. cbn [plus].
  unfold above. rewrite count_cons, RF by exact I. unfold pvalue_of.
  rewrite (folded_level M (count (fun r => ge (nth j r nan) (nth j v nan)) vs) k) by (pose proof (count_le_length _ (fun r => ge (nth j r nan) (nth j v nan)) vs); lia).
  rewrite count_map. reflexivity.
Qed.
Lemma rexp_ok : (1 <= M)%nat -> (forall us, simulated_pattern H n us = rbind (draw us) (fun l us => Val (squeeze 1 n [l]) us)) ->
  (forall us, experiment H n (fun x => test x) us = rbind (draw us) (fun x => test x)) ->
  forall us g, of_run (experiment H n (fun x => test x) us) g = of_run (replicate draw (S M) us) (get rev' g).
Proof using plain stat_ok hull_ok.
  intros HM DR X us g. rewrite X. cbn [replicate]. destruct (draw us) as [l r|e|] eqn:EL; cbn [rbind of_run]; try reflexivity.
  rewrite (test_eval DR HM); [|apply reject_sound in EL; apply EL].
  destruct (replicate draw M r) as [ls r'|e|]; reflexivity.
Qed.
End Ripley.
