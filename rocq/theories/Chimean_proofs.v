(** Proofs on the mean of the quadrat statistic. *)
From Coq Require Import Reals Qreals ZArith QArith Qround Qminmax List Bool Arith Lia Lra Psatz.
From Verif Require Import Base BaseLemmas Quadrat_model Quadrat_spec Quadrat_proofs Hexagon_grid Geometry_model Random_model Random_spec QStat_model QStat_proofs Joint_spec Joint_proofs Blocks_spec Null_spec Null_proofs Chimean_spec.
Import ListNotations.
Local Open Scope R_scope.

(** ** Sums *)
Lemma so_cons : forall A (x : A) l f, sum_over (x :: l) f = f x + sum_over l f.
Proof. reflexivity. Qed.
Lemma so_ext : forall A (l : list A) f g, (forall x, In x l -> f x = g x) -> sum_over l f = sum_over l g.
Proof. intros A l f g H. induction l as [|x l IH]; [reflexivity|]. rewrite !so_cons, IH by (intros; apply H; right; assumption). rewrite (H x (or_introl eq_refl)). reflexivity. Qed.
Lemma so_plus : forall A (l : list A) f g, sum_over l (fun x => f x + g x) = sum_over l f + sum_over l g.
Proof. intros A l f g. induction l as [|x l IH]; [unfold sum_over; cbn; ring|]. rewrite !so_cons, IH. ring. Qed.
Lemma so_scale : forall A (l : list A) c f, sum_over l (fun x => c * f x) = c * sum_over l f.
Proof. intros A l c f. induction l as [|x l IH]; [unfold sum_over; cbn; ring|]. rewrite !so_cons, IH. ring. Qed.
Lemma so_const : forall A (l : list A) c, sum_over l (fun _ => c) = INR (List.length l) * c.
Proof. intros A l c. induction l as [|x l IH]; [unfold sum_over; cbn; ring|]. rewrite so_cons, IH. cbn [List.length]. rewrite S_INR. ring. Qed.
Lemma so_nonneg : forall A (l : list A) f, (forall x, In x l -> 0 <= f x) -> 0 <= sum_over l f.
Proof. intros A l f H. induction l as [|x l IH]; [unfold sum_over; cbn; lra|]. rewrite so_cons. pose proof (H x (or_introl eq_refl)). pose proof (IH (fun y I => H y (or_intror I))). lra. Qed.
Lemma so_single : forall A (l : list A) f x, In x l -> (forall y, In y l -> 0 <= f y) -> f x <= sum_over l f.
Proof.
  intros A l f x I H. induction l as [|y l IH]; [destruct I|]. rewrite so_cons. pose proof (so_nonneg A l f (fun z J => H z (or_intror J))) as N. destruct I as [->|I]; [lra|].
  pose proof (H y (or_introl eq_refl)). pose proof (IH I (fun z J => H z (or_intror J))). lra.
Qed.
Lemma Q2R_sum : forall l, Q2R (Qsum l) = sum_over l Q2R.
Proof. induction l as [|x l IH]; [unfold Q2R, sum_over; cbn; lra|]. rewrite so_cons, <- IH. change (Qsum (x :: l)) with (x + Qsum l)%Q. apply Q2R_plus. Qed.
Lemma Q2R_inject : forall z, Q2R (inject_Z z) = IZR z.
Proof. intro z. unfold Q2R, inject_Z. cbn. field. Qed.
Lemma so_map : forall A B (h : A -> B) l f, sum_over (map h l) f = sum_over l (fun x => f (h x)).
Proof. intros A B h l f. unfold sum_over. rewrite map_map. reflexivity. Qed.

(** ** The statistic as a real number *)
Lemma chisquare_real : forall (c : Z -> nat) ks N, sum_over ks (fun k => INR (c k)) = N -> 0 < N ->
  exists t, chisquare (map inject_Z (map (fun k => Z.of_nat (c k)) ks)) = Fin t /\
    Q2R t = INR (List.length ks) / N * sum_over ks (fun k => (INR (c k) - N / INR (List.length ks)) * (INR (c k) - N / INR (List.length ks))).
Proof.
  intros c ks N EN HN. rewrite map_map. set (obs := map (fun k => inject_Z (Z.of_nat (c k))) ks).
  assert (NE : ks <> []) by (intro X; subst ks; unfold sum_over in EN; cbn in EN; lra).
  assert (LO : List.length obs = List.length ks) by (unfold obs; apply map_length).
  assert (M0 : 0 < INR (List.length ks)) by (apply lt_0_INR; destruct ks; [congruence|cbn; lia]).
  assert (SO : Q2R (Qsum obs) = N) by (rewrite Q2R_sum; unfold obs; rewrite so_map; rewrite <- EN; apply so_ext; intros; rewrite Q2R_inject, INR_IZR_INZ; reflexivity).
  assert (QL : Q2R (Qlen obs) = INR (List.length ks)) by (unfold Qlen; rewrite Q2R_inject, LO, INR_IZR_INZ; reflexivity).
  assert (QL0 : ~ (Qlen obs == 0)%Q) by (intro X; apply Qeq_eqR in X; rewrite QL in X; unfold Q2R in X; cbn in X; lra).
  assert (QE : Q2R (Qmean obs) = N / INR (List.length ks)) by (unfold Qmean; rewrite Q2R_div by exact QL0; rewrite SO, QL; reflexivity).
  assert (E0 : 0 < N / INR (List.length ks)) by (apply Rdiv_lt_0_compat; lra).
  assert (QE0 : ~ (Qmean obs == 0)%Q) by (intro X; apply Qeq_eqR in X; rewrite QE in X; unfold Q2R in X at 1; cbn in X; lra).
  unfold chisquare. destruct obs as [|o os] eqn:EO; [destruct ks; [congruence|discriminate]|]. rewrite <- EO in *. clear EO o os.
  destruct (Qeq_bool (Qmean obs) 0) eqn:EB; [apply Qeq_bool_iff in EB; contradiction|]. eexists. split; [reflexivity|].
  rewrite Q2R_sum, so_map. unfold obs at 1. rewrite so_map, <- so_scale. apply so_ext. intros k _.
  rewrite Q2R_div by exact QE0. rewrite Q2R_mult, !Q2R_minus, Q2R_inject, QE, <- INR_IZR_INZ. field. lra.
Qed.

(** ** The counting loop *)
Lemma dvals_dget : forall d, NoDup (dkeys d) -> dvals d = map (fun k => match dget d k with Some v => v | None => 0%Z end) (dkeys d).
Proof.
  induction d as [|[k v] d IH]; intro ND; [reflexivity|]. unfold dkeys in ND. cbn in ND. apply NoDup_cons_iff in ND. destruct ND as [NI ND].
  cbn. rewrite Z.eqb_refl. f_equal. change (map snd d) with (dvals d). rewrite (IH ND). apply map_ext_in. intros j J. destruct (Z.eqb_spec j k) as [->|]; [contradiction|reflexivity].
Qed.
Definition with_points (m : manager) (pts : list pt) : manager :=
  match m with
  | MRect r => MRect (mkrect pts (rm_mbb r) (rm_cols r) (rm_rows r) (rm_w r) (rm_h r) (rm_num r))
  | MHex h => MHex (mkhex pts (hx_mbb h) (hx_l h) (hx_sh h) (hx_cols h) (hx_even h) (hx_odd h) (hx_num h))
  end.
Lemma with_cells : forall m pts, cells (with_points m pts) = cells m.
Proof. intros [r|h] pts; reflexivity. Qed.
Lemma with_cell_of : forall m pts p, cell_of (with_points m pts) p = cell_of m p.
Proof. intros [r|h] pts p; reflexivity. Qed.
Lemma cells_nodup : forall m, NoDup (cells m).
Proof.
  intros [r|h]; [|apply hex_keys_nodup]. cbn. unfold rect_keys.
  destruct (Z.leb_spec 0 (rm_rows r)) as [R0|R0].
  - destruct (Z.leb_spec 0 (rm_cols r)) as [C0|C0].
    + rewrite grid_keys by assumption. apply zrange_nodup.
    + replace (zrange (rm_cols r)) with (@nil Z) by (unfold zrange; destruct (rm_cols r); try lia; reflexivity).
      assert (E : forall l, flat_map (fun i : Z => map (fun j => (j + i * rm_cols r)%Z) []) l = []) by (induction l as [|x l IH]; [reflexivity|exact IH]). rewrite E. constructor.
  - replace (zrange (rm_rows r)) with (@nil Z) by (unfold zrange; destruct (rm_rows r); try lia; reflexivity). constructor.
Qed.
Lemma sta_counts : forall m pts, (forall p, In p pts -> exists k, cell_of m p = Ok k /\ In k (cells m)) ->
  exists d, manager_sta (with_points m pts) = Ok d /\ dkeys d = cells m /\
    dvals d = map (fun k => Z.of_nat (count (in_cell m k) pts)) (cells m) /\ Zsum (dvals d) = Z.of_nat (List.length pts).
Proof.
  intros m pts H. set (f := fun p => match cell_of m p with Ok k => k | Raise _ => 0%Z end).
  destruct (fold_dincr_ok pt (cell_of m) f pts (map (fun k => (k, 0%Z)) (cells m))) as [d [D1 [D2 [D3 D4]]]].
  { intros p I. destruct (H p I) as [k [E _]]. unfold f. rewrite E. reflexivity. }
  { intros p I. destruct (H p I) as [k [E J]]. unfold f. rewrite E, dkeys_init. exact J. }
  rewrite dkeys_init in D2. exists d. split; [destruct m as [r|h]; exact D1|]. split; [exact D2|]. split.
  - rewrite dvals_dget by (rewrite D2; apply cells_nodup). rewrite D2. apply map_ext_in. intros k K. rewrite D4, dget_init by exact K. cbn [option_map]. rewrite Z.add_0_l. f_equal.
    apply count_ext. intros p I. destruct (H p I) as [k' [E _]]. unfold in_cell, f. rewrite E. reflexivity.
  - rewrite D3, dvals_init. lia.
Qed.

(** ** The data box is that of the fixed points *)
Lemma min_keep : forall l x, (forall y, In y l -> (x <= y)%Q) -> fold_left Qmin l x = x.
Proof.
  induction l as [|y l IH]; intros x H; [reflexivity|]. cbn [fold_left]. replace (Qmin x y) with x; [apply IH; intros; apply H; right; assumption|].
  pose proof (H y (or_introl eq_refl)) as L. unfold Qmin, GenericMinMax.gmin. destruct (Qcompare x y) eqn:C; try reflexivity. apply Qgt_alt in C. exfalso. apply (Qlt_not_le _ _ C L).
Qed.
Lemma max_keep : forall l x, (forall y, In y l -> (y <= x)%Q) -> fold_left Qmax l x = x.
Proof.
  induction l as [|y l IH]; intros x H; [reflexivity|]. cbn [fold_left]. replace (Qmax x y) with x; [apply IH; intros; apply H; right; assumption|].
  pose proof (H y (or_introl eq_refl)) as L. unfold Qmax, GenericMinMax.gmax. destruct (Qcompare x y) eqn:C; try reflexivity. apply Qlt_alt in C. exfalso. apply (Qlt_not_le _ _ C L).
Qed.
Lemma mbb_frame : forall frame b l, compute_mbb frame = Ok b -> (forall p, In p l -> within b p) -> compute_mbb (frame ++ l) = Ok b.
Proof.
  intros [|p frame] b l H W; [discriminate|]. cbn [compute_mbb app] in *. inversion H as [E]. clear H. rewrite E in *. rewrite <- E. unfold Qmin_list, Qmax_list. rewrite !map_app, !fold_left_app.
  f_equal. f_equal; [apply min_keep|apply min_keep|apply max_keep|apply max_keep]; intros y I; apply in_map_iff in I; destruct I as [q [<- J]]; destruct (W q J) as [[A1 A2] [A3 A4]]; rewrite <- E in *; assumption.
Qed.
Lemma manager_frame : forall frame shape nx ny rw rh lh sh m l, make_manager frame shape nx ny rw rh lh sh = Ok m -> (forall p, In p l -> within (extent m) p) ->
  make_manager (frame ++ l) shape nx ny rw rh lh sh = Ok (with_points m (frame ++ l)) /\ compute_mbb frame = Ok (extent m).
Proof.
  intros frame shape nx ny rw rh lh sh m l H W. destruct shape; cbn [make_manager] in H |- *; try discriminate H.
  - unfold rect_init in *. destruct (compute_mbb frame) as [b|] eqn:E; [|discriminate H]. cbn [bind] in H.
    destruct (negb (Qeq_bool rw 0) && negb (Qeq_bool rh 0)); cbn [bind] in H; inversion H; subst m; cbn [extent rm_mbb] in W; rewrite (mbb_frame frame b l E W); split; reflexivity.
  - unfold hex_init in *. destruct (compute_mbb frame) as [b|] eqn:E; [|discriminate H]. cbn [bind] in H. inversion H; subst m. cbn [extent hx_mbb] in W. rewrite (mbb_frame frame b l E W). split; reflexivity.
Qed.
Lemma frame_within : forall frame b, compute_mbb frame = Ok b -> forall p, In p frame -> within b p.
Proof. intros frame b H p I. destruct (compute_mbb_tight _ _ H) as [_ [[Tx _] [Ty _]]]. split; auto. Qed.

(** The statistic of the fixed points [frame] and the points [l]. *)
Lemma framed_chi2 : forall frame shape nx ny rw rh lh sh m l h us, make_manager frame shape nx ny rw rh lh sh = Ok m -> covers m -> (forall p, In p l -> within (extent m) p) ->
  let N := INR (List.length frame + List.length l) in let M := INR (List.length (cells m)) in
  exists q, qstatistic (frame ++ l) shape nx ny rw rh lh sh 0 h us = Val q us /\
    q_cell_ids q = cells m /\ q_df q = (Z.of_nat (List.length (cells m)) - 1)%Z /\
    real_of (q_chi2 q) = M / N * sum_over (cells m) (fun k => (INR (count (in_cell m k) l) + (INR (count (in_cell m k) frame) - N / M)) * (INR (count (in_cell m k) l) + (INR (count (in_cell m k) frame) - N / M))).
Proof.
  intros frame shape nx ny rw rh lh sh m l h us H C W N M. destruct (manager_frame _ _ _ _ _ _ _ _ _ l H W) as [MM MB].
  assert (CO : forall p, In p (frame ++ l) -> exists k, cell_of m p = Ok k /\ In k (cells m)).
  { intros p I. apply C. apply in_app_iff in I. destruct I as [I|I]; [apply (frame_within _ _ MB p I)|apply W; exact I]. }
  destruct (sta_counts m (frame ++ l) CO) as [d [D1 [D2 [D3 D4]]]].
  unfold qstatistic. rewrite MM. cbn [lift rbind]. rewrite D1. cbn [lift rbind]. rewrite Z.ltb_irrefl. eexists. split; [reflexivity|]. cbn [q_cell_ids q_df q_chi2].
  split; [exact D2|]. split; [unfold chi2_df, counts_of; rewrite map_length, D3, map_length; reflexivity|].
  assert (FN : frame <> []) by (intro X; subst frame; discriminate MB).
  assert (N0 : 0 < N) by (apply lt_0_INR; destruct frame; [congruence|cbn; lia]).
  assert (SN : sum_over (cells m) (fun k => INR (count (in_cell m k) (frame ++ l))) = N).
  { unfold N. rewrite <- app_length. rewrite INR_IZR_INZ, <- D4, D3. clear. induction (cells m) as [|k ks IH]; [reflexivity|]. rewrite so_cons, IH. cbn [map]. change (Zsum (?a :: ?r)) with (a + Zsum r)%Z. rewrite plus_IZR, <- INR_IZR_INZ. reflexivity. }
  unfold counts_of. rewrite D3. destruct (chisquare_real (fun k => count (in_cell m k) (frame ++ l)) (cells m) N SN N0) as [t [T1 T2]]. rewrite T1. cbn [real_of]. rewrite T2. f_equal.
  apply so_ext. intros k _. unfold count. rewrite filter_app, app_length, plus_INR. fold M. ring.
Qed.

(** ** Moments of the number of points in a region *)
Section Moments.
Variables (G : list Q) (w : Q -> R) (ok : pt -> bool) (mk : Q -> Q -> pt) (B : pt -> bool).
Notation kept := (Joint_spec.kept G w mk ok).
Notation all n := (kept_all G w ok (repeat mk n)).
Hypothesis A : kept always <> 0.
Notation p := (share G w mk ok (indicator B)).
Notation cnt l := (INR (count B l)).
Lemma cnt_cons : forall x l, cnt (x :: l) = indicator B x + cnt l.
Proof using. intros x l. unfold count, indicator. cbn [filter]. destruct (B x); [cbn [List.length]; rewrite S_INR; ring|ring]. Qed.
Lemma share_eq : kept (indicator B) = p * kept always.
Proof using A. unfold share. field. exact A. Qed.
Lemma moment1 : forall n, all n (fun l => cnt l) = INR n * p * kept always ^ n.
Proof using A.
  induction n as [|n IH]; [cbn; ring|]. cbn [repeat Null_spec.kept_all].
  rewrite (kept_ext G w ok mk _ (fun x => (kept always ^ n) * indicator B x + (INR n * p * kept always ^ n) * always x)).
  - rewrite kept_lin, share_eq, S_INR. cbn [pow]. ring.
  - intros x _. rewrite (all_ext G w ok _ _ (fun l => indicator B x * 1 + 1 * cnt l)) by (intros l _; rewrite cnt_cons; ring). rewrite all_lin, all_power, IH. change (always x) with 1. ring.
Qed.
Lemma moment2 : forall n, all n (fun l => cnt l * cnt l) = (INR n * p + INR n * (INR n - 1) * (p * p)) * kept always ^ n.
Proof using A.
  induction n as [|n IH]; [cbn; ring|]. cbn [repeat Null_spec.kept_all].
  rewrite (kept_ext G w ok mk _ (fun x => (kept always ^ n + 2 * (INR n * p * kept always ^ n)) * indicator B x + ((INR n * p + INR n * (INR n - 1) * (p * p)) * kept always ^ n) * always x)).
  - rewrite kept_lin, share_eq, S_INR. cbn [pow]. ring.
  - intros x _. rewrite (all_ext G w ok _ _ (fun l => indicator B x * (1 * 1 + 2 * cnt l) + 1 * (cnt l * cnt l))).
    + rewrite all_lin, IH. rewrite (all_lin G w ok _ 1 2 (fun _ => 1) (fun l => cnt l)), all_power, moment1. change (always x) with 1. ring.
    + intros l _. rewrite cnt_cons. unfold indicator. destruct (B x); ring.
Qed.
Lemma moment_shift : forall n c, all n (fun l => (cnt l + c) * (cnt l + c)) = (INR n * p * (1 - p) + (INR n * p + c) * (INR n * p + c)) * kept always ^ n.
Proof using A.
  intros n c. rewrite (all_ext G w ok _ _ (fun l => 1 * (cnt l * cnt l) + 1 * (2 * c * cnt l + c * c * 1))) by (intros; ring).
  rewrite all_lin, moment2, (all_lin G w ok _ (2 * c) (c * c) (fun l => cnt l) (fun _ => 1)), moment1, all_power. ring.
Qed.
Lemma share_range : is_law G w -> 0 <= p <= 1.
Proof using A.
  intro LW. destruct (kept_range G w LW mk ok) as [K0 _]. assert (K : 0 < kept always) by lra.
  assert (L0 : 0 <= kept (indicator B)).
  { replace 0 with (kept (fun _ => 0)); [apply kept_le; [exact LW|]; intros; unfold indicator; destruct (B p); lra|].
    rewrite (kept_ext G w ok mk (fun _ => 0) (fun x => 0 * always x)) by (intros; unfold always; ring). rewrite kept_scale. ring. }
  assert (L1 : kept (indicator B) <= kept always) by (apply kept_le; [exact LW|]; intros; unfold indicator, always; destruct (B p); lra).
  unfold share. split; [apply Rmult_le_pos; [exact L0|left; apply Rinv_0_lt_compat, K]|]. apply Rmult_le_reg_r with (kept always); [exact K|]. unfold Rdiv. rewrite Rmult_assoc, Rinv_l by exact A. lra.
Qed.
End Moments.
Lemma all_sum : forall G w ok mks K (ks : list K) F, kept_all G w ok mks (fun l => sum_over ks (fun k => F k l)) = sum_over ks (fun k => kept_all G w ok mks (F k)).
Proof.
  intros G w ok mks K ks F. induction ks as [|k ks IH].
  - unfold sum_over at 2. cbn. rewrite (all_ext G w ok mks _ (fun _ => 0 * 1)) by (intros; unfold sum_over; cbn; ring). rewrite all_scale. ring.
  - rewrite so_cons, <- IH. rewrite (all_ext G w ok mks _ (fun l => 1 * F k l + 1 * sum_over ks (fun k => F k l))) by (intros; rewrite so_cons; ring). rewrite all_lin. ring.
Qed.
Lemma above : forall x, exists n, x < INR n.
Proof.
  intro x. exists (Z.to_nat (up x)). destruct (archimed x) as [U _]. destruct (Z.leb_spec 0 (up x)) as [P|P].
  - rewrite INR_IZR_INZ, Z2Nat.id by exact P. lra.
  - apply IZR_lt in P. pose proof (pos_INR (Z.to_nat (up x))). lra.
Qed.
Lemma staged_fits : forall ok mks us l rest, staged ok us mks = Val l rest -> fits ok mks l.
Proof.
  intros ok mks us l rest H. split; [exact (staged_length _ _ _ _ _ H)|]. revert us l rest H.
  induction mks as [|g mks IH]; intros us l rest H p I; [rewrite staged_nil in H; inversion H; subst; destruct I|].
  revert l rest H p I. induction us as [us HI] using (well_founded_induction (well_founded_ltof _ (@List.length Q))). intros l rest H p I.
  destruct us as [|u [|v us]]; cbn [staged] in H; try discriminate H. destruct (ok (g u v)) eqn:O.
  - destruct (staged ok us mks) as [l' r'| |] eqn:E; try discriminate H. inversion H; subst. destruct I as [<-|I]; [exact O|]. apply (IH us l' rest E p I).
  - apply (HI us) with (l := l) (rest := rest); auto. unfold ltof. cbn. lia.
Qed.
