(** Theorems on the counts of simulated patterns: property C148. *)
From Coq Require Import Reals ZArith QArith List Bool Arith Lia Lra.
From Verif Require Import Base BaseLemmas Quadrat_model Geometry_model Pattern_model Random_model Random_spec Process_model Process_proofs Joint_spec Joint_proofs Joint_props Blocks_spec Blocks_proofs Blocks_props Csr_spec Csr_proofs.
Import ListNotations.
Local Open Scope R_scope.

Section Law.
Variables (G : list Q) (w : Q -> R).
Notation mean := (mean G w).
Hypothesis LW : is_law G w.
(** The probability that a point of the window is in region [j]. *)
Definition chance (contains : pt -> bool) (b : box) (lab : pt -> nat) (j : nat) : R := share G w (box_candidate b) contains (in_region lab j).

Lemma mean_add : forall L F H, mean L (fun us => F us + H us) = mean L F + mean L H.
Proof using.
  induction L as [|L IH]; intros F H; [reflexivity|]. cbn [Joint_spec.mean]. rewrite (mean1_ext G w _ (fun u => 1 * mean L (fun us => F (u :: us)) + 1 * mean L (fun us => H (u :: us)))).
  - rewrite mean1_lin. ring.
  - intro u. rewrite (IH (fun us => F (u :: us)) (fun us => H (u :: us))). ring.
Qed.
Lemma mean_total : forall B L (F : B -> list Q -> R) l, mean L (fun us => total_of (fun c => F c us) l) = total_of (fun c => mean L (F c)) l.
Proof using LW.
  intros B L F l. induction l as [|c l IH].
  - unfold total_of. cbn. apply mean_const. exact LW.
  - change (total_of (fun c => mean L (F c)) (c :: l)) with (mean L (F c) + total_of (fun c => mean L (F c)) l). rewrite <- IH. apply (mean_add L (F c)).
Qed.
Lemma of_run_total : forall X B (r : run X) (F : B -> X -> R) l, of_run r (fun x => total_of (fun c => F c x) l) = total_of (fun c => of_run r (F c)) l.
Proof using. intros X B [x us|e|] F l; cbn [of_run]; try reflexivity; symmetry; apply total_of_zero; reflexivity. Qed.
Lemma chance_total_of : forall contains b, kept G w (box_candidate b) contains always <> 0 -> forall lab m, (forall p, lab p < m)%nat -> total_of (chance contains b lab) (seq 0 m) = 1.
Proof using.
  intros contains b A lab m B. unfold chance, share. rewrite (total_of_ext _ _ (fun j => / kept G w (box_candidate b) contains always * kept G w (box_candidate b) contains (in_region lab j))) by (intros; unfold Rdiv; ring).
  rewrite total_of_scale. enough (E : total_of (fun j => kept G w (box_candidate b) contains (in_region lab j)) (seq 0 m) = kept G w (box_candidate b) contains always) by (rewrite E; field; exact A).
  assert (T1 : forall (F : nat -> Q -> R) l, total_of (fun j => mean1 G w (F j)) l = mean1 G w (fun u => total_of (fun j => F j u) l)).
  { intros F l. induction l as [|j l IH].
    - unfold total_of, mean1. cbn. clear. induction G as [|g l IH]; [reflexivity|]. cbn. rewrite <- IH. ring.
    - change (total_of (fun j => mean1 G w (F j)) (j :: l)) with (mean1 G w (F j) + total_of (fun j => mean1 G w (F j)) l). rewrite IH.
      rewrite (mean1_ext G w (fun u => total_of (fun j => F j u) (j :: l)) (fun u => 1 * F j u + 1 * total_of (fun j => F j u) l)) by (intro u; unfold total_of; cbn; ring).
      rewrite mean1_lin. ring. }
  unfold kept. rewrite T1. apply mean1_ext. intro u. rewrite T1. apply mean1_ext. intro v. unfold in_region, indicator, always. destruct (contains (box_candidate b u v)).
  - rewrite (total_of_single _ _ (lab (box_candidate b u v))); [rewrite Nat.eqb_refl; reflexivity|apply seq_NoDup|apply in_seq; pose proof (B (box_candidate b u v)); lia|].
    intros j _ NE. destruct (Nat.eqb_spec (lab (box_candidate b u v)) j); [congruence|reflexivity].
  - apply total_of_zero. reflexivity.
Qed.
Variables (contains : pt -> bool) (b : box).
Hypothesis A : kept G w (box_candidate b) contains always <> 0.
Notation ch := (chance contains b).
Definition chance_total := chance_total_of contains b A.
Lemma realized_lengths : forall params us ls rest, realizations contains (realize_poisson b) params us = Val ls rest -> map (@List.length _) ls = params.
Proof using.
  intros params us ls rest H. apply realizations_sound in H. clear - H. induction H as [|n l params ls [H _] F IH]; [reflexivity|]. cbn. rewrite H, IH. reflexivity.
Qed.
Lemma run_counts : forall lab m kss L, (forall p, lab p < m)%nat -> Forall (fun ks => List.length ks = m) kss ->
  mean L (fun us => of_run (realizations contains (realize_poisson b) (map total kss) us) (all_counts lab kss)) =
  prod (map (multinomial (ch lab)) kss) * mean L (fun us => of_run (realizations contains (realize_poisson b) (map total kss) us) always).
Proof using LW A.
  intros lab m kss L B F.
  rewrite (mean_ext G w L _ (fun us => total_of (fun c => of_run (realizations contains (realize_poisson b) (map total kss) us) (prod_all (map (map (in_region lab)) c))) (combos kss))).
  - rewrite mean_total. rewrite (total_of_ext _ _ (fun c => mean L (fun us => of_run (realizations contains (realize_poisson b) (map total kss) us) always) * prod (map (fun s => prod (map (ch lab) s)) c))).
    + rewrite total_of_scale, combos_weight. ring.
    + intros c I. rewrite (C136_process G w LW contains b (map total kss) A (map (map (in_region lab)) c) L).
      * rewrite map_map. rewrite (map_ext (fun x => prod (map (share G w (box_candidate b) contains) (map (in_region lab) x))) (fun s => prod (map (ch lab) s))) by (intro s; rewrite map_map; reflexivity). ring.
      * rewrite map_map. rewrite <- (combos_lengths kss c I). apply map_ext. intro s. apply map_length.
  - intro us. rewrite <- of_run_total. destruct (realizations contains (realize_poisson b) (map total kss) us) as [ls r| |] eqn:E; cbn [of_run]; try reflexivity.
    apply (expand_all lab m kss ls B F). apply (realized_lengths _ _ _ _ E).
Qed.

(** ** C148 *)
(** Without conditioning the counts in the regions of any partition are multinomial,
    independently for the realizations. *)
Theorem C148_fixed : forall lab m lambdas n samples kss L, (forall p, lab p < m)%nat -> Forall (fun ks => List.length ks = m) kss ->
  List.length kss = samples -> Forall (fun ks => total ks = n) kss ->
  mean L (fun us => of_run (poisson_process b contains false lambdas n samples us) (all_counts lab kss)) =
  prod (map (multinomial (ch lab)) kss) * mean L (fun us => of_run (poisson_process b contains false lambdas n samples us) always).
Proof using LW A.
  intros lab m lambdas n samples kss L B F E T. unfold poisson_process, poisson_params.
  assert (X : repeat n samples = map total kss) by (subst samples; clear - T; induction T as [|ks kss H T IH]; [reflexivity|]; cbn; rewrite H, IH; reflexivity).
  rewrite X. apply (run_counts lab m); assumption.
Qed.

(** With conditioning, when the sizes are independent Poisson numbers with mean [n]: a run
    with other sizes cannot have the counts [kss], and the sizes together with the draws
    give independent Poisson numbers, with mean [n] times the share of the region. *)
Theorem C148_poisson : forall lab m n samples kss L, (forall p, lab p < m)%nat -> Forall (fun ks => List.length ks = m) kss ->
  (forall lambdas us, List.length lambdas = List.length kss -> lambdas <> map total kss ->
     of_run (poisson_process b contains true lambdas n samples us) (all_counts lab kss) = 0) /\
  prod (map (pmf (INR n)) (map total kss)) * mean L (fun us => of_run (poisson_process b contains true (map total kss) n samples us) (all_counts lab kss)) =
  prod (map (over_regions (fun j k => pmf (INR n * ch lab j) k)) kss) * mean L (fun us => of_run (poisson_process b contains true (map total kss) n samples us) always).
Proof using LW A.
  intros lab m n samples kss L B F. unfold poisson_process, poisson_params. split.
  - intros lambdas us E N. destruct (realizations contains (realize_poisson b) lambdas us) as [ls r| |] eqn:X; cbn [of_run]; try reflexivity.
    pose proof (realized_lengths _ _ _ _ X) as RL. apply (all_counts_other lab m); auto; [rewrite <- (map_length (@List.length pt) ls), RL; exact E|rewrite RL; exact N].
  - rewrite (run_counts lab m kss L B F), <- Rmult_assoc. f_equal. pose proof (chance_total lab m B) as CT. clear L. induction F as [|ks kss H F IH]; [unfold prod; cbn; ring|].
    cbn [map]. change (prod (?x :: ?l)) with (x * prod l). rewrite <- IH, <- (poisson_split (INR n) (ch lab) ks) by (rewrite H; exact CT). ring.
Qed.

(** One realization: with enough random numbers the probability of the counts [ks]
    comes as close as wanted to the product of the Poisson probabilities. *)
Theorem C148_limit : forall lab m n ks, (forall p, lab p < m)%nat -> List.length ks = m ->
  forall eps, 0 < eps -> exists L0, forall L, (L0 <= L)%nat ->
  Rabs (pmf (INR n) (total ks) * mean L (fun us => of_run (poisson_process b contains true [total ks] n 1 us) (all_counts lab [ks])) -
        over_regions (fun j k => pmf (INR n * ch lab j) k) ks) <= eps * over_regions (fun j k => pmf (INR n * ch lab j) k) ks.
Proof using LW A.
  intros lab m n ks B E eps HE. destruct (C136_ends G w LW) as [_ H]. destruct (H contains b (total ks)) as [_ HL].
  destruct (kept_range G w LW (box_candidate b) contains) as [K0 _]. destruct (HL ltac:(lra) eps HE) as [L0 HH]. exists L0. intros L LL. specialize (HH L LL).
  destruct (C148_poisson lab m n 1 [ks] L B) as [_ X]; [constructor; [exact E|constructor]|]. unfold prod in X. cbn [map fold_right] in X. rewrite !Rmult_1_r in X. rewrite X.
  assert (Y : mean L (fun us => of_run (poisson_process b contains true [total ks] n 1 us) always) = mean L (fun us => of_run (draw contains (realize_poisson b) (total ks) us) always)).
  { apply mean_ext. intro us. unfold poisson_process, poisson_params. cbn [realizations]. destruct (draw contains (realize_poisson b) (total ks) us); reflexivity. }
  rewrite Y. set (M := mean L _) in *. set (P := over_regions _ ks).
  assert (P0 : 0 <= P).
  { assert (C0 : forall j, 0 <= ch lab j).
    { intro j. unfold chance, share. apply Rmult_le_pos; [|left; apply Rinv_0_lt_compat; lra]. unfold kept.
      assert (Z0 : forall F, (forall u, 0 <= F u) -> 0 <= mean1 G w F) by (intros F Q0; replace 0 with (mean1 G w (fun _ => 0)); [apply mean1_le; assumption|unfold mean1; clear; induction G as [|g l IH]; [reflexivity|]; cbn; rewrite IH; ring]).
      apply Z0. intro u. apply Z0. intro v. unfold in_region, indicator. destruct (contains _); [|lra]. destruct (Nat.eqb _ _); lra. }
    unfold P, over_regions, prod. generalize (seq 0 (List.length ks)). intro l. induction l as [|j l IH]; cbn; [lra|]. apply Rmult_le_pos; [|exact IH]. unfold pmf, Rdiv.
    apply Rmult_le_pos; [|left; apply Rinv_0_lt_compat, INR_fact_lt_0]. apply Rmult_le_pos; [left; apply exp_pos|]. apply pow_le. apply Rmult_le_pos; [apply pos_INR|apply C0]. }
  replace (P * M - P) with (- (P * (1 - M))) by ring. rewrite Rabs_Ropp, Rabs_pos_eq by (apply Rmult_le_pos; lra). rewrite (Rmult_comm eps). apply Rmult_le_compat_l; lra.
Qed.
(** The function poisson, with one replication, in contrast: also when it is given an
    intensity, the number of points is [n = int(intensity * area)] and the counts are
    multinomial. An empty region next to an empty region has probability 0 (if n > 0)
    and not exp(-n) as for the Poisson process of this intensity. *)
Theorem C148_function_refuted : forall (h : hull) i sz n it lab m ks L, parse_size_and_intensity h i sz = Ok (n, 1%Z, it) -> (0 <= n)%Z ->
  kept G w (box_candidate (h_bbox h)) (h_contains h) always <> 0 -> (forall p, lab p < m)%nat -> List.length ks = m ->
  let q := fun j => share G w (box_candidate (h_bbox h)) (h_contains h) (in_region lab j) in
  mean (2 * L) (fun us => of_run (poisson h i sz us) (fun a => has_counts lab ks (arr_points a))) =
    (if Nat.eqb (total ks) (Z.to_nat n) then multinomial q ks else 0) * mean (2 * L) (fun us => of_run (poisson h i sz us) always) /\
  ((0 < n)%Z -> total ks = O -> mean (2 * L) (fun us => of_run (poisson h i sz us) (fun a => has_counts lab ks (arr_points a))) = 0 /\
     over_regions (fun j k => pmf (INR (Z.to_nat n) * q j) k) ks = exp (- INR (Z.to_nat n))).
Proof using LW.
  intros h i sz n it lab m ks L P Hn K B E q.
  assert (MAIN : mean (2 * L) (fun us => of_run (poisson h i sz us) (fun a => has_counts lab ks (arr_points a))) =
    (if Nat.eqb (total ks) (Z.to_nat n) then multinomial q ks else 0) * mean (2 * L) (fun us => of_run (poisson h i sz us) always)).
  { pose proof (chance_poisson G w h i sz n 1 it P Hn ltac:(lia) L) as CP. rewrite (CP (has_counts lab ks)).
    replace (Z.to_nat 1 * Z.to_nat n)%nat with (Z.to_nat n) in CP by lia. replace (Z.to_nat 1 * Z.to_nat n)%nat with (Z.to_nat n) by lia. set (N := Z.to_nat n) in *.
    destruct (Nat.eqb_spec (total ks) N) as [T|T].
    - rewrite (mean_ext G w (2 * L) _ (fun us => total_of (fun c => of_run (staged (h_contains h) us (repeat (box_candidate (h_bbox h)) N)) (prod_at (map (in_region lab) c))) (seqs (total ks) ks))).
      + rewrite mean_total. rewrite (total_of_ext _ _ (fun c => mean (2 * L) (fun us => of_run (poisson h i sz us) always) * prod (map q c))).
        * rewrite total_of_scale, weight_multinomial. ring.
        * intros c I. rewrite <- (CP (prod_at (map (in_region lab) c))). pose proof (seqs_length _ _ _ I) as LC. rewrite T in LC.
          pose proof (C135_poisson G w h i sz n 1 it LW P Hn ltac:(lia) (map (in_region lab) c) L) as X. replace (Z.to_nat 1 * Z.to_nat n)%nat with N in X by (unfold N; lia).
          specialize (X ltac:(rewrite map_length; exact LC)). apply Rmult_eq_reg_r with (kept G w (box_candidate (h_bbox h)) (h_contains h) always ^ N); [|apply pow_nonzero; exact K]. rewrite X.
          assert (Y : prod (map (kept G w (box_candidate (h_bbox h)) (h_contains h)) (map (in_region lab) c)) = prod (map q c) * kept G w (box_candidate (h_bbox h)) (h_contains h) always ^ N); [|rewrite Y; ring].
          rewrite <- LC. clear - K. unfold prod. induction c as [|j c IH]; [cbn; ring|]. cbn [map fold_right List.length pow]. rewrite IH. unfold q at 2, share. field. exact K.
      + intro us. rewrite <- of_run_total. destruct (staged _ us _) as [l r| |] eqn:S1; cbn [of_run]; try reflexivity. apply staged_length in S1. rewrite repeat_length in S1.
        apply expand; [rewrite T; exact S1|rewrite E; exact B].
    - rewrite Rmult_0_l. rewrite <- (mean_const G w LW (2 * L) 0) at 1. apply mean_ext. intro us. destruct (staged _ us _) as [l r| |] eqn:S1; cbn [of_run]; try reflexivity. apply staged_length in S1. rewrite repeat_length in S1.
      apply has_counts_total; [rewrite E; exact B|rewrite S1; exact T]. }
  split; [exact MAIN|]. intros N0 T. split.
  - rewrite MAIN, T. destruct (Nat.eqb_spec 0 (Z.to_nat n)); [lia|ring].
  - assert (CT : total_of q (seq 0 (List.length ks)) = 1) by (rewrite E; apply (chance_total_of (h_contains h) (h_bbox h) K lab m B)).
    rewrite <- (poisson_split (INR (Z.to_nat n)) q ks CT), T. unfold pmf, multinomial, over_regions. rewrite T. rewrite (map_ext _ (fun _ => 1)) by (intro j; rewrite (total_zero ks T); cbn; field).
    unfold prod. assert (O1 : forall l : list nat, fold_right Rmult 1 (map (fun _ => 1) l) = 1) by (induction l as [|x l IH]; [reflexivity|]; cbn; rewrite IH; ring). rewrite O1. cbn [pow fact INR]. field.
Qed.
End Law.
Print Assumptions C148_fixed.
Print Assumptions C148_poisson.
Print Assumptions C148_limit.
Print Assumptions C148_function_refuted.

(** ** A concrete case *)
(** Numbers 1/4 and 3/4 with equal probability, the unit square, left and right half:
    the halves have chance 1/2; with n = 2, one point left and none right in the first
    realization and no point left and two right in the second have probability
    e^-4 / 2 times the probability that the run ends. *)
Definition g2 : list Q := [(1 # 4)%Q; (3 # 4)%Q].
Definition w2 (_ : Q) : R := 1 / 2.
Definition half_plane (p : pt) : nat := if Qle_bool (fst p) (1 # 2) then O else 1%nat.
Definition unit_box : box := mkbox 0 0 1 1.
Example C148_case : is_law g2 w2 /\ (forall p, half_plane p < 2)%nat /\ kept g2 w2 (box_candidate unit_box) (fun _ => true) always <> 0 /\
  chance g2 w2 (fun _ => true) unit_box half_plane 0 = 1 / 2 /\
  prod (map (over_regions (fun j k => pmf (INR 2 * chance g2 w2 (fun _ => true) unit_box half_plane j) k)) [[1; 0]; [0; 2]]%nat) = exp (- 4) / 2.
Proof.
  assert (K : kept g2 w2 (box_candidate unit_box) (fun _ => true) always = 1) by (unfold kept, mean1, g2, w2, always; cbn; lra).
  assert (C0 : chance g2 w2 (fun _ => true) unit_box half_plane 0 = 1 / 2) by (unfold chance, share; rewrite K; unfold kept, mean1, g2, w2; cbn; lra).
  assert (C1 : chance g2 w2 (fun _ => true) unit_box half_plane 1 = 1 / 2) by (unfold chance, share; rewrite K; unfold kept, mean1, g2, w2; cbn; lra).
  split; [split; [intros; unfold w2; lra|unfold mean1, g2, w2; cbn; lra]|]. split; [intro p; unfold half_plane; destruct (Qle_bool _ _); lia|].
  split; [rewrite K; lra|]. split; [exact C0|]. unfold prod, over_regions. cbn [map fold_right List.length seq nth]. rewrite C0, C1. unfold pmf, prod. cbn [map fold_right fact INR pow Nat.mul Nat.add].
  replace (exp (- 4)) with (exp (- (1)) * exp (- (1)) * exp (- (1)) * exp (- (1))) by (rewrite <- !exp_plus; f_equal; lra).
  replace ((1 + 1) * (1 / 2)) with 1 by lra. field.
Qed.
