(** Property C143: Ripley's L on binary64 and the tests with K and L. *)
From Coq Require Import Reals ZArith List Bool Lia Lra Psatz.
From Flocq Require Import Core BinarySingleNaN.
From Verif Require Import Float_model Float_proofs F64_model F64_proofs F64_props K64_model K64_spec K64_proofs K64_props Chi64_model Chi64_props Pvalue64_model L64_model L64_spec L64_proofs.
Import ListNotations.
Local Open Scope R_scope.

Lemma K_range : forall l w h d, ordinary l w h -> let K := K_of (List.length l) (closer64 l d) w h in
  fin (k64 l d) /\ rel 6 (V (k64 l d)) K /\ (K = 0 \/ bpow radix2 (-1006) <= K <= bpow radix2 955) /\
  0 <= V (k64 l d) /\ (V (k64 l d) = 0 \/ bpow radix2 (-1010) <= V (k64 l d)).
Proof.
  intros l w h d O K. destruct (k_rel l w h d O) as (F & RR & B). fold (K_of (List.length l) (closer64 l d) w h) in RR, B. fold K in RR, B.
  pose proof (bpow_gt_0 radix2 (-1006)). assert (P : 0 <= K) by (destruct B; lra). pose proof (rel_nonneg _ _ _ P RR) as k0.
  split; [exact F|]. split; [exact RR|]. split; [exact B|]. split; [exact k0|]. destruct B as [B|B].
  - left. destruct RR as [_ B2]. rewrite B in B2. pose proof (q_pos 6). nra.
  - right. pose proof (rel_size 6 (V (k64 l d)) K ltac:(lia) P RR). apply Rle_trans with (bpow radix2 (-1006) * bpow radix2 (-1)); [rewrite <- bpow_plus; apply bpow_le; lia|].
    change (bpow radix2 (-1)) with (/ 2). lra.
Qed.
(** L is the root of K over pi up to a relative error of 2^-50. *)
Theorem C143_value : forall l w h d, ordinary l w h -> let L := L_of (List.length l) (closer64 l d) w h in
  fin (l64 l d) /\ 0 <= V (l64 l d) <= bpow radix2 479 /\ Rabs (V (l64 l d) - L) <= bpow radix2 (-50) * L.
Proof.
  intros l w h d O L. destruct (K_range l w h d O) as (F & RR & B & k0 & _). set (K := K_of (List.length l) (closer64 l d) w h) in *.
  assert (B' : K = 0 \/ bpow radix2 (-1010) <= K). { destruct B as [B|B]; [left; exact B|right]. apply Rle_trans with (bpow radix2 (-1006)); [apply bpow_le; lia|apply B]. }
  destruct (root_rel (k64 l d) K 6 F B' ltac:(lia) RR 4 ltac:(lia)) as [LF LR]. split; [exact LF|]. change (sqrt (K / PI)) with L in LR.
  assert (L0 : 0 <= L) by apply sqrt_pos. split; [|apply (rel_value 5); [lia|exact L0|exact LR]].
  split; [apply root_nonneg; assumption|]. pose proof (rel_size 5 (V (root64 (k64 l d))) L ltac:(lia) L0 LR) as [_ U]. change (V (l64 l d) <= 2 * L) in U.
  assert (LU : L <= bpow radix2 478); [|change 479%Z with (478 + 1)%Z; rewrite bpow_plus; change (bpow radix2 1) with 2; lra].
  unfold L, L_of. fold K. rewrite <- (sqrt_square (bpow radix2 478)) by apply bpow_ge_0. apply sqrt_le_1_alt. rewrite <- bpow_plus.
  assert (PP : 1 < PI) by (pose proof pi_close; lra). assert (K0 : 0 <= K <= bpow radix2 955). { pose proof (bpow_gt_0 radix2 (-1006)). pose proof (bpow_gt_0 radix2 955). destruct B; lra. }
  assert (I : 0 < / PI <= 1). { split; [apply Rinv_0_lt_compat; lra|]. rewrite <- Rinv_1. apply Rinv_le; lra. }
  apply Rle_trans with (bpow radix2 955); [unfold Rdiv; nra|apply bpow_le; lia].
Qed.
Print Assumptions C143_value.
(** The linearized estimate is L - d up to 2^-49 (L + d); near the line, where d is at
    least half and at most twice L, the subtraction adds no error. *)
Theorem C143_linear : forall l w h d, ordinary l w h -> fin d -> 0 <= V d <= bpow radix2 1000 ->
  let L := L_of (List.length l) (closer64 l d) w h in
  fin (linear64 l d) /\ Rabs (V (linear64 l d) - (L - V d)) <= bpow radix2 (-49) * (L + V d) /\
  (V d / 2 <= V (l64 l d) <= 2 * V d -> V (linear64 l d) = V (l64 l d) - V d).
Proof.
  intros l w h d O Fd Bd L. destruct (C143_value l w h d O) as (F & B & E). fold L in E. assert (L0 : 0 <= L) by apply sqrt_pos.
  assert (S1 : bpow radix2 479 <= bpow radix2 1000) by (apply bpow_le; lia). assert (S2 : bpow radix2 1000 <= bpow radix2 1023) by (apply bpow_le; lia).
  destruct (fsub_ok (l64 l d) d F Fd) as [LF LV]; [apply Rabs_le; lra|]. split; [exact LF|]. split.
  - unfold linear64. rewrite LV. set (x := V (l64 l d)) in *. set (y := V d) in *. pose proof (rnd_minus_error x y (V_float _) (V_float _)) as M.
    assert (U16 : bpow radix2 (-49) = 16 * u) by (unfold u; change 16 with (bpow radix2 4); rewrite <- bpow_plus; reflexivity).
    assert (U8 : bpow radix2 (-50) = 8 * u) by (unfold u; change 8 with (bpow radix2 3); rewrite <- bpow_plus; reflexivity). rewrite U16. rewrite U8 in E.
    pose proof u_ge. pose proof u_le. assert (X : x <= 2 * L) by (apply Rabs_le_inv in E; nra).
    assert (A : Rabs (x - y) <= x + y) by (apply Rabs_le; lra).
    replace (rnd (x - y) - (L - y)) with ((rnd (x - y) - (x - y)) + (x - L)) by ring. eapply Rle_trans; [apply Rabs_triang|]. nra.
  - intro H. apply minus_exact; auto; lra.
Qed.
Print Assumptions C143_linear.

(** ** The tests *)
(** A pattern with the larger K has no smaller L, linearized or not. *)
Theorem C143_order : forall l w h l' w' h' d, ordinary l w h -> ordinary l' w' h' -> V (k64 l d) <= V (k64 l' d) ->
  V (l64 l d) <= V (l64 l' d) /\ (fin d -> 0 <= V d <= bpow radix2 1000 -> V (linear64 l d) <= V (linear64 l' d)).
Proof.
  intros l w h l' w' h' d O O' LE. destruct (K_range l w h d O) as (F & _ & _ & k0 & _). destruct (K_range l' w' h' d O') as (F' & _).
  assert (LL : V (l64 l d) <= V (l64 l' d)) by (apply root_le; assumption). split; [exact LL|]. intros Fd Bd.
  destruct (C143_value l w h d O) as (FL & B & _). destruct (C143_value l' w' h' d O') as (FL' & B' & _).
  assert (S1 : bpow radix2 479 <= bpow radix2 1000) by (apply bpow_le; lia). assert (S2 : bpow radix2 1000 <= bpow radix2 1023) by (apply bpow_le; lia).
  apply minus_le; auto; apply Rabs_le; lra.
Qed.
Print Assumptions C143_order.
Definition usual (l : list fpt) : Prop := exists w h, ordinary l w h.
Lemma reached_le : forall (f g : list fpt -> f64 -> f64) obs sims d,
  (forall s, In s sims -> fge (f s d) (f obs d) = true -> fge (g s d) (g obs d) = true) -> (reached64 f obs sims d <= reached64 g obs sims d)%nat.
Proof.
  intros f g obs sims d H. unfold reached64, as_extreme64. induction sims as [|s t IH]; [cbn; lia|]. cbn [map filter].
  specialize (IH (fun s' I => H s' (or_intror I))). pose proof (H s (or_introl eq_refl)) as Hs.
  destruct (fge (f s d) (f obs d)); [rewrite Hs by reflexivity; cbn [length]; lia|]. destruct (fge (g s d) (g obs d)); cbn [length]; lia.
Qed.
(** Every simulation counted by a test with K is counted by the one with L. *)
Theorem C143_counts : forall obs sims d, usual obs -> Forall usual sims ->
  (reached64 k64 obs sims d <= reached64 l64 obs sims d)%nat /\
  (fin d -> 0 <= V d <= bpow radix2 1000 -> (reached64 l64 obs sims d <= reached64 linear64 obs sims d)%nat).
Proof.
  intros obs sims d (w & h & O) US. rewrite Forall_forall in US. split.
  - apply reached_le. intros s I G. destruct (US s I) as (w' & h' & O').
    destruct (K_range obs w h d O) as (F & _). destruct (K_range s w' h' d O') as (F' & _). apply fge_ok in G; auto.
    destruct (C143_value obs w h d O) as (FL & _). destruct (C143_value s w' h' d O') as (FL' & _). apply fge_ok; auto. eapply C143_order; eauto.
  - intros Fd Bd. apply reached_le. intros s I G. destruct (US s I) as (w' & h' & O').
    destruct (C143_value obs w h d O) as (FL & B & _). destruct (C143_value s w' h' d O') as (FL' & B' & _). apply fge_ok in G; auto.
    destruct (C143_linear obs w h d O Fd Bd) as (FN & _). destruct (C143_linear s w' h' d O' Fd Bd) as (FN' & _). apply fge_ok; auto.
    assert (S1 : bpow radix2 479 <= bpow radix2 1000) by (apply bpow_le; lia). assert (S2 : bpow radix2 1000 <= bpow radix2 1023) by (apply bpow_le; lia).
    apply minus_le; auto; apply Rabs_le; lra.
Qed.
Print Assumptions C143_counts.
(** They count the same simulations unless a smaller K is within 2^-49 of that of the
    data. *)
Theorem C143_agree : forall obs sims d, usual obs -> Forall usual sims ->
  (forall s, In s sims -> V (k64 obs d) <= V (k64 s d) \/ V (k64 s d) * (1 + bpow radix2 (-49)) <= V (k64 obs d)) ->
  reached64 k64 obs sims d = reached64 l64 obs sims d.
Proof.
  intros obs sims d UO US H. apply Nat.le_antisymm; [apply C143_counts; assumption|]. destruct UO as (w & h & O). rewrite Forall_forall in US.
  apply reached_le. intros s I G. destruct (US s I) as (w' & h' & O').
  destruct (K_range obs w h d O) as (F & _ & _ & k0 & B). destruct (K_range s w' h' d O') as (F' & _ & _ & k0' & B').
  destruct (C143_value obs w h d O) as (FL & _). destruct (C143_value s w' h' d O') as (FL' & _). apply fge_ok in G; auto. apply fge_ok; auto.
  destruct (H s I) as [LE|GAP]; [exact LE|]. destruct B as [Z0|B]; [lra|]. exfalso. pose proof (root_lt (k64 s d) (k64 obs d) F' F B' B GAP). unfold l64 in G. lra.
Qed.
Print Assumptions C143_agree.

(** ** Near ties *)
(** Two points one apart in x, at the ends of a box of height m 2^-52. *)
Definition two (m : Z) : list fpt := [(fint 0, fint 0); (fint 1, fdyadic m (-52))].
Lemma two_ok : forall m, (2 ^ 52 <= m < 2 ^ 53)%Z -> usual (two m) /\ V (fdyadic m (-52)) = IZR m * bpow radix2 (-52).
Proof.
  intros m M. assert (B : 1 <= IZR m * bpow radix2 (-52) <= 2).
  { assert (E : bpow radix2 (-52) = / 4503599627370496) by reflexivity. rewrite E. destruct M as [M1 M2]. apply IZR_le in M1. apply IZR_lt in M2.
    change (2 ^ 52)%Z with 4503599627370496%Z in M1. change (2 ^ 53)%Z with 9007199254740992%Z in M2. lra. }
  assert (P500 : 2 <= bpow radix2 500) by (change 2 with (bpow radix2 1); apply bpow_le; lia).
  destruct (fdyadic_ok m (-52)) as [F E]. { rewrite Rabs_pos_eq by lra. apply Rle_trans with (bpow radix2 1); [change (bpow radix2 1) with 2; lra|apply bpow_le; lia]. }
  rewrite rnd_id in E.
  2: { apply generic_format_FLT. exists (Float radix2 m (-52)); [reflexivity|cbn [Fnum]; change (Z.pow radix2 53) with (2 ^ 53)%Z; lia|cbn; lia]. }
  destruct (fint_ok 1) as [F1 E1]; [lia|]. destruct (fint_ok 0) as [F0 E0]; [lia|]. split; [|exact E].
  exists 1, (IZR m * bpow radix2 (-52)). split; [discriminate|]. split.
  { constructor; [|constructor; [|constructor]]; (split; cbn [fst snd]; (split; [assumption|])); rewrite ?E, ?E0, ?E1, ?Rabs_R0, ?Rabs_R1; try lra. rewrite Rabs_pos_eq; lra. }
  split; [cbn; lia|]. split; [|split].
  - exists (fint 0, fint 0), (fint 1, fdyadic m (-52)). cbn [fst snd two In]. rewrite E0, E1. split; [left; reflexivity|]. split; [right; left; reflexivity|]. split; [lra|]. intros q [<-|[<-|[]]]; cbn [fst]; rewrite ?E0, ?E1; lra.
  - exists (fint 0, fint 0), (fint 1, fdyadic m (-52)). cbn [fst snd two In]. rewrite E0, E. split; [left; reflexivity|]. split; [right; left; reflexivity|]. split; [lra|]. intros q [<-|[<-|[]]]; cbn [snd]; rewrite ?E0, ?E; lra.
  - rewrite Rmult_1_l. split; [apply Rle_trans with 1; [change 1 with (bpow radix2 0); apply bpow_le; lia|lra]|apply Rle_trans with 2; [lra|change 2 with (bpow radix2 1); apply bpow_le; lia]].
Qed.
(** Boxes of heights 5/4 and the next float: K tells them apart, L does not; with any
    number n of simulations a test with K counts none and one with L all of them. *)
Theorem C143_ties_refuted : exists obs sim d, usual obs /\ usual sim /\ fin d /\ V (k64 sim d) < V (k64 obs d) /\ forall n,
  reached64 k64 obs (repeat sim n) d = 0%nat /\ reached64 l64 obs (repeat sim n) d = n.
Proof.
  exists (two 5629499534213121), (two 5629499534213120), (fint 2). destruct (two_ok 5629499534213121) as [U1 _]; [lia|]. destruct (two_ok 5629499534213120) as [U2 _]; [lia|].
  destruct (fint_ok 2) as [F2 E2]; [lia|]. split; [exact U1|]. split; [exact U2|]. split; [exact F2|].
  assert (G1 : fge (k64 (two 5629499534213120) (fint 2)) (k64 (two 5629499534213121) (fint 2)) = false) by (vm_compute; reflexivity).
  assert (G2 : fge (l64 (two 5629499534213120) (fint 2)) (l64 (two 5629499534213121) (fint 2)) = true) by (vm_compute; reflexivity). split.
  - destruct U1 as (w & h & O). destruct U2 as (w' & h' & O'). destruct (K_range _ w h (fint 2) O) as (F & _). destruct (K_range _ w' h' (fint 2) O') as (F' & _).
    apply Rnot_le_lt. intro H. apply fge_ok in H; auto. rewrite H in G1. discriminate.
  - unfold reached64, as_extreme64. induction n as [|n [I1 I2]]; [split; reflexivity|]. cbn [repeat map filter]. rewrite G1, G2. split; [exact I1|]. cbn [length]. rewrite I2. reflexivity.
Qed.
Print Assumptions C143_ties_refuted.
(** Then the p-value of the one is 1 / (n + 1), or its complement, and that of the other
    is 0. *)
Theorem C143_pvalues_refuted : exists obs sim d, usual obs /\ usual sim /\ fin d /\ forall n, (1 <= Z.of_nat n < 2 ^ 53)%Z ->
  let p stat := ripley64 (Z.of_nat (reached64 stat obs (repeat sim n) d)) (Z.of_nat n) in
  p k64 = Rmin (rnd (1 / (INR n + 1))) (rnd (1 - rnd (1 / (INR n + 1)))) /\ 0 < p k64 /\ p l64 = 0.
Proof.
  destruct C143_ties_refuted as (obs & sim & d & O & S1 & F & _ & H). exists obs, sim, d. split; [exact O|]. split; [exact S1|]. split; [exact F|].
  intros n N p. unfold p. destruct (H n) as [-> ->]. unfold ripley64, folded64, pseudo64.
  assert (N1 : rnd (IZR (Z.of_nat n) + 1) = IZR (Z.of_nat n) + 1) by (rewrite <- plus_IZR; apply rnd_id, float_int; lia).
  assert (N0 : rnd (IZR (Z.of_nat 0) + 1) = 1) by (change (Z.of_nat 0) with 0%Z; rewrite Rplus_0_l; apply rnd_id, (float_int 1); lia).
  rewrite N1, N0, INR_IZR_INZ. assert (B1 : 1 <= IZR (Z.of_nat n)) by (apply IZR_le; lia).
  assert (B2 : IZR (Z.of_nat n) + 1 <= bpow radix2 53) by (rewrite <- IZR_pow2, <- plus_IZR by lia; apply IZR_le; lia).
  assert (bf : forall k, (-1022 <= k <= 0)%Z -> rnd (bpow radix2 k) = bpow radix2 k) by (intros k Hk; apply rnd_id, generic_format_bpow; unfold fexp64, FLT_exp; lia).
  split; [reflexivity|]. set (x := IZR (Z.of_nat n)) in *.
  assert (I1 : bpow radix2 (-53) <= 1 / (x + 1)) by (unfold Rdiv; rewrite Rmult_1_l; change (-53)%Z with (- (53))%Z; rewrite bpow_opp; apply Rinv_le; lra).
  assert (I2 : 1 / (x + 1) <= bpow radix2 (-1)) by (change (bpow radix2 (-1)) with (/ 2); unfold Rdiv; rewrite Rmult_1_l; apply Rinv_le; lra).
  apply rnd_le in I1. apply rnd_le in I2. rewrite bf in I1 by lia. rewrite bf in I2 by lia. split.
  - apply Rmin_glb_lt; [pose proof (bpow_gt_0 radix2 (-53)); lra|].
    assert (I3 : bpow radix2 (-1) <= 1 - rnd (1 / (x + 1))) by (change (bpow radix2 (-1)) with (/ 2) in *; lra). apply rnd_le in I3. rewrite bf in I3 by lia. pose proof (bpow_gt_0 radix2 (-1)). lra.
  - replace ((x + 1) / (x + 1)) with 1 by (field; lra). change 1 with (bpow radix2 0) at 1 3. rewrite bf by lia. change (bpow radix2 0) with 1. rewrite Rminus_eq_0, rnd_0. apply Rmin_right. lra.
Qed.
Print Assumptions C143_pvalues_refuted.
(** At a distance of 2^60 the linearized estimates of two boxes of heights 1 and 7/4 are
    the same, so that each reaches the other; those of L are not. *)
Theorem C143_far_refuted : exists obs sim d, usual obs /\ usual sim /\ fin d /\ forall n,
  reached64 l64 obs (repeat sim n) d = 0%nat /\ reached64 linear64 obs (repeat sim n) d = n /\ reached64 linear64 sim (repeat obs n) d = n.
Proof.
  exists (two (7 * 2 ^ 50)), (two (2 ^ 52)), (fdyadic 1 60). destruct (two_ok (7 * 2 ^ 50)) as [U1 _]; [lia|]. destruct (two_ok (2 ^ 52)) as [U2 _]; [lia|].
  split; [exact U1|]. split; [exact U2|]. split; [vm_compute; reflexivity|]. set (a := two (7 * 2 ^ 50)). set (b := two (2 ^ 52)).
  assert (G1 : fge (l64 b (fdyadic 1 60)) (l64 a (fdyadic 1 60)) = false) by (vm_compute; reflexivity).
  assert (G2 : fge (linear64 b (fdyadic 1 60)) (linear64 a (fdyadic 1 60)) = true) by (vm_compute; reflexivity).
  assert (G3 : fge (linear64 a (fdyadic 1 60)) (linear64 b (fdyadic 1 60)) = true) by (vm_compute; reflexivity). clearbody a b.
  unfold reached64, as_extreme64. induction n as [|n (I1 & I2 & I3)]; [repeat split|]. cbn [repeat map filter]. rewrite G1, G2, G3. split; [exact I1|]. cbn [length]. rewrite I2, I3. auto.
Qed.
Print Assumptions C143_far_refuted.

(** The four corners of a square of side 2: L is 0 below the side and sqrt (3 / pi), or
    4400940181076557 2^-52 on binary64, at the distance 3; linearized, -2277464675258733 2^-50. *)
Example C143_case : B2SF (l64 square64 (fint 2)) = B2SF (fint 0) /\
  B2SF (l64 square64 (fint 3)) = B2SF (fdyadic 4400940181076557 (-52)) /\ B2SF (linear64 square64 (fint 3)) = B2SF (fdyadic (-2277464675258733) (-50)) /\
  reached64 l64 square64 [square64; two (2 ^ 52); square64] (fint 3) = 2%nat.
Proof. repeat split; vm_compute; reflexivity. Qed.
