(** ** C144: the modified Knox statistic and the expected Knox table on binary64 *)
From Coq Require Import Reals ZArith QArith Qreals List Bool Lia Lra Psatz.
From Flocq Require Import Core BinarySingleNaN.
From Verif Require Import Base Float_model Float_proofs F64_model F64_proofs F64_props K64_proofs Area64_model Area64_spec Area64_proofs Area64_props Quadrat_model Spacetime_model Chi64_model Chi64_props
  MKnox64_model MKnox64_proofs.
Import ListNotations.
Local Open Scope R_scope.

(** However the entries are added, the statistic is within 2^-51 n^2 of the exact one. *)
Theorem C144_value : forall sm tm n x, (2 <= n)%nat -> (Z.of_nat n <= 2 ^ 16)%Z -> MKnox64 sm tm n x ->
  exists v, mk_stat sm tm n = Fin v /\ fin x /\ Rabs (V x - Q2R v) <= bpow radix2 (-51) * (INR n * INR n).
Proof.
  intros sm tm n x N N16 (t & A & ->). destruct (mk_stat_real sm tm n N) as (v & E & R). exists v. split; [exact E|]. rewrite R.
  replace (bpow radix2 (-51)) with (4 * u) by (unfold u; change 4 with (bpow radix2 2); rewrite <- bpow_plus; reflexivity). apply mk64_error; assumption.
Qed.
Print Assumptions C144_value.
(** Different statistics of the same number of events are told apart. *)
Lemma mk64_lt : forall sm tm sm' tm' n x y, (2 <= n)%nat -> (Z.of_nat n <= 2 ^ 16)%Z -> MKnox64 sm tm n x -> MKnox64 sm' tm' n y -> mkR sm tm n < mkR sm' tm' n -> V x < V y.
Proof.
  intros sm tm sm' tm' n x y N N16 (t & A & ->) (t' & A' & ->) H. destruct (mk64_error sm tm n t N N16 A) as [_ E]. destruct (mk64_error sm' tm' n t' N N16 A') as [_ E'].
  pose proof (mk_gap _ _ _ _ n N H) as G. apply Rabs_le_inv in E. apply Rabs_le_inv in E'.
  assert (M : 2 <= INR n) by (apply le_INR in N; cbn in N; lra). assert (NR : INR n <= bpow radix2 16) by (rewrite INR_IZR_INZ, <- IZR_pow2 by lia; apply IZR_le; exact N16).
  assert (S1 : 8 * u * (INR n * INR n) < / (2 * (INR n - 1))); [|lra].
  apply Rmult_lt_reg_r with (2 * (INR n - 1)); [lra|]. rewrite Rinv_l by lra. pose proof u_ge.
  assert (C : INR n * INR n * (2 * (INR n - 1)) <= 2 * (bpow radix2 16 * bpow radix2 16 * bpow radix2 16)).
  { replace (2 * (bpow radix2 16 * bpow radix2 16 * bpow radix2 16)) with (bpow radix2 16 * bpow radix2 16 * (2 * bpow radix2 16)) by ring. assert (0 <= INR n * INR n <= bpow radix2 16 * bpow radix2 16) by (split; [nra|apply Rmult_le_compat; lra]). apply Rmult_le_compat; lra. }
  rewrite <- !bpow_plus in C. apply Rle_lt_trans with (8 * u * (2 * bpow radix2 48)).
  - replace (8 * u * (INR n * INR n) * (2 * (INR n - 1))) with (8 * u * (INR n * INR n * (2 * (INR n - 1)))) by ring. apply Rmult_le_compat_l; [lra|exact C].
  - replace (8 * u * (2 * bpow radix2 48)) with (16 * (u * bpow radix2 48)) by ring. unfold u. rewrite <- bpow_plus. cbn. lra.
Qed.
Theorem C144_order : forall sm tm sm' tm' n x y v w, (2 <= n)%nat -> (Z.of_nat n <= 2 ^ 16)%Z -> MKnox64 sm tm n x -> MKnox64 sm' tm' n y ->
  mk_stat sm tm n = Fin v -> mk_stat sm' tm' n = Fin w -> (v < w)%Q -> V x < V y.
Proof.
  intros sm tm sm' tm' n x y v w N N16 X Y E E' H. apply (mk64_lt sm tm sm' tm' n x y N N16 X Y).
  destruct (mk_stat_real sm tm n N) as (v' & E1 & <-). destruct (mk_stat_real sm' tm' n N) as (w' & E2 & <-). rewrite E in E1. rewrite E' in E2. injection E1 as <-. injection E2 as <-. apply Qlt_Rlt. exact H.
Qed.
Print Assumptions C144_order.
(** The permutations counted as at least as extreme as the data include all with a larger
    statistic and none with a smaller one; with n - 1 a power of two, they are those with
    a statistic at least as large. *)
Definition perm_stats (sm tm : list (list bool)) (n : nat) (perms : list (list nat)) : list xq :=
  map (fun ids => mk_stat sm (shuffle_matrix false tm ids) n) perms.
Definition Perms64 (sm tm : list (list bool)) (n : nat) (perms : list (list nat)) (ys : list f64) : Prop :=
  Forall2 (fun ids y => MKnox64 sm (shuffle_matrix false tm ids) n y) perms ys.
Lemma fin_geb : forall v w, xgeb (Fin v) (Fin w) = true <-> Q2R w <= Q2R v.
Proof. intros v w. cbn [xgeb]. rewrite Qle_bool_iff. split; intro H; [apply Qle_Rle; exact H|apply Rle_Qle; exact H]. Qed.
Theorem C144_pvalue : forall sm tm n x perms ys, (2 <= n)%nat -> (Z.of_nat n <= 2 ^ 16)%Z -> MKnox64 sm tm n x -> Perms64 sm tm n perms ys ->
  (count (fun s => negb (xgeb (mk_stat sm tm n) s)) (perm_stats sm tm n perms) <= as_extreme64 x ys <= count (fun s => xgeb s (mk_stat sm tm n)) (perm_stats sm tm n perms))%nat /\
  (forall k, (0 <= k)%Z -> (Z.of_nat n - 1 = 2 ^ k)%Z -> as_extreme64 x ys = count (fun s => xgeb s (mk_stat sm tm n)) (perm_stats sm tm n perms)).
Proof.
  intros sm tm n x perms ys N N16 X F. destruct (mk_stat_real sm tm n N) as (v & EV & RV). unfold as_extreme64, count, perm_stats. rewrite EV.
  destruct (C144_value sm tm n x N N16 X) as (_ & _ & FX & _). unfold Perms64 in F.
  induction F as [|ids y perms ys Y F IH]; [cbn; split; [lia|reflexivity]|]. cbn [map filter].
  set (tm' := shuffle_matrix false tm ids) in *. destruct (mk_stat_real sm tm' n N) as (w & EW & RW). rewrite EW. destruct (C144_value sm tm' n y N N16 Y) as (_ & _ & FY & _).
  assert (UP : Q2R v < Q2R w -> fge y x = true). { intro H. rewrite RV, RW in H. apply fge_ok; auto. apply Rlt_le, (mk64_lt sm tm sm tm' n); assumption. }
  assert (DN : fge y x = true -> Q2R v <= Q2R w). { intro H. apply fge_ok in H; auto. apply Rnot_lt_le. intro H'. rewrite RV, RW in H'. apply (mk64_lt sm tm' sm tm n y x) in H'; auto. lra. }
  destruct IH as [[I1 I2] I3]. split.
  - destruct (xgeb (Fin v) (Fin w)) eqn:G1; destruct (xgeb (Fin w) (Fin v)) eqn:G2; destruct (fge y x) eqn:G3; cbn [negb length]; try lia; exfalso.
    + specialize (DN eq_refl). apply fin_geb in DN. rewrite DN in G2. discriminate.
    + assert (H : Q2R v < Q2R w). { apply Rnot_le_lt. intro H. apply fin_geb in H. rewrite H in G1. discriminate. } specialize (UP H). discriminate.
    + specialize (DN eq_refl). apply fin_geb in DN. rewrite DN in G2. discriminate.
    + assert (H : Q2R v < Q2R w). { apply Rnot_le_lt. intro H. apply fin_geb in H. rewrite H in G1. discriminate. } specialize (UP H). discriminate.
  - intros k K0 NK. specialize (I3 k K0 NK). destruct X as (t & A & ->). destruct Y as (t' & A' & ->).
    assert (G : fge (mk64 (tsum t') (expstat sm tm' n) n) (mk64 (tsum t) (expstat sm tm n) n) = xgeb (Fin w) (Fin v)).
    { apply eq_true_iff_eq. rewrite fge_ok by assumption. rewrite fin_geb, RV, RW, (mk64_exact sm tm n t k) by assumption. rewrite (mk64_exact sm tm' n t' k) by assumption. tauto. }
    rewrite G. destruct (xgeb (Fin w) (Fin v)); cbn [length]; rewrite I3; reflexivity.
Qed.
Print Assumptions C144_pvalue.

(** ** Ties *)
(** Seven events in places 0, 10, 20 (three), 30 (two) and at times 20, 0, 10 (four), 0;
    exchanging times gives the same statistic 7/6, computed as a smaller number. *)
Definition places : list vec := map (fun x => [inject_Z x]) [0; 10; 20; 20; 20; 30; 30]%Z.
Definition times : list vec := map (fun x => [inject_Z x]) [20; 0; 10; 10; 10; 10; 0]%Z.
Definition swapped : list nat := [2; 3; 1; 6; 0; 4; 5]%nat.
Theorem C144_ties_refuted : forall k, (1 <= k)%nat -> let sm := close_matrix places 1 in let tm := close_matrix times 1 in
  (exists p, snd (modified_knox places times 1 1 (repeat swapped k)) = Some p /\ (p == 1)%Q) /\
  (forall x ys, MKnox64 sm tm 7 x -> Perms64 sm tm 7 (repeat swapped k) ys -> as_extreme64 x ys = 0%nat) /\
  exists x ys, MKnox64 sm tm 7 x /\ Perms64 sm tm 7 (repeat swapped k) ys.
Proof.
  intros k K sm tm. split.
  - unfold modified_knox. destruct (repeat swapped k) eqn:E; [destruct k; [lia|discriminate]|]. rewrite <- E. eexists. split; [reflexivity|].
    unfold masked_pvalue. rewrite map_length, repeat_length.
    assert (C : count (fun s => xgeb s (mk_stat sm tm (List.length times))) (map (fun ids => mk_stat sm (shuffle_matrix false tm ids) (List.length times)) (repeat swapped k)) = k).
    { assert (G : xgeb (mk_stat sm (shuffle_matrix false tm swapped) (List.length times)) (mk_stat sm tm (List.length times)) = true) by (vm_compute; reflexivity).
      clear -G. unfold count. induction k as [|k IH]; [reflexivity|]. cbn [repeat map filter]. rewrite G. cbn [List.length]. rewrite IH. reflexivity. }
    fold sm tm. rewrite C. unfold perm_pvalue, Qnat. field. intro H. unfold Qeq in H. cbn in H. lia.
  - set (tm' := shuffle_matrix false tm swapped). split.
    + intros x ys (t & A & ->) F.
      assert (T1 : tsum t = fint (Z.of_nat (ones sm tm 7))) by (apply (tsum_ones sm tm 7); [lia| |exact A]; apply Nat.leb_le; vm_compute; reflexivity). rewrite T1.
      unfold Perms64 in F. fold tm' in F. clear K A T1. revert ys F. induction k as [|k IH]; intros ys F; inversion F as [|? y ? ys' (t' & A' & ->) F']; subst; [reflexivity|].
      fold tm' in A' |- *. assert (T2 : tsum t' = fint (Z.of_nat (ones sm tm' 7))) by (apply (tsum_ones sm tm' 7); [lia| |exact A']; apply Nat.leb_le; vm_compute; reflexivity). rewrite T2.
      unfold as_extreme64 in *. cbn [filter].
      assert (G : fge (mk64 (fint (Z.of_nat (ones sm tm' 7))) (expstat sm tm' 7) 7) (mk64 (fint (Z.of_nat (ones sm tm 7))) (expstat sm tm 7) 7) = false) by (vm_compute; reflexivity).
      rewrite G. apply IH. exact F'.
    + exists (mk64 (tsum (in_order (knoxmat64 sm tm 7))) (expstat sm tm 7) 7), (repeat (mk64 (tsum (in_order (knoxmat64 sm tm' 7))) (expstat sm tm' 7) 7) k). split.
      * exists (in_order (knoxmat64 sm tm 7)). split; [apply in_order_adds|reflexivity].
      * clear K. unfold Perms64. induction k as [|k IH]; cbn [repeat]; constructor; [|exact IH]. exists (in_order (knoxmat64 sm tm' 7)). split; [apply in_order_adds|reflexivity].
Qed.
Print Assumptions C144_ties_refuted.

(** ** The expected table *)
(** s and t pairs close in space and in time among p = n (n - 1) / 2: every cell is within
    2^-48 p of the exact one, zero where that is zero and positive elsewhere. *)
Definition near (x : f64) (e p : R) : Prop := fin x /\ Rabs (V x - e) <= bpow radix2 (-48) * p /\ (e = 0 -> V x = 0) /\ (0 < e -> 0 < V x).
Theorem C144_table : forall s t p n e, (Z.of_nat n * (Z.of_nat n - 1) = 2 * p)%Z -> (1 <= p <= 2 ^ 23)%Z -> (0 <= s <= p)%Z -> (0 <= t <= p)%Z ->
  Expected64 (2 * s) (2 * t) n e -> let '(e00, e01, e10, e11) := e in let ns := IZR s in let nt := IZR t in let P := IZR p in
  near e00 (ns * nt / P) P /\ near e01 (ns * (P - nt) / P) P /\ near e10 ((P - ns) * nt / P) P /\ near e11 ((P - ns) * (P - nt) / P) P.
Proof.
  intros s t p n e NP P1 S1 T1 (tr & A & L & ->). unfold e00_64 in *. rewrite NP in *.
  assert (PR : 1 <= IZR p <= bpow radix2 23) by (rewrite <- IZR_pow2 by lia; split; apply IZR_le; lia).
  assert (SR : 0 <= IZR s <= IZR p) by (split; apply IZR_le; lia). assert (TR : 0 <= IZR t <= IZR p) by (split; apply IZR_le; lia).
  destruct (table_e00 s t p P1 S1 T1) as [F0 V0]. destruct (table_edge s t p P1 S1 T1 s (or_introl eq_refl)) as (F1 & V1 & B1). destruct (table_edge s t p P1 S1 T1 t (or_intror eq_refl)) as (F2 & V2 & B2).
  destruct (table_last s t p P1 S1 T1 tr A L) as (F3 & B3 & Z3).
  set (e := fdiv (fmul (half64 (2 * s)) (half64 (2 * t))) (half64 (2 * p))) in *.
  assert (U : bpow radix2 (-48) = 32 * u) by (unfold u; change 32 with (bpow radix2 5); rewrite <- bpow_plus; reflexivity).
  assert (IP : IZR p * / IZR p = 1) by (apply Rinv_r; lra). assert (I0 : 0 < / IZR p) by (apply Rinv_0_lt_compat; lra).
  pose proof u_ge as U0. assert (U2 : 32 * u * IZR p * IZR p < 1).
  { apply Rle_lt_trans with (32 * u * (bpow radix2 23 * bpow radix2 23)); [replace (32 * u * IZR p * IZR p) with (32 * u * (IZR p * IZR p)) by ring; apply Rmult_le_compat_l; [lra|]; apply Rmult_le_compat; lra|].
    rewrite <- U, <- !bpow_plus. cbn. lra. }
  assert (W : forall x (j k : Z) v, fin x -> v = IZR j * IZR k / IZR p -> (0 <= j)%Z -> (0 <= k)%Z -> Rabs (V x - v) <= 32 * u * IZR p -> (j = 0%Z \/ k = 0%Z -> V x = 0) -> near x v (IZR p)).
  { intros x j k v F E J K B Z0. split; [exact F|]. rewrite U. split; [exact B|]. split.
    - intro V00. apply Z0. rewrite E in V00. unfold Rdiv in V00. apply Rmult_integral in V00. destruct V00 as [V00|V00]; [|lra]. apply Rmult_integral in V00. destruct V00 as [Q|Q]; apply eq_IZR in Q; auto.
    - intro VP. assert (JK : (1 <= j * k)%Z). { assert (HJ : j <> 0%Z) by (intro Q; rewrite Q, Rmult_0_l in E; unfold Rdiv in E; lra). assert (HK : k <> 0%Z) by (intro Q; rewrite Q, Rmult_0_r in E; unfold Rdiv in E; lra). nia. }
      apply IZR_le in JK. rewrite mult_IZR in JK. assert (/ IZR p <= v) by (rewrite E; unfold Rdiv; nra). apply Rabs_le_inv in B. assert (32 * u * IZR p < / IZR p); [|lra].
      apply Rmult_lt_reg_r with (IZR p); [lra|]. rewrite Rinv_l by lra. exact U2. }
  assert (EE : E00 s t p = IZR s * IZR t / IZR p) by reflexivity. assert (p0 : IZR p <> 0) by lra.
  split; [|split; [|split]].
  - apply (W e s t); auto; try lia; fold (E00 s t p).
    + rewrite V0. pose proof (rnd_error (E00 s t p)) as R0. assert (Q : 0 <= E00 s t p <= IZR p).
      { unfold E00, Rdiv. split; [repeat apply Rmult_le_pos; lra|]. apply Rle_trans with (IZR p * IZR p * / IZR p); [apply Rmult_le_compat_r; [lra|]; apply Rmult_le_compat; lra|]. rewrite Rmult_assoc, IP. lra. }
      rewrite (Rabs_pos_eq (E00 s t p)) in R0 by lra. assert (tiny <= u) by (unfold tiny, u; apply bpow_le; lia). nra.
    + intros [Q|Q]; rewrite V0; unfold E00; rewrite Q; unfold Rdiv; rewrite ?Rmult_0_l, ?Rmult_0_r, ?Rmult_0_l; apply rnd_0.
  - apply (W _ s (p - t)%Z); auto; try lia; [rewrite minus_IZR; reflexivity| |].
    + replace (IZR s * (IZR p - IZR t) / IZR p) with (IZR s - E00 s t p) by (rewrite EE; field; exact p0). nra.
    + intros Q. rewrite V1. assert (EI : E00 s t p = IZR s). { destruct Q as [Q|Q]; [rewrite EE, Q; unfold Rdiv; ring|]. assert (Q' : t = p) by lia. rewrite EE, Q'. field. exact p0. }
      rewrite EI, (rnd_id (IZR s)), Rminus_eq_0 by (apply float_int; lia). apply rnd_0.
  - apply (W _ (p - s)%Z t); auto; try lia; [rewrite minus_IZR; reflexivity| |].
    + replace ((IZR p - IZR s) * IZR t / IZR p) with (IZR t - E00 s t p) by (rewrite EE; field; exact p0). nra.
    + intros Q. rewrite V2. assert (EI : E00 s t p = IZR t). { destruct Q as [Q|Q]; [assert (Q' : s = p) by lia; rewrite EE, Q'; field; exact p0|]. rewrite EE, Q. unfold Rdiv. ring. }
      rewrite EI, (rnd_id (IZR t)), Rminus_eq_0 by (apply float_int; lia). apply rnd_0.
  - apply (W _ (p - s)%Z (p - t)%Z); auto; try lia; [rewrite !minus_IZR; reflexivity| |].
    + replace ((IZR p - IZR s) * (IZR p - IZR t) / IZR p) with (IZR p - IZR s - IZR t + E00 s t p) by (rewrite EE; field; exact p0). exact B3.
    + intros Q. apply Z3. lia.
Qed.
Print Assumptions C144_table.

(** Six events of which two pairs are close in space and three in time: 2/5 are expected
    to be close in both, 13/5 in time only.  The two statistics of the tie are neighbours. *)
Example C144_case : B2SF (e00_64 4 6 6) = B2SF (fdiv (fint 2) (fint 5)) /\
  B2SF (fsub (half64 6) (e00_64 4 6 6)) = B2SF (fdiv (fint 13) (fint 5)) /\
  map (fun tm => B2SF (mk64 (tsum (in_order (knoxmat64 (close_matrix places 1) tm 7))) (expstat (close_matrix places 1) tm 7) 7))
    [close_matrix times 1; shuffle_matrix false (close_matrix times 1) swapped] = map B2SF [fdyadic 5254199565265579 (-52); fdyadic 5254199565265578 (-52)].
Proof. repeat split; vm_compute; reflexivity. Qed.
