(** ** C142: the chi-square statistic and its Monte Carlo p-value on binary64 *)
From Coq Require Import Reals ZArith List Bool Lia Lra Psatz Permutation Arith.
From Flocq Require Import Core BinarySingleNaN.
From Verif Require Import Base Spec Float_model Float_proofs F64_model F64_proofs F64_props Hex64_proofs K64_model K64_spec K64_proofs Area64_model Area64_spec Area64_proofs Area64_props Wmc64_proofs
  Pvalue64_model Chi64_model Chi64_spec Chi64_proofs.
Import ListNotations.
Local Open Scope R_scope.

(** However the numbers are added, the statistic is finite and close to the exact one. *)
Theorem C142_value : forall c x, counted c -> (points c <= 2 ^ 50)%Z -> (Z.of_nat (length c) <= 2 ^ 49)%Z -> Chi64 c x ->
  fin x /\ Rabs (V x - chi2 c) <= 3 * (INR (length c) + 3) * bpow radix2 (-53) * chi2 c + 13 * bpow radix2 (-106) * IZR (points c).
Proof.
  intros c x C N M (ts & t & A1 & A2 & _ & A4 & ->). destruct (chi_error c ts C N M A1 t A2 A4) as [F E]. split; [exact F|].
  replace (bpow radix2 (-106)) with (u ^ 2) by (unfold u; cbn [pow]; rewrite Rmult_1_r, <- bpow_plus; reflexivity). exact E.
Qed.
Print Assumptions C142_value.

(** Patterns with the same numbers of cells and points are ordered by their statistics,
    up to about 10^6 points in 900 cells. *)
Definition small_enough (c : list Z) : Prop := ((Z.of_nat (length c) + 3) * (points c * points c) <= 2 ^ 50)%Z.
Theorem C142_order : forall a b x y, counted a -> counted b -> length a = length b -> points a = points b -> small_enough a -> Chi64 a x -> Chi64 b y ->
  chi2 a < chi2 b -> V x < V y.
Proof.
  intros a b x y A B L P S X Y H. pose proof (chi2_gap a b A B L P H) as G. pose proof (counted_length a A) as ML. unfold small_enough in S.
  assert (N1 : (1 <= points a)%Z) by apply A. set (n := points a) in *. set (m := Z.of_nat (length a)) in *. assert (M1 : (1 <= m)%Z) by lia.
  assert (NN : (n <= n * n)%Z) by nia. assert (NB : (n <= 2 ^ 50)%Z) by (assert (1 * (n * n) <= (m + 3) * (n * n))%Z by (apply Z.mul_le_mono_nonneg_r; lia); lia).
  assert (MB' : (m <= 2 ^ 49)%Z \/ n = 1%Z). { destruct (Z.eq_dec n 1) as [E1|E1]; [right; exact E1|left]. assert (4 <= n * n)%Z by nia. assert ((m + 3) * 4 <= (m + 3) * (n * n))%Z by (apply Z.mul_le_mono_nonneg_l; lia). lia. }
  assert (M49 : (m <= 2 ^ 49)%Z \/ False).
  { destruct MB' as [Q|Q]; [left; exact Q|]. exfalso.
    (* one point: both statistics are the same *)
    assert (ONE : forall c, counted c -> points c = 1%Z -> squares c = 1%Z).
    { clear. intros c [F N] E. destruct (squares_le c F) as (S1 & _). rewrite E in S1. assert (squares c <> 0)%Z; [|lia]. intro Z0.
      assert (Z1 : points c = 0%Z); [|lia]. clear - F Z0. induction F as [|k c K F IH]; [reflexivity|]. cbn in *. fold (squares c) in Z0. fold (points c).
      destruct (squares_le c F) as (S1 & _). assert (k = 0)%Z by nia. rewrite IH by nia. lia. }
    assert (QB : points b = 1%Z) by (rewrite <- P; exact Q). rewrite !chi2_is in H by assumption. rewrite (ONE a A Q), (ONE b B QB), <- L, QB in H. unfold n in Q. rewrite Q in H. exact (Rlt_irrefl _ H). }
  destruct M49 as [M49|[]].
  destruct (C142_value a x A NB M49 X) as [_ EX]. destruct (C142_value b y B ltac:(rewrite <- P; exact NB) ltac:(rewrite <- L; exact M49) Y) as [_ EY]. rewrite <- L, <- P in EY. fold n in EX, EY, G.
  destruct (chi2_range a A) as [XA0 XA1]. destruct (chi2_range b B) as [XB0 XB1]. rewrite <- L, <- P in XB1. fold n in XA1, XB1.
  set (M := INR (length a)) in *. assert (MR : M = IZR m) by (unfold M, m; apply INR_IZR_INZ). set (N := IZR n) in *.
  assert (SR : (M + 3) * (N * N) <= bpow radix2 50). { rewrite MR. unfold N. rewrite <- IZR_pow2 by lia. rewrite <- mult_IZR, <- plus_IZR, <- mult_IZR. apply IZR_le. exact S. }
  assert (N1' : 1 <= N) by (unfold N; apply IZR_le; exact N1). assert (M1' : 1 <= M) by (rewrite MR; apply IZR_le; exact M1).
  fold u in EX, EY. assert (U50 : u * bpow radix2 50 = / 8) by (unfold u; rewrite <- bpow_plus; cbn; lra). pose proof u_ge as U0.
  set (v := bpow radix2 (-106)) in *. assert (V0 : 0 < v) by apply bpow_gt_0. assert (V50 : v * bpow radix2 50 <= / 1000). { unfold v. rewrite <- bpow_plus. apply Rle_trans with (bpow radix2 (-10)); [apply bpow_le; lia|]. cbn; lra. }
  assert (GN : M <= (chi2 b - chi2 a) * N). { apply Rmult_le_reg_r with (/ N); [apply Rinv_0_lt_compat; lra|]. rewrite Rmult_assoc, Rinv_r, Rmult_1_r by lra. exact G. }
  apply Rabs_le_inv in EX, EY.
  assert (E1 : 3 * (M + 3) * u * chi2 a <= 3 * (M + 3) * u * (M * N)) by (apply Rmult_le_compat_l; [repeat apply Rmult_le_pos; lra|lra]).
  assert (E2 : 3 * (M + 3) * u * chi2 b <= 3 * (M + 3) * u * (M * N)) by (apply Rmult_le_compat_l; [repeat apply Rmult_le_pos; lra|lra]).
  assert (E3 : (3 * (M + 3) * u * (M * N)) * N <= 3 / 8 * M). { replace ((3 * (M + 3) * u * (M * N)) * N) with (3 * M * (u * ((M + 3) * (N * N)))) by ring. assert (u * ((M + 3) * (N * N)) <= / 8) by (rewrite <- U50; apply Rmult_le_compat_l; lra). nra. }
  assert (E4 : 13 * v * N * N <= / 10 * M). { assert (v * (N * N) <= / 1000). { eapply Rle_trans; [|exact V50]. apply Rmult_le_compat_l; [lra|]. assert (0 <= N * N) by nra. nra. } nra. }
  assert (F1 : (V y - V x) * N > 0). { assert (V y - V x >= (chi2 b - chi2 a) - 2 * (3 * (M + 3) * u * (M * N) + 13 * v * N)) by lra. nra. }
  assert (0 < V y - V x); [|lra]. apply Rmult_lt_reg_r with N; lra.
Qed.
Print Assumptions C142_order.

(** The number of simulations at least as extreme as the data lies between the numbers
    with a larger statistic and with a statistic at least as large. *)
Lemma fge_ok : forall a b, fin a -> fin b -> fge a b = true <-> V b <= V a.
Proof.
  intros a b A B. unfold fge. rewrite Bleb_correct by assumption. split; intro H; [apply Rle_bool_true in H || (revert H; case Rle_bool_spec; [intros; assumption|discriminate])|apply Rle_bool_true; exact H].
Qed.
Theorem C142_pvalue : forall obs x sims, counted obs -> small_enough obs -> (Z.of_nat (length obs) <= 2 ^ 49)%Z -> Chi64 obs x ->
  Forall (fun s => counted (fst s) /\ length (fst s) = length obs /\ points (fst s) = points obs /\ Chi64 (fst s) (snd s)) sims ->
  forall more least, Counts (fun s => chi2 obs < chi2 (fst s)) sims more -> Counts (fun s => chi2 obs <= chi2 (fst s)) sims least ->
  (more <= as_extreme64 x (map snd sims) <= least)%nat.
Proof.
  intros obs x sims C S M X F more least CM CL. revert more least CM CL.
  assert (N50 : (points obs <= 2 ^ 50)%Z) by (destruct C as [_ N1]; unfold small_enough in S; assert (points obs <= points obs * points obs)%Z by nia; assert (1 * (points obs * points obs) <= (Z.of_nat (length obs) + 3) * (points obs * points obs))%Z by (apply Z.mul_le_mono_nonneg_r; lia); lia).
  induction F as [|s sims (C' & L & P & Y) F IH]; intros more least CM CL; [inversion CM; inversion CL; subst; cbn; lia|].
  unfold as_extreme64 in *. cbn [map filter]. destruct (C142_value obs x C N50 M X) as [FX _]. destruct (C142_value (fst s) (snd s) C' ltac:(rewrite P; exact N50) ltac:(rewrite L; exact M) Y) as [FY _].
  assert (S' : small_enough (fst s)) by (unfold small_enough in *; rewrite L, P; exact S).
  assert (UP : chi2 obs < chi2 (fst s) -> fge (snd s) x = true). { intro H. apply (proj2 (fge_ok _ _ FY FX)), Rlt_le. apply (C142_order obs (fst s)); auto. }
  assert (DN : fge (snd s) x = true -> chi2 obs <= chi2 (fst s)). { intro H. apply (proj1 (fge_ok _ _ FY FX)) in H. apply Rnot_lt_le. intro H'. apply (C142_order (fst s) obs (snd s) x) in H'; auto. lra. }
  inversion CM as [|? ? k1 P1 K1|? ? k1 P1 K1]; subst; inversion CL as [|? ? k2 P2 K2|? ? k2 P2 K2]; subst; specialize (IH _ _ K1 K2); destruct (fge (snd s) x) eqn:E; cbn [length]; try lia.
  all: exfalso; solve [specialize (UP P1); discriminate UP | apply P2; lra | apply P2, DN; reflexivity].
Qed.
Print Assumptions C142_pvalue.

(** ** Exact cases *)
Lemma total_in : forall (f : Z -> R) l k, (forall j, 0 <= f j) -> In k l -> f k <= total (map f l).
Proof.
  intros f l k P. induction l as [|j l IH]; intro I; [destruct I|]. cbn. fold (total (map f l)). assert (0 <= total (map f l)). { clear - P. induction l as [|j l IH]; cbn; [lra|]. specialize (P j). unfold total in IH. lra. }
  destruct I as [->|I]; [lra|]. specialize (P j). specialize (IH I). lra.
Qed.
(** With a power of two as the mean count nothing is rounded, so patterns with equal
    statistics are recognised. *)
Theorem C142_exact : forall c k x, counted c -> (points c <= 2 ^ 25)%Z -> (Z.of_nat (length c) <= 2 ^ 25)%Z -> even_share c = bpow radix2 k -> Chi64 c x ->
  fin x /\ V x = chi2 c.
Proof.
  intros c k x C N M HK (ts & t & A1 & A2 & _ & _ & ->). assert (N50 : (points c <= 2 ^ 50)%Z) by lia. assert (M49 : (Z.of_nat (length c) <= 2 ^ 49)%Z) by lia.
  destruct (mean_ok c ts C N50 M49 A1) as (Fm & Em & _ & _). rewrite HK in Em. destruct (share_pos c C) as [_ SE]. rewrite HK in SE.
  assert (NR : 1 <= IZR (points c) <= bpow radix2 25). { split; [destruct C as [_ P]; apply IZR_le in P; exact P|]. rewrite <- IZR_pow2 by lia. apply IZR_le, N. }
  assert (MR : 1 <= INR (length c) <= bpow radix2 25). { split; [pose proof (counted_length c C) as Q; apply le_INR in Q; cbn in Q; exact Q|]. rewrite <- IZR_pow2, INR_IZR_INZ by lia. apply IZR_le, M. }
  pose proof (bpow_gt_0 radix2 k) as KP.
  assert (KU : (k <= 25)%Z). { apply (le_bpow radix2). nra. }
  assert (KL : (-25 <= k)%Z). { apply (le_bpow radix2). apply Rmult_le_reg_r with (bpow radix2 25); [apply bpow_gt_0|]. rewrite <- bpow_plus. apply Rle_trans with (bpow radix2 k * INR (length c)); [rewrite SE; change (bpow radix2 (-25 + 25)) with 1; lra|]. apply Rmult_le_compat_l; lra. }
  rewrite rnd_id in Em by (apply generic_format_bpow; unfold fexp64, FLT_exp; lia). set (mm := expected64 ts (length c)) in *. set (e := Z.min k 0).
  assert (OB : off (bpow radix2 k) c <= bpow radix2 (50 + 2 * e)).
  { rewrite off_is, <- SE. destruct C as [F _]. destruct (squares_le c F) as ((_ & S2) & _). apply IZR_le in S2. rewrite mult_IZR in S2.
    replace (IZR (squares c) - 2 * bpow radix2 k * (bpow radix2 k * INR (length c)) + INR (length c) * (bpow radix2 k * bpow radix2 k)) with (IZR (squares c) - bpow radix2 k * (bpow radix2 k * INR (length c))) by ring. rewrite SE.
    apply Rle_trans with (IZR (points c) * IZR (points c)); [nra|]. unfold e. destruct (Z_le_gt_dec 0 k) as [K0|K0].
    - rewrite Z.min_r by lia. change (50 + 2 * 0)%Z with (25 + 25)%Z. rewrite bpow_plus. apply Rmult_le_compat; lra.
    - rewrite Z.min_l by lia. replace (50 + 2 * k)%Z with ((k + 25) + (k + 25))%Z by lia. rewrite bpow_plus, (bpow_plus radix2 k 25). rewrite <- SE. assert (0 <= bpow radix2 k * INR (length c)) by nra.
      apply Rmult_le_compat; try assumption; apply Rmult_le_compat_l; lra. }
  assert (TE : forall f, In f c -> fin (term64 mm f) /\ V (term64 mm f) = (IZR f - bpow radix2 k) ^ 2 / bpow radix2 k /\ multiple (2 * e - k) (term64 mm f)).
  { intros f I. pose proof (in_range c C f I) as FR. destruct (fint_ok f) as [Ff Vf]; [lia|].
    set (j := (f * 2 ^ (- e) - 2 ^ (k - e))%Z). assert (EJ : IZR f - bpow radix2 k = IZR j * bpow radix2 e).
    { unfold j. rewrite minus_IZR, mult_IZR, !IZR_pow2 by (unfold e; lia). rewrite Rmult_minus_distr_r, Rmult_assoc, <- !bpow_plus. replace (- e + e)%Z with 0%Z by lia. replace (k - e + e)%Z with k by lia. change (bpow radix2 0) with 1. ring. }
    assert (SQ : (IZR f - bpow radix2 k) ^ 2 <= bpow radix2 (50 + 2 * e)). { eapply Rle_trans; [|exact OB]. unfold off. apply (total_in (fun z => (IZR z - bpow radix2 k) ^ 2)); [intro; apply pow2_ge_0|exact I]. }
    assert (AB : Rabs (IZR j * bpow radix2 e) <= bpow radix2 (25 + e)).
    { rewrite <- EJ. apply Rsqr_incr_0; [|apply Rabs_pos|apply bpow_ge_0]. rewrite <- Rsqr_abs. unfold Rsqr. rewrite <- bpow_plus. replace (25 + e + (25 + e))%Z with (50 + 2 * e)%Z by lia. replace ((IZR f - bpow radix2 k) * (IZR f - bpow radix2 k)) with ((IZR f - bpow radix2 k) ^ 2) by ring. exact SQ. }
    assert (JF : isfloat (IZR j * bpow radix2 e)) by (apply grid_float; [unfold e; lia|]; eapply Rle_trans; [exact AB|apply bpow_le; lia]).
    destruct (fsub_ok (fint f) mm Ff Fm) as [D1 D2].
    { rewrite Vf, Em, EJ. eapply Rle_trans; [exact AB|]. apply bpow_le. unfold e. lia. }
    rewrite Vf, Em, EJ, rnd_id in D2 by exact JF.
    assert (E2 : IZR j * bpow radix2 e * (IZR j * bpow radix2 e) = IZR (j * j) * bpow radix2 (2 * e)) by (rewrite mult_IZR; replace (2 * e)%Z with (e + e)%Z by lia; rewrite bpow_plus; ring).
    assert (SB : Rabs (IZR (j * j) * bpow radix2 (2 * e)) <= bpow radix2 (50 + 2 * e)).
    { rewrite <- E2, <- EJ. replace ((IZR f - bpow radix2 k) * (IZR f - bpow radix2 k)) with ((IZR f - bpow radix2 k) ^ 2) by ring. rewrite Rabs_pos_eq by apply pow2_ge_0. exact SQ. }
    destruct (fmul_ok _ _ D1 D1) as [Q1 Q2]; [rewrite D2, E2; eapply Rle_trans; [exact SB|]; apply bpow_le; unfold e; lia|].
    rewrite D2, E2, rnd_id in Q2 by (apply grid_float; [unfold e; lia|]; eapply Rle_trans; [exact SB|apply bpow_le; lia]).
    assert (E3 : IZR (j * j) * bpow radix2 (2 * e) / bpow radix2 k = IZR (j * j) * bpow radix2 (2 * e - k)).
    { unfold Rdiv, Z.sub. rewrite Rmult_assoc, <- bpow_opp, <- bpow_plus. reflexivity. }
    assert (TB : Rabs (IZR (j * j) * bpow radix2 (2 * e - k)) <= bpow radix2 (50 + (2 * e - k))).
    { rewrite <- E3. unfold Rdiv. rewrite Rabs_mult, (Rabs_pos_eq (/ _)) by (apply Rlt_le, Rinv_0_lt_compat; exact KP). replace (50 + (2 * e - k))%Z with ((50 + 2 * e) + - k)%Z by lia. rewrite (bpow_plus radix2 (50 + 2 * e)), bpow_opp. apply Rmult_le_compat_r; [apply Rlt_le, Rinv_0_lt_compat; exact KP|exact SB]. }
    destruct (fdiv_ok (fmul (fsub (fint f) mm) (fsub (fint f) mm)) mm Q1) as [R1 R2]; [rewrite Em; lra|rewrite Q2, Em, E3; eapply Rle_trans; [exact TB|]; apply bpow_le; unfold e; lia|].
    rewrite Q2, Em, E3, rnd_id in R2 by (apply grid_float; [unfold e; lia|]; eapply Rle_trans; [exact TB|apply bpow_le; lia]).
    split; [exact R1|]. split; [|exists (j * j)%Z; exact R2]. unfold term64. rewrite R2, <- E3, EJ. f_equal. rewrite <- E2. ring. }
  assert (TS : forall l, incl l c -> Forall fin (map (term64 mm) l) /\ Forall (multiple (2 * e - k)) (map (term64 mm) l) /\ Vsum (map (term64 mm) l) = off (bpow radix2 k) l / bpow radix2 k /\ Vabs (map (term64 mm) l) = off (bpow radix2 k) l / bpow radix2 k).
  { intros l I. unfold off. rewrite <- (total_div (bpow radix2 k) l). induction l as [|f l IH]; [unfold Vsum, Vabs; cbn; repeat split; constructor|].
    destruct (IH (fun z Z0 => I z (or_intror Z0))) as (B1 & B2 & B3 & B4). destruct (TE f (I f (or_introl eq_refl))) as (T1 & T2 & T3). unfold Vsum, Vabs in *. cbn [map fold_right total]. rewrite B3, B4, T2.
    rewrite Rabs_pos_eq by (apply Rmult_le_pos; [apply pow2_ge_0|apply Rlt_le, Rinv_0_lt_compat; exact KP]). split; [constructor; assumption|]. split; [constructor; assumption|]. split; reflexivity. }
  destruct (TS c (fun z Z0 => Z0)) as (B1 & B2 & B3 & B4). destruct (adds_ok t _ A2 B1) as (F1 & F2 & F3 & _ & F5).
  destruct (tsum_exact t (2 * e - k) ltac:(unfold e; lia) F1 (F5 _ B2)) as (G1 & G2 & _).
  - rewrite F3, B4. replace (2 * e - k + 53)%Z with ((53 + 2 * e) + - k)%Z by lia. rewrite bpow_plus, bpow_opp. unfold Rdiv. apply Rmult_le_compat_r; [apply Rlt_le, Rinv_0_lt_compat; exact KP|]. eapply Rle_trans; [exact OB|apply bpow_le; lia].
  - split; [exact G1|]. rewrite G2, F2. fold mm. rewrite B3, chi2_off, HK. reflexivity.
Qed.
Print Assumptions C142_exact.

(** ** Ties *)
(** A single point in the first or in the third of six cells: the statistic is 5 both
    times.  Added in order it is larger in the first case, so a point in the first cell
    has the p-value 1/(K+1) against K simulations in the third. *)
Definition cell1 : list Z := [1; 0; 0; 0; 0; 0]%Z.
Definition cell3 : list Z := [0; 0; 1; 0; 0; 0]%Z.
Definition sequential (c : list Z) : f64 := tsum (in_order (map (term64 (expected64 (in_order (counts64 c)) (length c))) c)).
Lemma in_order_leaves : forall l, length (leaves (in_order l)) = S (length l).
Proof.
  intro l. destruct (in_order_adds l) as (z & Z0 & P). unfold in_order.
  assert (G : forall l t, length (leaves (fold_left (fun t x => Node t (Leaf x)) l t)) = (length (leaves t) + length l)%nat).
  { clear. induction l as [|x l IH]; intro t; cbn; [lia|]. rewrite IH. cbn. rewrite app_length. cbn. lia. }
  rewrite G. reflexivity.
Qed.
Lemma sequential_chi : forall c, Chi64 c (sequential c).
Proof.
  intro c. exists (in_order (counts64 c)), (in_order (map (term64 (expected64 (in_order (counts64 c)) (length c))) c)).
  split; [apply in_order_adds|]. split; [apply in_order_adds|]. rewrite !in_order_leaves. unfold counts64. rewrite !map_length. split; [lia|]. split; [lia|reflexivity].
Qed.
Theorem C142_ties_refuted : counted cell1 /\ counted cell3 /\ small_enough cell1 /\ chi2 cell1 = 5 /\ chi2 cell3 = 5 /\
  Chi64 cell1 (sequential cell1) /\ Chi64 cell3 (sequential cell3) /\
  forall K, as_extreme64 (sequential cell1) (repeat (sequential cell3) K) = 0%nat /\ pseudo64 (Z.of_nat 0) (Z.of_nat K) = rnd (1 / rnd (INR K + 1)).
Proof.
  assert (C1 : counted cell1) by (split; [repeat constructor; lia|cbn; lia]). assert (C3 : counted cell3) by (split; [repeat constructor; lia|cbn; lia]).
  split; [exact C1|]. split; [exact C3|]. split; [unfold small_enough; cbn; lia|]. split; [rewrite chi2_is by exact C1; cbn; lra|]. split; [rewrite chi2_is by exact C3; cbn; lra|].
  split; [apply sequential_chi|]. split; [apply sequential_chi|]. intro K. split.
  - unfold as_extreme64. induction K as [|K IH]; [reflexivity|]. cbn [repeat filter]. assert (E : fge (sequential cell3) (sequential cell1) = false) by (vm_compute; reflexivity). rewrite E. exact IH.
  - unfold pseudo64. rewrite <- !INR_IZR_INZ. change (INR 0) with 0. rewrite Rplus_0_l, (rnd_id 1); [reflexivity|]. apply (float_int 1). lia.
Qed.
Print Assumptions C142_ties_refuted.

(** Four cells and eight points: exact.  Four cells and five points: 8.6 rounded. *)
Example C142_case : even_share [5; 0; 1; 2]%Z = bpow radix2 1 /\ chi2 [5; 0; 1; 2]%Z = 7 /\ B2SF (sequential [5; 0; 1; 2]%Z) = B2SF (fint 7) /\
  chi2 [4; 1; 0; 0]%Z = 43 / 5 /\ B2SF (sequential [4; 1; 0; 0]%Z) = B2SF (fdiv (fint 43) (fint 5)).
Proof.
  split; [unfold even_share; cbn; lra|]. split; [rewrite chi2_is by (split; [repeat constructor; lia|cbn; lia]); cbn; lra|]. split; [vm_compute; reflexivity|].
  split; [rewrite chi2_is by (split; [repeat constructor; lia|cbn; lia]); cbn; lra|]. vm_compute. reflexivity.
Qed.
