(** Lemmas about areas on binary64. *)
From Coq Require Import Reals ZArith List Bool Lia Lra Psatz Permutation Arith.
From Flocq Require Import Core BinarySingleNaN.
From Verif Require DistStats_proofs.
From Verif Require Import Base Float_model Float_proofs F64_model F64_proofs F64_props Hex64_proofs K64_model K64_spec K64_proofs Area64_model Area64_spec.
Import ListNotations.
Local Open Scope R_scope.

(** ** Sums in any order *)
Lemma Vsum_app : forall a b, Vsum (a ++ b) = Vsum a + Vsum b.
Proof. intros a b. unfold Vsum. induction a as [|x a IH]; cbn; [lra|]. rewrite IH. lra. Qed.
Lemma Vabs_app : forall a b, Vabs (a ++ b) = Vabs a + Vabs b.
Proof. intros a b. unfold Vabs. induction a as [|x a IH]; cbn; [lra|]. rewrite IH. lra. Qed.
Lemma Vsum_perm : forall a b, Permutation a b -> Vsum a = Vsum b.
Proof. intros a b P. induction P; unfold Vsum in *; cbn in *; lra. Qed.
Lemma Vabs_perm : forall a b, Permutation a b -> Vabs a = Vabs b.
Proof. intros a b P. induction P; unfold Vabs in *; cbn in *; lra. Qed.
Lemma leaves_pos : forall t, (1 <= length (leaves t))%nat.
Proof. induction t as [x|l IL r IR]; cbn; [lia|]. rewrite app_length. lia. Qed.
Lemma g_le : forall i j, (i <= j)%nat -> g i <= g j.
Proof. intros i j H. induction H as [|j H IH]; [lra|]. pose proof (g_mono j). lra. Qed.

Lemma tsum_error : forall t, Forall fin (leaves t) -> INR (length (leaves t)) * u <= / 2 -> 2 * Vabs (leaves t) <= bpow radix2 1023 ->
  fin (tsum t) /\ Rabs (V (tsum t) - Vsum (leaves t)) <= g (length (leaves t) - 1) * Vabs (leaves t).
Proof.
  induction t as [x|l IL r IR]; intros F N B.
  - cbn in *. inversion F; subst. split; [assumption|]. unfold Vsum, Vabs, g. cbn. rewrite Rplus_0_r, Rminus_diag_eq, Rabs_R0 by reflexivity. lra.
  - cbn [leaves tsum] in *. apply Forall_app in F. destruct F as [Fl Fr]. rewrite Vabs_app in *. rewrite Vsum_app, app_length in *.
    pose proof (leaves_pos l) as Pl. pose proof (leaves_pos r) as Pr. pose proof u_ge as U. pose proof (Vabs_pos (leaves l)) as Al. pose proof (Vabs_pos (leaves r)) as Ar.
    set (m := length (leaves l)) in *. set (k := length (leaves r)) in *. rewrite plus_INR in N. pose proof (pos_INR m). pose proof (pos_INR k).
    destruct (IL Fl) as [L1 L2]; [nra|lra|]. destruct (IR Fr) as [R1 R2]; [nra|lra|].
    set (a := V (tsum l)) in *. set (b := V (tsum r)) in *. set (sa := Vsum (leaves l)) in *. set (sb := Vsum (leaves r)) in *.
    set (A := Vabs (leaves l)) in *. set (B' := Vabs (leaves r)) in *.
    assert (SA : Rabs sa <= A) by apply Vsum_abs. assert (SB : Rabs sb <= B') by apply Vsum_abs.
    assert (G1 : g (m - 1) <= 1). { apply g_one. apply Rle_trans with (INR m * u); [apply Rmult_le_compat_r; [lra|apply le_INR; lia]|nra]. }
    assert (G2 : g (k - 1) <= 1). { apply g_one. apply Rle_trans with (INR k * u); [apply Rmult_le_compat_r; [lra|apply le_INR; lia]|nra]. }
    pose proof (g_pos (m - 1)) as P1. pose proof (g_pos (k - 1)) as P2.
    assert (VA : Rabs a <= (1 + g (m - 1)) * A). { replace a with ((a - sa) + sa) by ring. eapply Rle_trans; [apply Rabs_triang|]. lra. }
    assert (VB : Rabs b <= (1 + g (k - 1)) * B'). { replace b with ((b - sb) + sb) by ring. eapply Rle_trans; [apply Rabs_triang|]. lra. }
    assert (VAB : Rabs (a + b) <= (1 + g (m - 1)) * A + (1 + g (k - 1)) * B') by (eapply Rle_trans; [apply Rabs_triang|]; lra).
    destruct (fadd_ok (tsum l) (tsum r) L1 R1) as [S1 S2].
    { fold a b. eapply Rle_trans; [exact VAB|]. nra. }
    split; [exact S1|]. rewrite S2. fold a b. pose proof (rnd_plus_error a b (V_float _) (V_float _)) as RE.
    replace (rnd (a + b) - (sa + sb)) with ((rnd (a + b) - (a + b)) + ((a - sa) + (b - sb))) by ring.
    eapply Rle_trans; [apply Rabs_triang|]. eapply Rle_trans; [apply Rplus_le_compat_l, Rabs_triang|].
    assert (E1 : g m = g (m - 1) * (1 + u) + u) by (rewrite <- g_S; f_equal; lia).
    assert (E2 : g k = g (k - 1) * (1 + u) + u) by (rewrite <- g_S; f_equal; lia).
    assert (M1 : g m <= g (m + k - 1)) by (apply g_le; lia). assert (M2 : g k <= g (m + k - 1)) by (apply g_le; lia).
    assert (UV : u * Rabs (a + b) <= u * ((1 + g (m - 1)) * A + (1 + g (k - 1)) * B')) by (apply Rmult_le_compat_l; lra).
    assert (g m * A <= g (m + k - 1) * A) by (apply Rmult_le_compat_r; lra). assert (g k * B' <= g (m + k - 1) * B') by (apply Rmult_le_compat_r; lra).
    assert (g m * A = u * ((1 + g (m - 1)) * A) + g (m - 1) * A) by (rewrite E1; ring).
    assert (g k * B' = u * ((1 + g (k - 1)) * B') + g (k - 1) * B') by (rewrite E2; ring). lra.
Qed.
Lemma tsum_exact : forall t e, (-1074 <= e <= 970)%Z -> Forall fin (leaves t) -> Forall (multiple e) (leaves t) -> Vabs (leaves t) <= bpow radix2 (e + 53) ->
  fin (tsum t) /\ V (tsum t) = Vsum (leaves t) /\ multiple e (tsum t).
Proof.
  induction t as [x|l IL r IR]; intros e E F M B.
  - cbn in *. inversion F; inversion M; subst. split; [assumption|]. split; [unfold Vsum; cbn; lra|assumption].
  - cbn [leaves tsum] in *. apply Forall_app in F. destruct F as [Fl Fr]. apply Forall_app in M. destruct M as [Ml Mr].
    rewrite Vabs_app in B. rewrite Vsum_app. pose proof (Vabs_pos (leaves l)) as Al. pose proof (Vabs_pos (leaves r)) as Ar.
    destruct (IL e E Fl Ml ltac:(lra)) as (L1 & L2 & [k L3]). destruct (IR e E Fr Mr ltac:(lra)) as (R1 & R2 & [m R3]).
    pose proof (Vsum_abs (leaves l)) as SA. pose proof (Vsum_abs (leaves r)) as SB.
    assert (AB : Rabs (V (tsum l) + V (tsum r)) <= bpow radix2 (e + 53)).
    { rewrite L2, R2. eapply Rle_trans; [apply Rabs_triang|]. lra. }
    destruct (fadd_ok _ _ L1 R1) as [S1 S2]; [eapply Rle_trans; [exact AB|apply bpow_le; lia]|].
    assert (EQ : V (tsum l) + V (tsum r) = IZR (k + m) * bpow radix2 e) by (rewrite L3, R3, plus_IZR; ring).
    assert (S3 : V (fadd (tsum l) (tsum r)) = V (tsum l) + V (tsum r)).
    { rewrite S2. apply rnd_id. rewrite EQ in *. apply grid_float; [lia|exact AB]. }
    split; [exact S1|]. split; [rewrite S3, L2, R2; reflexivity|]. exists (k + m)%Z. rewrite S3. exact EQ.
Qed.
Lemma zeros : forall z, Forall zero64 z -> Forall fin z /\ Vsum z = 0 /\ Vabs z = 0 /\ forall e, Forall (multiple e) z.
Proof.
  induction z as [|x z IH]; intro F.
  - split; [constructor|]. split; [reflexivity|]. split; [reflexivity|]. constructor.
  - inversion F as [|? ? Zx Fz]; subst. destruct (IH Fz) as (A & B & C & D). destruct x as [s| | |]; try contradiction.
    unfold Vsum, Vabs in *. cbn. rewrite B, C, Rabs_R0. split; [constructor; [reflexivity|exact A]|]. split; [lra|]. split; [lra|].
    intro e. constructor; [exists 0%Z; cbn; lra|apply D].
Qed.
Lemma adds_ok : forall t l, Adds t l -> Forall fin l -> Forall fin (leaves t) /\ Vsum (leaves t) = Vsum l /\ Vabs (leaves t) = Vabs l /\ (length l <= length (leaves t))%nat /\
  forall e, Forall (multiple e) l -> Forall (multiple e) (leaves t).
Proof.
  intros t l (z & Z & P) F. destruct (zeros z Z) as (A & B & C & D). rewrite (Vsum_perm _ _ P), (Vabs_perm _ _ P), (Permutation_length P), Vsum_app, Vabs_app, app_length, B, C.
  split; [eapply Permutation_Forall; [apply Permutation_sym; exact P|]; apply Forall_app; auto|]. split; [lra|]. split; [lra|]. split; [lia|].
  intros e M. eapply Permutation_Forall; [apply Permutation_sym; exact P|]. apply Forall_app. auto.
Qed.

(** ** Terms *)
Definition ca (a b : fpt) : R := V (fst a) * V (snd b) - V (fst b) * V (snd a).
Definition cs (a b : fpt) : R := Rabs (V (fst a) * V (snd b)) + Rabs (V (fst b) * V (snd a)).
Definition fp (p : fpt) : Prop := fin (fst p) /\ fin (snd p).
Lemma cs_pos : forall a b, 0 <= cs a b.
Proof. intros a b. unfold cs. pose proof (Rabs_pos (V (fst a) * V (snd b))). pose proof (Rabs_pos (V (fst b) * V (snd a))). lra. Qed.
Lemma tiny_small : tiny <= 1.
Proof. unfold tiny. change 1 with (bpow radix2 0). apply bpow_le. lia. Qed.
Lemma cross_ok : forall a b, fp a -> fp b -> cs a b <= bpow radix2 1000 ->
  fin (cross64 a b) /\ Rabs (V (cross64 a b) - ca a b) <= 3 * u * cs a b + 3 * tiny /\ Rabs (V (cross64 a b)) <= 2 * cs a b + 3 * tiny.
Proof.
  intros a b [A1 A2] [B1 B2] S. unfold cs, ca in *. set (p := V (fst a) * V (snd b)) in *. set (q := V (fst b) * V (snd a)) in *.
  pose proof (Rabs_pos p) as Pp. pose proof (Rabs_pos q) as Pq. assert (B1000 : bpow radix2 1000 <= bpow radix2 1022) by (apply bpow_le; lia).
  assert (B22 : 2 * bpow radix2 1022 = bpow radix2 1023) by (change 2 with (bpow radix2 1); rewrite <- bpow_plus; reflexivity).
  destruct (fmul_ok (fst a) (snd b) A1 B2) as [P1 P2]; [fold p; lra|]. destruct (fmul_ok (fst b) (snd a) B1 A2) as [Q1 Q2]; [fold q; lra|]. fold p in P2. fold q in Q2.
  pose proof (rnd_error p) as Ep. pose proof (rnd_error q) as Eq. pose proof u_ge as U. pose proof tiny_gt as T. pose proof tiny_small as T1. assert (US : u <= / 100) by (rewrite u_small; lra).
  assert (F1022 : isfloat (bpow radix2 1022)) by (apply generic_format_bpow; unfold fexp64, FLT_exp; lia).
  assert (Rp : Rabs (rnd p) <= bpow radix2 1022) by (apply rnd_abs_le; [exact F1022|lra]).
  assert (Rq : Rabs (rnd q) <= bpow radix2 1022) by (apply rnd_abs_le; [exact F1022|lra]).
  assert (D : Rabs (rnd p - rnd q) <= Rabs (rnd p) + Rabs (rnd q)). { unfold Rminus. eapply Rle_trans; [apply Rabs_triang|]. rewrite Rabs_Ropp. lra. }
  destruct (fsub_ok _ _ P1 Q1) as [S1 S2]; [rewrite P2, Q2; lra|]. rewrite P2, Q2 in S2.
  assert (E3 : Rabs (rnd (rnd p - rnd q) - (rnd p - rnd q)) <= u * Rabs (rnd p - rnd q)) by (apply rnd_minus_error; apply rnd_float).
  assert (Rp' : Rabs (rnd p) <= (1 + u) * Rabs p + tiny). { replace (rnd p) with ((rnd p - p) + p) by ring. eapply Rle_trans; [apply Rabs_triang|]. lra. }
  assert (Rq' : Rabs (rnd q) <= (1 + u) * Rabs q + tiny). { replace (rnd q) with ((rnd q - q) + q) by ring. eapply Rle_trans; [apply Rabs_triang|]. lra. }
  assert (D' : Rabs (rnd p - rnd q) <= (1 + u) * (Rabs p + Rabs q) + 2 * tiny) by lra.
  assert (E : Rabs (V (cross64 a b) - (p - q)) <= 3 * u * (Rabs p + Rabs q) + 3 * tiny).
  { unfold cross64. rewrite S2. replace (rnd (rnd p - rnd q) - (p - q)) with ((rnd (rnd p - rnd q) - (rnd p - rnd q)) + ((rnd p - p) - (rnd q - q))) by ring.
    eapply Rle_trans; [apply Rabs_triang|]. assert (Rabs ((rnd p - p) - (rnd q - q)) <= Rabs (rnd p - p) + Rabs (rnd q - q)).
    { unfold Rminus at 1. eapply Rle_trans; [apply Rabs_triang|]. rewrite Rabs_Ropp. lra. }
    assert (u * Rabs (rnd p - rnd q) <= u * ((1 + u) * (Rabs p + Rabs q) + 2 * tiny)) by (apply Rmult_le_compat_l; lra).
    assert (u * (u * (Rabs p + Rabs q)) <= u * (Rabs p + Rabs q)) by (apply Rmult_le_compat_l; nra). nra. }
  split; [exact S1|]. split; [exact E|]. replace (V (cross64 a b)) with ((V (cross64 a b) - (p - q)) + (p - q)) by ring.
  eapply Rle_trans; [apply Rabs_triang|]. assert (Rabs (p - q) <= Rabs p + Rabs q). { unfold Rminus. eapply Rle_trans; [apply Rabs_triang|]. rewrite Rabs_Ropp. lra. }
  assert (3 * u * (Rabs p + Rabs q) <= 1 * (Rabs p + Rabs q)) by (apply Rmult_le_compat_r; lra). lra.
Qed.
Lemma cross_exact : forall a b e, (-500 <= e <= 400)%Z -> fp a -> fp b -> multiple e (fst a) -> multiple e (snd a) -> multiple e (fst b) -> multiple e (snd b) ->
  cs a b <= bpow radix2 (2 * e + 53) -> fin (cross64 a b) /\ V (cross64 a b) = ca a b /\ multiple (2 * e) (cross64 a b).
Proof.
  intros a b e E [A1 A2] [B1 B2] [i I] [j J] [k K] [l L] S. unfold cs, ca in *.
  assert (PE : V (fst a) * V (snd b) = IZR (i * l) * bpow radix2 (2 * e)).
  { rewrite I, L, mult_IZR. replace (2 * e)%Z with (e + e)%Z by lia. rewrite bpow_plus. ring. }
  assert (QE : V (fst b) * V (snd a) = IZR (k * j) * bpow radix2 (2 * e)).
  { rewrite K, J, mult_IZR. replace (2 * e)%Z with (e + e)%Z by lia. rewrite bpow_plus. ring. }
  set (p := V (fst a) * V (snd b)) in *. set (q := V (fst b) * V (snd a)) in *.
  pose proof (Rabs_pos p) as Pp. pose proof (Rabs_pos q) as Pq. assert (BB : bpow radix2 (2 * e + 53) <= bpow radix2 1023) by (apply bpow_le; lia).
  destruct (fmul_ok (fst a) (snd b) A1 B2) as [P1 P2]; [fold p; lra|]. destruct (fmul_ok (fst b) (snd a) B1 A2) as [Q1 Q2]; [fold q; lra|]. fold p in P2. fold q in Q2.
  rewrite (rnd_id p) in P2 by (rewrite PE; apply grid_float; [lia|rewrite <- PE; lra]).
  rewrite (rnd_id q) in Q2 by (rewrite QE; apply grid_float; [lia|rewrite <- QE; lra]).
  assert (D : Rabs (p - q) <= bpow radix2 (2 * e + 53)). { unfold Rminus. eapply Rle_trans; [apply Rabs_triang|]. rewrite Rabs_Ropp. lra. }
  destruct (fsub_ok _ _ P1 Q1) as [S1 S2]; [rewrite P2, Q2; lra|]. rewrite P2, Q2 in S2.
  assert (DE : p - q = IZR (i * l - k * j) * bpow radix2 (2 * e)) by (rewrite PE, QE, minus_IZR; ring).
  rewrite (rnd_id (p - q)) in S2 by (rewrite DE; apply grid_float; [lia|rewrite <- DE; exact D]).
  split; [exact S1|]. split; [exact S2|]. exists (i * l - k * j)%Z. unfold cross64. rewrite S2. exact DE.
Qed.

(** ** Rings *)
Definition ptot (f : fpt -> fpt -> R) (l : list (fpt * fpt)) : R := total (map (fun e => f (fst e) (snd e)) l).
Definition d0 : fpt := (fint 0, fint 0).
Lemma pairs_nth : forall (A : Type) (d : A) l, pairs l = map (fun i => (nth i l d, nth (S i) l d)) (seq 0 (length l - 1)).
Proof.
  intros A d l. induction l as [|a [|b t] IH]; [reflexivity|reflexivity|].
  change (pairs (a :: b :: t)) with ((a, b) :: pairs (b :: t)). rewrite IH. cbn [length]. rewrite !Nat.sub_succ, !Nat.sub_0_r. cbn [seq map nth]. f_equal.
  rewrite <- seq_shift, map_map. apply map_ext. intro i. reflexivity.
Qed.
Lemma total_app : forall a b, total (a ++ b) = total a + total b.
Proof. intros a b. unfold total. induction a as [|x a IH]; cbn; [lra|]. rewrite IH. lra. Qed.
(** The edges of the closed ring, in terms of the vertices counted round the ring. *)
Lemma open_edges : forall h p, pairs ((p :: h) ++ [p]) =
  map (fun i => (nth (i mod length (p :: h)) (p :: h) d0, nth (S i mod length (p :: h)) (p :: h) d0)) (seq 0 (length (p :: h))).
Proof.
  intros h p. rewrite (pairs_nth _ d0), app_length. set (l := p :: h). set (n := length l). cbn [length]. replace (n + 1 - 1)%nat with n by lia.
  apply map_ext_in. intros i I. apply in_seq in I. assert (NP : (n <> 0)%nat) by (unfold n, l; cbn; lia).
  rewrite (Nat.mod_small i n) by lia. f_equal.
  - apply app_nth1. fold n. lia.
  - destruct (Nat.eq_dec (S i) n) as [E|E].
    + rewrite E, Nat.mod_same by exact NP. rewrite app_nth2 by (fold n; lia). fold n. rewrite Nat.sub_diag. reflexivity.
    + rewrite Nat.mod_small by lia. apply app_nth1. fold n. lia.
Qed.
Lemma closed_edges : forall h p, map (fun i => (nth (i mod length (p :: h)) (p :: h) d0, nth (S i mod length (p :: h)) (p :: h) d0)) (seq 0 (length (p :: h))) =
  pairs (p :: h) ++ [(last (p :: h) p, p)].
Proof.
  intros h p. rewrite (pairs_nth _ d0). set (l := p :: h). assert (E : length l = S (length h)) by reflexivity. rewrite E. rewrite Nat.sub_succ, Nat.sub_0_r.
  rewrite seq_S, map_app. f_equal.
  - apply map_ext_in. intros i I. apply in_seq in I. rewrite !Nat.mod_small by lia. reflexivity.
  - cbn [map Nat.add]. f_equal. f_equal.
    + rewrite Nat.mod_small by lia. rewrite (DistStats_proofs.last_nth _ l p d0) by discriminate. rewrite E, Nat.sub_succ, Nat.sub_0_r. reflexivity.
    + rewrite Nat.mod_same by lia. reflexivity.
Qed.

Lemma pairs_in : forall (A : Type) (l : list A) a b, In (a, b) (pairs l) -> In a l /\ In b l.
Proof.
  intros A l. induction l as [|x [|y t] IH]; intros a b H; [contradiction|contradiction|].
  change (pairs (x :: y :: t)) with ((x, y) :: pairs (y :: t)) in H. destruct H as [H|H].
  - inversion H; subst. split; [left; reflexivity|right; left; reflexivity].
  - destruct (IH a b H) as [A1 A2]. split; right; assumption.
Qed.
Lemma close_in : forall h p, In p (close64 h) -> In p h.
Proof.
  intros [|q h] p H; [contradiction|]. unfold close64 in H. destruct (eq_row _ _); [exact H|]. apply in_app_or in H. destruct H as [H|[H|[]]]; [exact H|]. left. exact H.
Qed.
Lemma feq_ok : forall a b, fin a -> fin b -> feq a b = true <-> V a = V b.
Proof.
  intros a b Fa Fb. unfold feq. rewrite (Beqb_correct 53 1024 a b Fa Fb). unfold V. destruct (Req_bool_spec (B2R a) (B2R b)); split; intro; try assumption; try reflexivity; try discriminate. contradiction.
Qed.
Lemma last_in : forall (A : Type) (l : list A) d, l <> [] -> In (last l d) l.
Proof.
  intros A l d. induction l as [|a [|b t] IH]; intro N; [congruence|left; reflexivity|]. change (last (a :: b :: t) d) with (last (b :: t) d). right. apply IH. discriminate.
Qed.
Lemma ring_ok : forall h, finite_ring h ->
  Forall (fun e => fp (fst e) /\ fp (snd e) /\ In (fst e) h /\ In (snd e) h) (pairs (close64 h)) /\
  ptot ca (pairs (close64 h)) = 2 * ring_area h /\ ptot cs (pairs (close64 h)) <= ring_size h.
Proof.
  intros h [NE F]. rewrite Forall_forall in F. split.
  - apply Forall_forall. intros [a b] H. apply pairs_in in H. destruct H as [A B]. apply close_in in A. apply close_in in B. cbn [fst snd]. split; [exact (F a A)|]. split; [exact (F b B)|]. split; assumption.
  - destruct h as [|p h]; [congruence|]. set (l := p :: h) in *. set (ed := map (fun i => (nth (i mod length l) l d0, nth (S i mod length l) l d0)) (seq 0 (length l))).
    assert (RA : 2 * ring_area l = ptot ca ed). { unfold ring_area, ptot, ed. rewrite map_map. unfold ca, vx, vy. cbn [fst snd]. fold d0. lra. }
    assert (RS : ring_size l = ptot cs ed). { unfold ring_size, ptot, ed. rewrite map_map. unfold cs, vx, vy. cbn [fst snd]. reflexivity. }
    rewrite RA, RS. change (close64 l) with (if eq_row p (last l p) then l else l ++ [p]). destruct (eq_row p (last l p)) eqn:E.
    + pose proof (closed_edges h p) as CE. fold l in CE. fold ed in CE. rewrite CE. unfold ptot. rewrite !map_app, !total_app. cbn [map fst snd]. unfold eq_row in E. apply andb_true_iff in E. destruct E as [E1 E2].
      assert (LI : In (last l p) l) by (apply last_in; discriminate). pose proof (F p (or_introl eq_refl)) as [P1 P2]. pose proof (F _ LI) as [L1 L2].
      apply feq_ok in E1; auto. apply feq_ok in E2; auto. pose proof (cs_pos (last l p) p) as CP.
      assert (C0 : ca (last l p) p = 0) by (unfold ca; rewrite <- E1, <- E2; ring). rewrite C0. unfold total. cbn [fold_right]. split; lra.
    + pose proof (open_edges h p) as OE. fold l in OE. fold ed in OE. rewrite OE. split; [reflexivity|lra].
Qed.

Lemma terms_ok : forall l, Forall (fun e => fp (fst e) /\ fp (snd e)) l -> ptot cs l <= bpow radix2 1000 ->
  let c := map (fun e => cross64 (fst e) (snd e)) l in
  Forall fin c /\ Rabs (Vsum c - ptot ca l) <= 3 * u * ptot cs l + 3 * INR (length l) * tiny /\ Vabs c <= 2 * ptot cs l + 3 * INR (length l) * tiny /\ 0 <= ptot cs l /\ Rabs (ptot ca l) <= ptot cs l.
Proof.
  induction l as [|[a b] l IH]; intros F B; cbv zeta.
  - unfold ptot, Vsum, Vabs, total. cbn. rewrite Rminus_0_r, Rabs_R0. split; [constructor|]. lra.
  - inversion F as [|? ? [Fa Fb] Fl]; subst. cbn [fst snd] in *. unfold ptot, total in *. cbn [map fold_right fst snd] in *. fold (total (map (fun e => cs (fst e) (snd e)) l)) in *. fold (total (map (fun e => ca (fst e) (snd e)) l)) in *.
    change (total (map (fun e => cs (fst e) (snd e)) l)) with (ptot cs l) in *. change (total (map (fun e => ca (fst e) (snd e)) l)) with (ptot ca l) in *.
    pose proof (cs_pos a b) as CP. assert (PP : 0 <= ptot cs l).
    { clear. unfold ptot, total. induction l as [|x l IH]; cbn; [lra|]. pose proof (cs_pos (fst x) (snd x)). lra. }
    destruct (IH Fl ltac:(lra)) as (I1 & I2 & I3 & I4 & I5). destruct (cross_ok a b Fa Fb ltac:(lra)) as (C1 & C2 & C3).
    unfold Vsum, Vabs in *. cbn [map fold_right length]. rewrite S_INR. set (c := map (fun e => cross64 (fst e) (snd e)) l) in *.
    set (sc := fold_right Rplus 0 (map V c)) in *. set (ac := fold_right Rplus 0 (map (fun x => Rabs (V x)) c)) in *.
    split; [constructor; assumption|]. split; [|split; [lra|split; [lra|]]].
    + replace (V (cross64 a b) + sc - (ca a b + ptot ca l)) with ((V (cross64 a b) - ca a b) + (sc - ptot ca l)) by ring. eapply Rle_trans; [apply Rabs_triang|]. lra.
    + eapply Rle_trans; [apply Rabs_triang|]. assert (Rabs (ca a b) <= cs a b). { unfold ca, cs, Rminus. eapply Rle_trans; [apply Rabs_triang|]. rewrite Rabs_Ropp. lra. } lra.
Qed.
Lemma terms_exact : forall l e, (-500 <= e <= 400)%Z -> Forall (fun p => fp (fst p) /\ fp (snd p)) l ->
  Forall (fun p => multiple e (fst (fst p)) /\ multiple e (snd (fst p)) /\ multiple e (fst (snd p)) /\ multiple e (snd (snd p))) l -> ptot cs l <= bpow radix2 (2 * e + 53) ->
  let c := map (fun e => cross64 (fst e) (snd e)) l in
  Forall fin c /\ Forall (multiple (2 * e)) c /\ Vsum c = ptot ca l /\ Vabs c <= ptot cs l /\ 0 <= ptot cs l.
Proof.
  intros l e E. induction l as [|[a b] l IH]; intros F M B; cbv zeta.
  - unfold ptot, Vsum, Vabs, total. cbn. split; [constructor|]. split; [constructor|]. lra.
  - inversion F as [|? ? [Fa Fb] Fl]; inversion M as [|? ? (M1 & M2 & M3 & M4) Ml]; subst. cbn [fst snd] in *. unfold ptot, total in *. cbn [map fold_right fst snd] in *. fold (total (map (fun e => cs (fst e) (snd e)) l)) in *. fold (total (map (fun e => ca (fst e) (snd e)) l)) in *.
    change (total (map (fun e => cs (fst e) (snd e)) l)) with (ptot cs l) in *. change (total (map (fun e => ca (fst e) (snd e)) l)) with (ptot ca l) in *.
    pose proof (cs_pos a b) as CP. assert (PP : 0 <= ptot cs l).
    { clear. unfold ptot, total. induction l as [|x l IH]; cbn; [lra|]. pose proof (cs_pos (fst x) (snd x)). lra. }
    destruct (IH Fl Ml ltac:(lra)) as (I1 & I2 & I3 & I4 & I5). destruct (cross_exact a b e E Fa Fb M1 M2 M3 M4 ltac:(lra)) as (C1 & C2 & C3).
    unfold Vsum, Vabs in *. cbn [map fold_right]. split; [constructor; assumption|]. split; [constructor; assumption|]. rewrite C2, I3.
    assert (Rabs (ca a b) <= cs a b). { unfold ca, cs, Rminus. eapply Rle_trans; [apply Rabs_triang|]. rewrite Rabs_Ropp. lra. }
    split; [reflexivity|]. split; lra.
Qed.
