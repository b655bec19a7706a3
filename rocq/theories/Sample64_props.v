(** Theorems about uniform sampling on binary64: property C134. *)
From Coq Require Import Reals ZArith List Bool Lia Lra Psatz Arith.
From Flocq Require Import Core BinarySingleNaN.
From Verif Require Import Base Float_model Float_proofs F64_model F64_proofs F64_props Hex64_proofs K64_model K64_spec K64_proofs Sample64_model Sample64_spec Sample64_proofs.
Import ListNotations.
Local Open Scope R_scope.

(** A uniform number never leaves its interval, grows with the random integer, and is
    close to the exact one. *)
Theorem C134_uniform : forall a b k, interval a b -> (0 <= k < 2 ^ 53)%Z ->
  fin (uniform64 a b k) /\ V a <= V (uniform64 a b k) <= V b /\
  (forall l, (k <= l < 2 ^ 53)%Z -> V (uniform64 a b k) <= V (uniform64 a b l)) /\
  Rabs (V (uniform64 a b k) - (V a + (V b - V a) * (IZR k * bpow radix2 (-53)))) <= bpow radix2 (-53) * Rmax (Rabs (V a)) (Rabs (V b)) + bpow radix2 (-51) * (V b - V a) + bpow radix2 (-1075).
Proof.
  intros a b k I K. destruct (uniform_value a b k I K) as (A1 & A2 & A3). split; [exact A1|]. split; [exact A3|]. pose proof u_ge as U. split.
  - intros l L. destruct (uniform_value a b l I ltac:(lia)) as (_ & B2 & _). rewrite A2, B2. destruct I as (_ & _ & AB & _). apply rnd_le, Rplus_le_compat_l, rnd_le, Rmult_le_compat_l; [apply rnd_nonneg; lra|].
    apply Rmult_le_compat_r; [lra|apply IZR_le; lia].
  - fold u tiny. destruct I as (_ & _ & AB & _). destruct (unit_ok k K) as (_ & U2 & U3). rewrite U2 in U3. set (v := IZR k * u) in *.
    destruct (uniform_core (V a) (V b) v (V_float _) (V_float _) AB U3) as (C1 & C2 & C3). rewrite A2. set (w := V b - V a) in *. set (d := rnd w) in *. set (p := rnd (d * v)) in *.
    assert (EW : Rabs (d - w) <= u * w). { pose proof (rnd_minus_error (V b) (V a) (V_float _) (V_float _)) as E. rewrite (Rabs_pos_eq (V b - V a)) in E by lra. exact E. }
    pose proof (rnd_error (d * v)) as EP. fold p in EP. assert (DV : 0 <= d * v <= d) by (split; [apply Rmult_le_pos; lra|nra]). rewrite (Rabs_pos_eq (d * v)) in EP by lra.
    assert (ES : Rabs (rnd (V a + p) - (V a + p)) <= u * Rabs (V a + p)) by (apply rnd_plus_error; [apply V_float|apply rnd_float]).
    assert (MX : Rabs (V a + p) <= Rmax (Rabs (V a)) (Rabs (V b))).
    { pose proof (Rmax_l (Rabs (V a)) (Rabs (V b))) as M1. pose proof (Rmax_r (Rabs (V a)) (Rabs (V b))) as M2. pose proof (Rle_abs (V b)). pose proof (Rle_abs (- V a)) as N. rewrite Rabs_Ropp in N. apply Rabs_le. lra. }
    assert (US : u <= / 100) by (rewrite u_small; lra). apply Rabs_le_inv in EW, EP, ES. assert (W0 : 0 <= w) by (unfold w; lra).
    assert (UM : u * Rabs (V a + p) <= u * Rmax (Rabs (V a)) (Rabs (V b))) by (apply Rmult_le_compat_l; lra).
    assert (D2 : d <= 2 * w) by nra. assert (UD : u * (d * v) <= u * (2 * w)) by (apply Rmult_le_compat_l; lra).
    assert (WV : - (u * w) <= (d - w) * v <= u * w). { assert (0 <= u * w) by (apply Rmult_le_pos; lra). split; nra. }
    assert (U51 : bpow radix2 (-51) = 4 * u) by (unfold u; change (-51)%Z with (2 + -53)%Z; rewrite bpow_plus; reflexivity). rewrite U51. apply Rabs_le.
    assert (0 <= u * w) by (apply Rmult_le_pos; lra). lra.
Qed.
Print Assumptions C134_uniform.

(** For a bounding box no candidate is ever rejected: 2 n s numbers give s patterns of n
    points, the candidates in order, all inside the box. *)
Lemma in_pairs_app : forall n m us, (2 * n <= length us)%nat -> in_pairs (n + m) us = in_pairs n us ++ in_pairs m (skipn (2 * n) us).
Proof.
  induction n as [|n IH]; intros m us L; [reflexivity|]. destruct us as [|k [|l us]]; [cbn in L; lia|cbn in L; lia|].
  replace (2 * S n)%nat with (S (S (2 * n))) by lia. cbn [Nat.add in_pairs skipn app]. f_equal. apply IH. cbn in L. lia.
Qed.
Lemma in_pairs_length : forall n us, (2 * n <= length us)%nat -> length (in_pairs n us) = n.
Proof.
  induction n as [|n IH]; intros us L; [reflexivity|]. destruct us as [|k [|l us]]; [cbn in L; lia|cbn in L; lia|]. cbn [in_pairs length]. f_equal. apply IH. cbn in L. lia.
Qed.
Lemma skip_skip : forall (A : Type) (l : list A) i j, skipn i (skipn j l) = skipn (i + j) l.
Proof. intros A l i j. revert l. induction j as [|j IH]; intro l; [rewrite Nat.add_0_r; reflexivity|]. rewrite Nat.add_succ_r. destruct l as [|a l]; [destruct i; reflexivity|]. cbn [skipn]. apply IH. Qed.
Theorem C134_box : forall b n s us, proper b -> draws us -> (2 * (n * s) <= length us)%nat -> exists r, poisson64 b (contains64 b) n s us = Some (r, skipn (2 * (n * s)) us) /\
  length r = s /\ Forall (fun ps => length ps = n) r /\ concat r = map (fun kl => candidate64 b (fst kl) (snd kl)) (in_pairs (n * s) us) /\ Forall (Forall (inside b)) r.
Proof.
  intros b n s. induction s as [|s IH]; intros us P D L.
  - exists []. rewrite Nat.mul_0_r. split; [reflexivity|]. split; [reflexivity|]. split; [constructor|]. split; [reflexivity|constructor].
  - replace (n * S s)%nat with (n + n * s)%nat in * by lia. pose proof (reject_box b n us P D ltac:(lia)) as R. cbn [poisson64]. rewrite R.
    destruct (reject_ok b (contains64 b) _ us n _ _ (le_n _) P D R) as (R1 & R2 & R3 & _).
    destruct (IH (skipn (2 * n) us) P R3) as (r & I1 & I2 & I3 & I4 & I5); [rewrite skipn_length; lia|]. rewrite I1. replace (skipn (2 * (n * s)) (skipn (2 * n) us)) with (skipn (2 * (n + n * s)) us) by (rewrite skip_skip; f_equal; lia).
    eexists. split; [reflexivity|]. split; [cbn; lia|]. split; [constructor; assumption|]. split.
    + cbn [concat]. rewrite I4, in_pairs_app, map_app by lia. reflexivity.
    + constructor; [|exact I5]. eapply Forall_impl; [|exact R2]. cbn. intros p [_ H]. exact H.
Qed.
Print Assumptions C134_box.

(** For any hull: the points returned are the ones tested, so all of them are in the hull,
    and in its bounding box. *)
Theorem C134_hull : forall b ok n s us r rest, proper b -> draws us -> poisson64 b ok n s us = Some (r, rest) ->
  length r = s /\ Forall (fun ps => length ps = n /\ Forall (fun p => ok p = true /\ inside b p) ps) r /\ exists used, us = used ++ rest.
Proof.
  intros b ok n s. induction s as [|s IH]; intros us r rest P D H.
  - inversion H; subst. split; [reflexivity|]. split; [constructor|]. exists []. reflexivity.
  - cbn [poisson64] in H. destruct (reject64 b ok us n) as [[ps us']|] eqn:R; [|discriminate]. destruct (poisson64 b ok n s us') as [[r' rest']|] eqn:Q; [|discriminate]. inversion H; subst.
    destruct (reject_ok b ok _ us n _ _ (le_n _) P D R) as (R1 & R2 & R3 & [u1 R4]). destruct (IH us' r' rest P R3 Q) as (I1 & I2 & [u2 I3]).
    split; [cbn; lia|]. split; [constructor; [split; assumption|exact I2]|]. exists (u1 ++ u2). rewrite R4, I3, app_assoc. reflexivity.
Qed.
Print Assumptions C134_hull.

(** Finding: with the ends of the box in the wrong order no number of draws suffices. *)
Theorem C134_reversed_refuted : forall b n s us, fin (x0 b) -> fin (x1 b) -> V (x1 b) < V (x0 b) -> poisson64 b (contains64 b) (S n) (S s) us = None.
Proof.
  intros b n s us F0 F1 H. cbn [poisson64]. rewrite (reject_never b (contains64 b) (length us) us (S n)); [reflexivity|lia| |lia].
  intro p. unfold contains64. destruct (fle (x0 b) (fst p) && fle (fst p) (x1 b)) eqn:E; [|reflexivity]. exfalso. apply andb_true_iff in E. destruct E as [E1 E2].
  assert (Fp : fin (fst p)).
  { unfold fin in *. destruct (fst p) as [s0|[]| |s0 m e Q]; try reflexivity; destruct (x0 b) as [|[]| |[]]; destruct (x1 b) as [|[]| |[]]; cbn in *; discriminate. }
  apply fle_ok in E1; auto. apply fle_ok in E2; auto. lra.
Qed.
Print Assumptions C134_reversed_refuted.

(** Points of a disc: as many as wanted, all in the hull, and in the disc up to the
    rounding of the position of its centre. *)
Definition offset_ok (r : f64) (ok : fpt -> bool) (c p : fpt) : Prop :=
  fin (fst p) /\ fin (snd p) /\ Rabs (V (fst p)) <= V r /\ Rabs (V (snd p)) <= V r /\ in_disc64 r p = true /\ ok (place64 c p) = true.
Lemma offsets_ok : forall r ok c us vs, fin r -> 0 <= V r <= bpow radix2 500 -> draws us -> draws vs -> Forall (offset_ok r ok c) (offsets64 r ok c us vs).
Proof.
  intros r ok c us vs F R0 D E. destruct (fneg_ok r F) as [N1 N2]. unfold draws in *. rewrite Forall_forall in D, E. apply Forall_forall. intros [x y] H. unfold offsets64 in H. apply filter_In in H. destruct H as [H1 H2].
  apply andb_true_iff in H2. destruct H2 as [H2 H3]. pose proof (in_combine_l _ _ _ _ H1) as Hx. pose proof (in_combine_r _ _ _ _ H1) as Hy. apply in_map_iff in Hx. apply in_map_iff in Hy. destruct Hx as (k & <- & K). destruct Hy as (l & <- & L).
  assert (B : bpow radix2 500 <= bpow radix2 1022) by (apply bpow_le; lia).
  assert (I : interval (fneg r) r). { split; [exact N1|]. split; [exact F|]. rewrite N2, Rabs_Ropp, Rabs_pos_eq by lra. lra. }
  destruct (uniform_value _ _ k I (D k K)) as (A1 & _ & A2). destruct (uniform_value _ _ l I (E l L)) as (B1 & _ & B2). rewrite N2 in A2, B2.
  split; [exact A1|]. split; [exact B1|]. split; [apply Rabs_le; exact A2|]. split; [apply Rabs_le; exact B2|]. split; assumption.
Qed.
Lemma circle_ok : forall fuel burn n r ok c good us g, fin r -> 0 <= V r <= bpow radix2 500 -> draws us -> (length good <= n)%nat -> Forall (offset_ok r ok c) good -> circle64 fuel burn n r ok c good us = Some g ->
  length g = n /\ Forall (offset_ok r ok c) g.
Proof.
  induction fuel as [|fuel IH]; intros burn n r ok c good us g F R0 D L G H; cbn [circle64] in H; destruct (Nat.ltb_spec (length good) n) as [C|C]; try discriminate.
  - inversion H; subst. split; [lia|exact G].
  - destruct (Nat.ltb (length us) (burn * n + burn * n)); [discriminate|]. set (k := (burn * n)%nat) in *. set (cand := offsets64 r ok c (firstn k us) (firstn k (skipn k us))) in *.
    assert (FN : forall m l, draws l -> draws (firstn m l)). { clear. unfold draws. induction m as [|m IH]; intros l Q; [constructor|]. destruct Q; [constructor|]. constructor; [assumption|]. apply IH. assumption. }
    assert (CO : Forall (offset_ok r ok c) cand) by (apply offsets_ok; [exact F|exact R0|apply FN; exact D|apply FN, draws_skip; exact D]).
    destruct (Nat.ltb_spec (n - length good) (length cand)) as [Q|Q].
    + inversion H; subst. split; [rewrite app_length, firstn_length; lia|]. apply Forall_app. split; [exact G|]. apply Forall_forall. intros p P. rewrite Forall_forall in CO. apply CO. rewrite <- (firstn_skipn (n - length good) cand). apply in_or_app. left. exact P.
    + apply (IH _ _ _ _ _ _ _ _ F R0 (draws_skip us (k + k) D)) in H; [exact H|rewrite app_length; lia|]. apply Forall_app. auto.
  - inversion H; subst. split; [lia|exact G].
Qed.
Theorem C134_circle : forall burn n r ok c us l, fin r -> 0 <= V r <= bpow radix2 500 -> fin (fst c) -> fin (snd c) -> Rabs (V (fst c)) <= bpow radix2 1000 -> Rabs (V (snd c)) <= bpow radix2 1000 -> draws us ->
  uniform_circle64 burn n r ok c us = Some l ->
  length l = n /\ Forall (fun p => ok p = true /\ D p c <= V r * (1 + bpow radix2 (-51)) + bpow radix2 (-53) * (Rabs (V (fst c)) + Rabs (V (snd c))) + bpow radix2 (-536)) l.
Proof.
  intros burn n r ok c us l F R0 F1 F2 B1 B2 DR H. unfold uniform_circle64 in H. destruct (circle64 _ _ _ _ _ _ _ _) as [g|] eqn:E; [|discriminate]. inversion H; subst.
  destruct (circle_ok (S (length us)) burn n r ok c [] us g F R0 DR (Nat.le_0_l n) (Forall_nil _) E) as [L G]. split; [rewrite map_length; exact L|].
  apply Forall_forall. intros p P. apply in_map_iff in P. destruct P as (q & <- & Q). rewrite Forall_forall in G. destruct (G q Q) as (Fx & Fy & Bx & By & ID & OK). split; [exact OK|].
  pose proof (disc_ok r q F R0 Fx Fy Bx By ID) as S. destruct q as [x y]. destruct c as [cx cy]. cbn [fst snd] in *. set (X := V x) in *. set (Y := V y) in *.
  pose proof u_ge as U. assert (BB : 2 * bpow radix2 1000 <= bpow radix2 1023) by (change 2 with (bpow radix2 1); rewrite <- bpow_plus; apply bpow_le; lia).
  assert (B5 : bpow radix2 500 <= bpow radix2 1000) by (apply bpow_le; lia).
  assert (AX : Rabs (X + V cx) <= V r + Rabs (V cx)) by (eapply Rle_trans; [apply Rabs_triang|]; lra). assert (AY : Rabs (Y + V cy) <= V r + Rabs (V cy)) by (eapply Rle_trans; [apply Rabs_triang|]; lra).
  destruct (fadd_ok x cx Fx F1) as [_ PX]; [fold X; lra|]. destruct (fadd_ok y cy Fy F2) as [_ PY]; [fold Y; lra|]. fold X in PX. fold Y in PY.
  pose proof (rnd_plus_error X (V cx) (V_float _) (V_float _)) as EX. pose proof (rnd_plus_error Y (V cy) (V_float _) (V_float _)) as EY.
  unfold D, place64. cbn [fst snd]. rewrite PX, PY. set (ex := rnd (X + V cx) - (X + V cx)) in *. set (ey := rnd (Y + V cy) - (Y + V cy)) in *.
  replace (rnd (X + V cx) - V cx) with (X + ex) by (unfold ex; ring). replace (rnd (Y + V cy) - V cy) with (Y + ey) by (unfold ey; ring).
  eapply Rle_trans; [apply root_triangle|]. fold u. assert (U51 : bpow radix2 (-51) = 4 * u) by (unfold u; change (-51)%Z with (2 + -53)%Z; rewrite bpow_plus; reflexivity). rewrite U51.
  assert (u * Rabs (X + V cx) <= u * (V r + Rabs (V cx))) by (apply Rmult_le_compat_l; lra). assert (u * Rabs (Y + V cy) <= u * (V r + Rabs (V cy))) by (apply Rmult_le_compat_l; lra). lra.
Qed.
Print Assumptions C134_circle.

(** Findings: the upper end of a half-open interval can be drawn; a point of the disc of
    radius 3/4 about (2^52, 0) is at distance 1. *)
Theorem C134_ends_refuted :
  V (uniform64 (fint 1) (fdyadic (2 ^ 52 + 1) (-52)) (3 * 2 ^ 51)) = V (fdyadic (2 ^ 52 + 1) (-52)) /\
  exists p, uniform_circle64 1 1 (fdyadic 3 (-2)) (fun _ => true) (fint (2 ^ 52), fint 0) [(7 * 2 ^ 50)%Z; (2 ^ 52)%Z] = Some [p] /\
    V (fst p) = IZR (2 ^ 52) + 1 /\ V (snd p) = 0 /\ D p (fint (2 ^ 52), fint 0) = 1 /\ V (fdyadic 3 (-2)) = 3 / 4.
Proof.
  split; [f_equal; apply B2SF_inj; vm_compute; reflexivity|].
  destruct (fint_ok (2 ^ 52 + 1)) as [_ V1]; [lia|]. destruct (fint_ok 0) as [_ V0]; [lia|]. destruct (fint_ok (2 ^ 52)) as [_ V2]; [lia|].
  set (r := fdyadic 3 (-2)). set (c := (fint (2 ^ 52), fint 0)).
  set (q := (uniform64 (fneg r) r (7 * 2 ^ 50), uniform64 (fneg r) r (2 ^ 52))).
  assert (E : uniform_circle64 1 1 r (fun _ => true) c [(7 * 2 ^ 50)%Z; (2 ^ 52)%Z] = Some [place64 c q]).
  { unfold uniform_circle64. cbn [length circle64 Nat.ltb Nat.leb Nat.mul Nat.add firstn skipn Nat.sub]. unfold offsets64. cbn [map combine filter]. fold q.
    assert (T : in_disc64 r q = true) by (vm_compute; reflexivity). rewrite T. reflexivity. }
  assert (PX : fst (place64 c q) = fint (2 ^ 52 + 1)) by (apply B2SF_inj; vm_compute; reflexivity).
  assert (PY : V (snd (place64 c q)) = 0) by (rewrite <- V0; f_equal; apply B2SF_inj; vm_compute; reflexivity).
  exists (place64 c q). split; [exact E|]. rewrite PX, V1, plus_IZR. split; [reflexivity|]. split; [exact PY|]. split.
  - unfold D. rewrite PX, PY, V1. unfold c. cbn [fst snd]. rewrite V2, V0, plus_IZR. replace ((IZR (2 ^ 52) + 1 - IZR (2 ^ 52)) ^ 2 + (0 - 0) ^ 2) with 1 by ring. apply sqrt_1.
  - destruct (fdyadic_ok 3 (-2)) as [_ R]; [|unfold r; rewrite R, rnd_id; [cbn; lra|apply float_dyadic; lia]].
    change (bpow radix2 (-2)) with (/ 4). rewrite Rabs_pos_eq by lra. apply Rle_trans with (bpow radix2 0); [change (bpow radix2 0) with 1; lra|apply bpow_le; lia].
Qed.
Print Assumptions C134_ends_refuted.

(** Halves and quarters of a box; a rejected candidate; two points in a disc, the first candidate outside. *)
Example C134_case :
  let b := mkbox64 (fint (-2)) (fint 10) (fint 2) (fint 14) in
  let h := (2 ^ 52)%Z in let q := (2 ^ 51)%Z in
  option_map (fun x => (map (map (fun p => (B2SF (fst p), B2SF (snd p)))) (fst x), snd x)) (poisson64 b (contains64 b) 1 2 [h; q; q; 0; 7]%Z)
    = Some ([[(B2SF (fint 0), B2SF (fint 11))]; [(B2SF (fint (-1)), B2SF (fint 10))]], [7%Z]) /\
  option_map (fun x => (map (map (fun p => (B2SF (fst p), B2SF (snd p)))) (fst x), snd x)) (poisson64 b (fun p => fle (fint 0) (fst p)) 1 1 [q; q; h; 0; 7]%Z)
    = Some ([[(B2SF (fint 0), B2SF (fint 10))]], [7%Z]) /\
  option_map (map (fun p => (B2SF (fst p), B2SF (snd p)))) (uniform_circle64 2 2 (fint 4) (fun _ => true) (fint 100, fint 200) [0; h; q; h; 0; h; h; q]%Z)
    = Some [(B2SF (fint 100), B2SF (fint 200)); (B2SF (fint 98), B2SF (fint 200))].
Proof. cbv zeta. repeat split; vm_compute; reflexivity. Qed.
