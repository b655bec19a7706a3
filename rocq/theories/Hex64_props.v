(** C103, C104: hexagonal quadrats on binary64. *)
From Coq Require Import Reals ZArith List Bool Lia Lra.
From Flocq Require Import Core BinarySingleNaN.
From Verif Require Import Base BaseLemmas Float_model Float_proofs F64_model F64_proofs Hex64_model Hex64_proofs Hex64_grid Quadrat_model Hexagon_grid.
Import ListNotations.
Local Open Scope R_scope.

(** ** Specification *)
(** [W] bounds the coordinates and the side of the hexagons. *)
Definition inputs (cos6 lh : f64) (pts : list fpt) (W : R) : Prop :=
  pts <> [] /\ (forall p, In p pts -> fin (fst p) /\ fin (snd p) /\ Rabs (V (fst p)) <= W /\ Rabs (V (snd p)) <= W) /\
  fin lh /\ bpow radix2 (-1000) <= V lh <= W /\ W <= bpow radix2 1000 /\ fin cos6 /\ / 2 <= V cos6 <= 1.
(** [lo] and [hi] are the smallest and largest value of a coordinate. *)
Definition range (coord : fpt -> f64) (pts : list fpt) (lo hi : R) : Prop :=
  (exists a, In a pts /\ V (coord a) = lo) /\ (exists b, In b pts /\ V (coord b) = hi) /\ forall p, In p pts -> lo <= V (coord p) <= hi.
(** A length more than [eta] away from all multiples of a step. *)
Definition off_grid (len step eta : R) : Prop := forall k : Z, eta < Rabs (len - IZR k * step).
(** The hexagon with centre (X, Y), side [l] and half height [H], enlarged by [tol]. *)
Definition in_hexagon_upto (tol l H X Y x y : R) : Prop :=
  Rabs (y - Y) <= H + tol /\ H / (l / 2) * Rabs (x - X) + Rabs (y - Y) <= 2 * H + tol.

Lemma range_box : forall cos6 lh pts W x0 x1 y0 y1, inputs cos6 lh pts W -> range fst pts x0 x1 -> range snd pts y0 y1 ->
  V (fminimum (map fst pts)) = x0 /\ V (fmaximum (map fst pts)) = x1 /\ V (fminimum (map snd pts)) = y0 /\ V (fmaximum (map snd pts)) = y1.
Proof.
  assert (K : forall (coord : fpt -> f64) pts lo hi, pts <> [] -> (forall p, In p pts -> fin (coord p)) -> range coord pts lo hi ->
    V (fminimum (map coord pts)) = lo /\ V (fmaximum (map coord pts)) = hi).
  { intros coord pts lo hi NE F ((a & Ia & Ea) & (b & Ib & Eb) & B).
    assert (N : map coord pts <> []) by (intro H; apply map_eq_nil in H; contradiction).
    assert (FF : Forall fin (map coord pts)) by (apply Forall_forall; intros x H; apply in_map_iff in H; destruct H as (p & <- & Hp); auto).
    destruct (fminimum_ok _ N FF) as [I1 L1]. destruct (fmaximum_ok _ N FF) as [I2 L2].
    specialize (L1 (coord a) (in_map coord _ _ Ia)). specialize (L2 (coord b) (in_map coord _ _ Ib)).
    apply in_map_iff in I1. destruct I1 as (p & E1 & Ip). apply in_map_iff in I2. destruct I2 as (q & E2 & Iq).
    pose proof (B p Ip). pose proof (B q Iq). rewrite <- E1 in *. rewrite <- E2 in *. lra. }
  intros cos6 lh pts W x0 x1 y0 y1 (NE & F & _) RX RY.
  destruct (K fst pts x0 x1 NE ltac:(intros p Hp; apply (F p Hp)) RX) as [A B]. destruct (K snd pts y0 y1 NE ltac:(intros p Hp; apply (F p Hp)) RY) as [C D]. auto.
Qed.

(** ** C103: the counts, whatever the rounding, when the extents keep clear of the grid *)
Theorem C103_counts : forall cos6 lh pts W x0 x1 y0 y1, inputs cos6 lh pts W -> range fst pts x0 x1 -> range snd pts y0 y1 ->
  let side := V lh / 2 in let half := V (fmul lh cos6) in
  off_grid (x1 - x0) side (bpow radix2 (-48) * W) -> off_grid (y1 - y0) half (bpow radix2 (-48) * W) ->
  let D := Zfloor ((x1 - x0) / side) in let E := Zfloor ((y1 - y0) / half) in
  exists h d, hex64_init cos6 pts lh = Ok h /\ hex64_location_sta h = Ok d /\
    (h6_cols h = 1 + (D + 2) / 3 /\ h6_even h = 1 + (E + 1) / 2 /\ h6_odd h = 1 + E / 2)%Z /\
    NoDup (dkeys d) /\ Zsum (dvals d) = Z.of_nat (List.length pts) /\
    (forall k, In k (dkeys d) <-> exists c r, (0 <= c < h6_cols h /\ 0 <= r < (if Z.even c then h6_even h else h6_odd h) /\ k = c + r * h6_cols h)%Z) /\
    (forall k v, dget d k = Some v -> v = Z.of_nat (count (fun p => match hex64_cell_id h p with Ok j => (k =? j)%Z | Raise _ => false end) pts)).
Proof.
  intros cos6 lh pts W x0 x1 y0 y1 I RX RY side half MX MY D E. destruct (range_box _ _ _ _ _ _ _ _ I RX RY) as (E1 & E2 & E3 & E4).
  destruct I as (NE & F & Fl & [Llo Lhi] & Wh & Fc & Cs).
  assert (S0 : 0 < side) by (unfold side; pose proof (bpow_gt_0 radix2 (-1000)); lra).
  assert (Ws : W <= bpow radix2 48 * side).
  { pose proof (clear_gap (x1 - x0) side (bpow radix2 (-48) * W) S0 MX) as G. apply Rmult_le_reg_l with (bpow radix2 (-48)); [apply bpow_gt_0|].
    rewrite <- Rmult_assoc, <- bpow_plus. change (bpow radix2 (-48 + 48)) with 1. lra. }
  assert (EPS : bpow radix2 (-48) * W = 32 * (u * W)).
  { unfold u. change 32 with (bpow radix2 5). rewrite <- Rmult_assoc, <- bpow_plus. reflexivity. }
  unfold off_grid in MX, MY. rewrite EPS in MX, MY. rewrite <- E1, <- E2 in MX. rewrite <- E3, <- E4 in MY.
  pose proof (init_ok cos6 lh W Fl Fc Llo Lhi Wh Cs Ws pts NE F MX MY) as IO. pose proof (counted cos6 lh W Fl Fc Llo Lhi Wh Cs Ws pts NE F MX MY) as CO.
  destruct (extents_ok cos6 lh W Fl Fc Llo Lhi Wh Cs Ws pts NE F) as (_ & _ & _ & _ & D0 & E0).
  rewrite E1, E2, E3, E4 in IO. rewrite E1, E2, E3, E4 in CO. rewrite E1, E2 in D0. rewrite E3, E4 in E0. fold side half D E in IO, CO, D0, E0. cbv zeta in CO.
  set (h := mkhex64 pts (fminimum (map fst pts)) (fminimum (map snd pts)) lh (fmul lh cos6) (1 + (D + 2) / 3) (1 + (E + 1) / 2) (1 + E / 2)) in *.
  destruct CO as (d & C1 & C2 & C3 & C4). exists h, d. split; [exact IO|]. split; [exact C1|]. split; [split; [|split]; reflexivity|].
  set (q0 := QArith_base.inject_Z 0). set (h' := mkhex [] (mkbox q0 q0 q0 q0) q0 q0 (h6_cols h) (h6_even h) (h6_odd h) 0).
  assert (HK : hex64_keys h = hex_keys h') by reflexivity. rewrite C2, HK.
  split; [apply hex_keys_nodup|]. split; [exact C3|]. split; [|exact C4].
  intro k. unfold hex_keys. rewrite in_flat_map.
  assert (EO : ((E + 1) / 2 = E / 2 \/ (E + 1) / 2 = E / 2 + 1)%Z).
  { pose proof (Z.div_mod E 2 ltac:(lia)) as M1. pose proof (Z.mod_pos_bound E 2 eq_refl) as M2. pose proof (Z.div_mod (E + 1) 2 ltac:(lia)) as M3. pose proof (Z.mod_pos_bound (E + 1) 2 eq_refl) as M4. lia. }
  assert (ODD : forall c, (c mod 2 =? 1)%Z = negb (Z.even c)) by (intro c; rewrite Zmod_even; destruct (Z.even c); reflexivity).
  change (hx_cols h') with (h6_cols h). change (hx_even h') with (h6_even h). change (hx_odd h') with (h6_odd h).
  assert (V1 : h6_even h = (1 + (E + 1) / 2)%Z) by reflexivity. assert (V2 : h6_odd h = (1 + E / 2)%Z) by reflexivity. split.
  - intros (r & Hr & Hk). apply in_zrange in Hr. apply in_map_iff in Hk. destruct Hk as (c & <- & Hc). apply filter_In in Hc. destruct Hc as [Hc Hf]. apply in_zrange in Hc.
    exists c, r. split; [exact Hc|]. split; [|reflexivity]. rewrite ODD in Hf. destruct (Z.even c); [exact Hr|].
    apply negb_true_iff in Hf. cbn [negb] in Hf. rewrite andb_true_r in Hf. apply andb_false_iff in Hf. destruct Hf as [Hf|Hf].
    + apply negb_false_iff, Z.eqb_eq in Hf. lia.
    + apply Z.eqb_neq in Hf. lia.
  - intros (c & r & Hc & Hr & ->). exists r. rewrite in_zrange. split; [destruct (Z.even c); lia|]. apply in_map_iff. exists c. split; [reflexivity|].
    apply filter_In. split; [apply in_zrange; exact Hc|]. rewrite ODD. destruct (Z.even c); cbn [negb]; [rewrite andb_false_r; reflexivity|]. rewrite andb_true_r.
    apply negb_true_iff, andb_false_iff. destruct (Z.eq_dec (h6_even h) (h6_odd h)) as [Q|Q]; [left; apply negb_false_iff, Z.eqb_eq; exact Q|right; apply Z.eqb_neq; lia].
Qed.
Print Assumptions C103_counts.

(** cos(pi/6) as computed by C's libm. *)
Definition cos30 : f64 := fdyadic 0x1bb67ae8584cab (-53).
Lemma int_dyadic : forall m e, (Z.abs m <= 2 ^ 53)%Z -> (-1074 <= e <= 900)%Z -> fin (fdyadic m e) /\ V (fdyadic m e) = IZR m * bpow radix2 e.
Proof.
  intros m e M E. destruct (fdyadic_ok m e) as [A B].
  - rewrite Rabs_mult, (Rabs_pos_eq (bpow radix2 e)), <- abs_IZR by apply bpow_ge_0. apply Rle_trans with (bpow radix2 53 * bpow radix2 e).
    + apply Rmult_le_compat_r; [apply bpow_ge_0|]. rewrite <- IZR_pow2 by lia. apply IZR_le. exact M.
    + rewrite <- bpow_plus. apply bpow_le. lia.
  - split; [exact A|]. rewrite B. apply rnd_id. destruct (Z.eq_dec (Z.abs m) (2 ^ 53)) as [Q|Q].
    + assert (X : IZR m * bpow radix2 e = (if (m <? 0)%Z then - bpow radix2 (53 + e) else bpow radix2 (53 + e))).
      { rewrite bpow_plus, <- (IZR_pow2 53) by lia. destruct (Z.ltb_spec m 0).
        - replace m with (- 2 ^ 53)%Z by lia. rewrite opp_IZR. ring.
        - replace m with (2 ^ 53)%Z by lia. ring. }
      rewrite X. assert (G : isfloat (bpow radix2 (53 + e))) by (apply generic_format_bpow; unfold fexp64, FLT_exp; lia).
      destruct (m <? 0)%Z; [apply generic_format_opp|]; exact G.
    + apply generic_format_FLT. exists (Float radix2 m e); cbn [Fnum Fexp]; [reflexivity|change (radix2 ^ 53)%Z with (2 ^ 53)%Z; lia|lia].
Qed.

(** The extents 9/4 x y keep clear of all multiples of the half lengths, but only by one
    unit in the last place: the point (0, y) is put into a row the grid does not have. *)
Theorem C103_key_error_refuted : exists lh pts y, V lh = 1 /\ range fst pts 0 (9 / 4) /\ range snd pts 0 y /\
  off_grid (9 / 4) (V lh / 2) 0 /\ off_grid y (V (fmul lh cos30)) 0 /\ 2 * V (fmul lh cos30) < y < 3 * V (fmul lh cos30) /\
  exists h, hex64_init cos30 pts lh = Ok h /\ hex64_location_sta h = Raise KeyError.
Proof.
  set (top := fdyadic 0x14c8dc2e423980 (-51)). set (right := fdyadic 9 (-2)).
  destruct (int_dyadic 0x14c8dc2e423980 (-51)) as [FT VT]; [lia|lia|]. fold top in FT, VT.
  destruct (int_dyadic 9 (-2)) as [FR VR]; [lia|lia|]. fold right in FR, VR. destruct (int_dyadic 0x1bb67ae8584cab (-53)) as [FC VC]; [lia|lia|]. fold cos30 in FC, VC.
  destruct (fint_ok 0) as [F0 V0]; [lia|]. destruct (fint_ok 1) as [F1 V1]; [lia|].
  assert (P : bpow radix2 (-51) = 4 * bpow radix2 (-53)) by (change 4 with (bpow radix2 2); rewrite <- bpow_plus; reflexivity).
  pose proof (bpow_gt_0 radix2 (-53)) as P0.
  assert (R94 : V right = 9 / 4) by (rewrite VR; change (bpow radix2 (-2)) with (/ 4); lra).
  assert (P1 : bpow radix2 53 * bpow radix2 (-53) = 1) by (rewrite <- bpow_plus; reflexivity). rewrite <- IZR_pow2 in P1 by lia. change (2 ^ 53)%Z with 9007199254740992%Z in P1.
  assert (SH : V (fmul (fint 1) cos30) = IZR 0x1bb67ae8584cab * bpow radix2 (-53)).
  { destruct (fmul_ok (fint 1) cos30 F1 FC) as [_ X].
    - rewrite V1, VC, Rmult_1_l, Rabs_pos_eq by lra. apply Rle_trans with 1; [lra|]. change 1 with (bpow radix2 0). apply bpow_le. lia.
    - rewrite X, V1, Rmult_1_l, rnd_id by apply V_float. exact VC. }
  assert (B : 2 * V (fmul (fint 1) cos30) < V top < 3 * V (fmul (fint 1) cos30)).
  { rewrite SH, VT, P. split; lra. }
  exists (fint 1), [(fint 0, fint 0); (right, fint 1); (fint 0, top)], (V top). split; [exact V1|].
  assert (T1 : 1 <= V top) by (rewrite VT, P; lra).
  split; [|split].
  - split; [|split].
    + exists (fint 0, fint 0). split; [left; reflexivity|exact V0].
    + exists (right, fint 1). split; [right; left; reflexivity|exact R94].
    + intros p [<-|[<-|[<-|[]]]]; cbn [fst snd]; rewrite ?V0, ?R94; lra.
  - split; [|split].
    + exists (fint 0, fint 0). split; [left; reflexivity|exact V0].
    + exists (fint 0, top). split; [right; right; left; reflexivity|reflexivity].
    + intros p [<-|[<-|[<-|[]]]]; cbn [fst snd]; rewrite ?V0, ?V1; lra.
  - split; [|split; [|split; [exact B|]]].
    + intro k. rewrite V1. apply Rabs_pos_lt. intro H. assert (Q : IZR (2 * k) = IZR 9) by (rewrite mult_IZR; lra). apply eq_IZR in Q. lia.
    + intro k. apply Rabs_pos_lt. intro H. set (t := V (fmul (fint 1) cos30)) in *. assert (T0 : 0 < t) by (rewrite SH; lra).
      assert (L1 : IZR 2 < IZR k) by (apply Rmult_lt_reg_r with t; lra). assert (L2 : IZR k < IZR 3) by (apply Rmult_lt_reg_r with t; lra).
      apply lt_IZR in L1, L2. lia.
    + assert (K : (let! h := hex64_init cos30 [(fint 0, fint 0); (right, fint 1); (fint 0, top)] (fint 1) in hex64_location_sta h) = Raise KeyError) by (vm_compute; reflexivity).
      assert (J : (let! h := hex64_init cos30 [(fint 0, fint 0); (right, fint 1); (fint 0, top)] (fint 1) in Ok tt) = Ok tt) by (vm_compute; reflexivity).
      destruct (hex64_init cos30 [(fint 0, fint 0); (right, fint 1); (fint 0, top)] (fint 1)) as [h|e]; [|discriminate].
      exists h. split; [reflexivity|exact K].
Qed.
Print Assumptions C103_key_error_refuted.

(** A concrete grid: sides 1, points in a 9/4 x 5/2 box. *)
Definition case_pts : list fpt := [(fint 0, fint 0); (fdyadic 9 (-2), fint 1); (fint 0, fdyadic 5 (-1))].
Example C103_case : exists h, hex64_init cos30 case_pts (fint 1) = Ok h /\ h6_cols h = 3%Z /\ h6_even h = 2%Z /\ h6_odd h = 2%Z /\
  hex64_location_sta h = Ok [(0, 1); (1, 1); (2, 0); (3, 1); (4, 0); (5, 0)]%Z.
Proof.
  assert (K : (let! h := hex64_init cos30 case_pts (fint 1) in let! d := hex64_location_sta h in Ok (h6_cols h, h6_even h, h6_odd h, d)) =
    Ok (3, 2, 2, [(0, 1); (1, 1); (2, 0); (3, 1); (4, 0); (5, 0)])%Z) by (vm_compute; reflexivity).
  destruct (hex64_init cos30 case_pts (fint 1)) as [h|e]; [|discriminate]. exists h. split; [reflexivity|]. cbn [bind] in K.
  destruct (hex64_location_sta h) as [d|e]; [|discriminate]. cbn [bind] in K. inversion K. auto.
Qed.
(** Its extents satisfy the hypotheses of the theorem with W = 4. *)
Example C103_case_hyp : inputs cos30 (fint 1) case_pts 4 /\ range fst case_pts 0 (9 / 4) /\ range snd case_pts 0 (5 / 2) /\
  off_grid (9 / 4 - 0) (V (fint 1) / 2) (bpow radix2 (-48) * 4) /\ off_grid (5 / 2 - 0) (V (fmul (fint 1) cos30)) (bpow radix2 (-48) * 4).
Proof.
  destruct (int_dyadic 5 (-1)) as [FT VT]; [lia|lia|]. change (bpow radix2 (-1)) with (/ 2) in VT.
  destruct (int_dyadic 9 (-2)) as [FR VR]; [lia|lia|]. change (bpow radix2 (-2)) with (/ 4) in VR.
  destruct (int_dyadic 0x1bb67ae8584cab (-53)) as [FC VC]; [lia|lia|]. fold cos30 in FC, VC.
  destruct (fint_ok 0) as [F0 V0]; [lia|]. destruct (fint_ok 1) as [F1 V1]; [lia|]. pose proof (bpow_gt_0 radix2 (-53)) as P0.
  assert (P1 : bpow radix2 53 * bpow radix2 (-53) = 1) by (rewrite <- bpow_plus; reflexivity). rewrite <- IZR_pow2 in P1 by lia. change (2 ^ 53)%Z with 9007199254740992%Z in P1.
  assert (SH : V (fmul (fint 1) cos30) = IZR 0x1bb67ae8584cab * bpow radix2 (-53)).
  { destruct (fmul_ok (fint 1) cos30 F1 FC) as [_ X].
    - rewrite V1, VC, Rmult_1_l, Rabs_pos_eq by lra. apply Rle_trans with 1; [lra|]. change 1 with (bpow radix2 0). apply bpow_le. lia.
    - rewrite X, V1, Rmult_1_l, rnd_id by apply V_float. exact VC. }
  assert (ETA : bpow radix2 (-48) * 4 <= / 1024).
  { change 4 with (bpow radix2 2). rewrite <- bpow_plus. change (/ 1024) with (bpow radix2 (-10)). apply bpow_le. lia. }
  unfold case_pts. split; [|split; [|split; [|split]]].
  - split; [discriminate|]. split.
    + intros p [<-|[<-|[<-|[]]]]; cbn [fst snd]; rewrite ?V0, ?V1, ?VT, ?VR; repeat split; auto; rewrite Rabs_pos_eq; lra.
    + split; [exact F1|]. rewrite V1. split; [split; [change 1 with (bpow radix2 0); apply bpow_le; lia|lra]|].
      split; [change 4 with (bpow radix2 2); apply bpow_le; lia|]. split; [exact FC|]. rewrite VC. lra.
  - split; [|split].
    + exists (fint 0, fint 0). split; [left; reflexivity|exact V0].
    + exists (fdyadic 9 (-2), fint 1). split; [right; left; reflexivity|cbn [fst]; rewrite VR; lra].
    + intros p [<-|[<-|[<-|[]]]]; cbn [fst snd]; rewrite ?V0, ?VR; lra.
  - split; [|split].
    + exists (fint 0, fint 0). split; [left; reflexivity|exact V0].
    + exists (fint 0, fdyadic 5 (-1)). split; [right; right; left; reflexivity|cbn [snd]; rewrite VT; lra].
    + intros p [<-|[<-|[<-|[]]]]; cbn [fst snd]; rewrite ?V0, ?V1, ?VT; lra.
  - intro k. rewrite V1. apply Rle_lt_trans with (1 := ETA). destruct (Z_le_gt_dec k 4) as [L|L].
    + apply IZR_le in L. rewrite Rabs_pos_eq; lra.
    + assert (L' : (5 <= k)%Z) by lia. apply IZR_le in L'. rewrite Rabs_left1; lra.
  - intro k. rewrite SH. apply Rle_lt_trans with (1 := ETA). set (t := IZR 0x1bb67ae8584cab * bpow radix2 (-53)). assert (T : 86 / 100 < t < 87 / 100) by (unfold t; lra).
    destruct (Z_le_gt_dec k 2) as [L|L].
    + apply IZR_le in L. assert (IZR k * t <= 2 * t) by (apply Rmult_le_compat_r; lra). rewrite Rabs_pos_eq; lra.
    + assert (L' : (3 <= k)%Z) by lia. apply IZR_le in L'. assert (3 * t <= IZR k * t) by (apply Rmult_le_compat_r; lra). rewrite Rabs_left1; lra.
Qed.

(** ** C104: a point is counted in a hexagon that contains it up to rounding *)
Theorem C104_containing : forall cos6 lh pts W x0 x1 y0 y1 p, inputs cos6 lh pts W -> range fst pts x0 x1 -> range snd pts y0 y1 ->
  bpow radix2 (-400) <= V lh -> W <= bpow radix2 400 -> W <= bpow radix2 35 * V lh -> In p pts ->
  exists h c r, hex64_init cos6 pts lh = Ok h /\ hex64_cell h p = Ok (c, r) /\ (0 <= c)%Z /\ (0 <= r)%Z /\
    in_hexagon_upto (bpow radix2 (-40) * (W * W / V lh)) (V lh) (V (fmul lh cos6))
      (x0 + IZR (3 * c) * (V lh / 2)) (y0 + IZR (2 * r + c mod 2) * V (fmul lh cos6)) (V (fst p)) (V (snd p)).
Proof.
  intros cos6 lh pts W x0 x1 y0 y1 p I RX RY L4 W4 W35 Hp. destruct (range_box _ _ _ _ _ _ _ _ I RX RY) as (E1 & E2 & E3 & E4).
  destruct I as (NE & F & Fl & [Llo Lhi] & Wh & Fc & Cs). pose proof (bpow_gt_0 radix2 (-400)) as P4.
  assert (W36 : W <= bpow radix2 36 * (V lh / 2)). { change 36%Z with (35 + 1)%Z. rewrite bpow_plus. change (bpow radix2 1) with 2. lra. }
  assert (W48 : W <= bpow radix2 48 * (V lh / 2)).
  { apply Rle_trans with (1 := W36). apply Rmult_le_compat_r; [lra|]. apply bpow_le. lia. }
  destruct (init_total cos6 lh W Fl Fc Llo Lhi Wh Cs W48 pts NE F) as (cols & even & odd & IO).
  destruct (placed cos6 lh W Fl Fc Llo Lhi Wh Cs W48 pts NE F L4 W4 W36 p cols even odd Hp) as (c & r & C1 & C2 & C3 & C4 & C5).
  eexists. exists c, r. split; [exact IO|]. split; [exact C1|]. split; [exact C2|]. split; [exact C3|]. rewrite <- E1, <- E3.
  replace (bpow radix2 (-40) * (W * W / V lh)) with (4096 * (u * W * W / (V lh / 2))); [split; assumption|].
  replace (bpow radix2 (-40)) with (8192 * u); [field; lra|]. unfold u. change 8192 with (bpow radix2 13). rewrite <- bpow_plus. reflexivity.
Qed.
Print Assumptions C104_containing.
(** The point (9/4, 1) of the grid above, in column 1, row 0 with centre (3/2, 0.866). *)
Example C104_case : exists h, hex64_init cos30 case_pts (fint 1) = Ok h /\ map (hex64_cell h) case_pts = [Ok (0, 0); Ok (1, 0); Ok (0, 1)]%Z.
Proof.
  assert (K : (let! h := hex64_init cos30 case_pts (fint 1) in Ok (map (hex64_cell h) case_pts)) = Ok [Ok (0, 0); Ok (1, 0); Ok (0, 1)]%Z) by (vm_compute; reflexivity).
  destruct (hex64_init cos30 case_pts (fint 1)) as [h|e]; [|discriminate]. exists h. split; [reflexivity|]. cbn [bind] in K. inversion K. reflexivity.
Qed.
