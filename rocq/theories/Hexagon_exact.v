(** What the hexagonal quadrat count does for every extent, generic or not. *)
From Coq Require Import ZArith QArith Qround Qminmax Qabs List Bool Lia Lqa Setoid Morphisms.
From Verif Require Import Base BaseLemmas Spec Quadrat_model Quadrat_spec Quadrat_proofs Hexagon_proofs Hexagon_grid.
Import ListNotations.
Local Open Scope Q_scope.

(** The hexagon in column [cx] and row [cy] owns the point. *)
Definition Owns (h : hexM) (cx cy : Z) (p : pt) : Prop :=
  owned_by (hx_l h) (hx_sh h) (hex_ctr (hx_l h) (hx_sh h) (bxmin (hx_mbb h)) (bymin (hx_mbb h)) cx cy) p.
Definition rows_of (h : hexM) (cx : Z) : Z := if (cx mod 2 =? 0)%Z then hx_even h else hx_odd h.
Definition Drawn (h : hexM) (cx cy : Z) : Prop := (0 <= cx < hx_cols h)%Z /\ (0 <= cy < rows_of h cx)%Z.

Section Exact.
Variables (pts : list pt) (l s : Q) (h : hexM).
Hypothesis H : hex_init pts l s = Ok h.
Hypothesis Hl : 0 < l.
Hypothesis Hs : 0 < s.

Lemma in_bounds : forall p, In p pts ->
  bxmin (hx_mbb h) <= fst p <= bxmax (hx_mbb h) /\ bymin (hx_mbb h) <= snd p <= bymax (hx_mbb h).
Proof.
  intros p Hp. destruct (hex_init_inv _ _ _ _ H) as [_ [_ [_ [Hb _]]]].
  destruct (compute_mbb_tight _ _ Hb) as [_ [[Tx _] [Ty _]]]. auto.
Qed.
Lemma owner : forall p, In p pts -> forall cx cy, Owns h cx cy p <-> hex_cell h p = (cx, cy).
Proof.
  intros p Hp cx cy. destruct (in_bounds p Hp) as [[X _] [Y _]]. destruct (hex_init_inv _ _ _ _ H) as [_ [El [Es _]]].
  unfold Owns. apply (hex_cell_owner h p); auto; rewrite ?El, ?Es; auto.
Qed.
Lemma cols_pos : (1 <= hx_cols h)%Z /\ bxmax (hx_mbb h) - bxmin (hx_mbb h) <= (3 * inject_Z (hx_cols h - 1) + 1) * (l / 2).
Proof.
  destruct (hex_init_inv _ _ _ _ H) as [_ [_ [_ [_ [Hc _]]]]]. cbv zeta in Hc.
  set (rx := bxmax (hx_mbb h) - bxmin (hx_mbb h)) in *. assert (EL : l / 2 == l * (1#2)) by field.
  rewrite Hc. destruct (Qltb (l / 2) rx) eqn:E; qb.
  - replace (1 + Qceiling ((rx - l / 2) / ((3 # 2) * l)) - 1)%Z with (Qceiling ((rx - l / 2) / ((3 # 2) * l))) by lia.
    destruct (Qceiling_bounds ((rx - l / 2) / ((3 # 2) * l))) as [B1 B2]. set (z := Qceiling _) in *.
    assert (P : 0 <= (rx - l / 2) / ((3 # 2) * l)) by (apply Qdiv_nonneg; lra).
    assert (-1 < z)%Z by (apply inject_Z_lt_inv; change (inject_Z (-1)) with (-1); lra). split; [lia|].
    apply Qdiv_le_mul in B2; [|lra]. rewrite EL in *. lra.
  - split; [lia|]. change (inject_Z (1 + 0 - 1)) with 0. lra.
Qed.
Lemma rows_top : forall cx, let ry := bymax (hx_mbb h) - bymin (hx_mbb h) in
  ((cx mod 2 =? 0)%Z = true -> ry <= (2 * inject_Z (rows_of h cx) - 1) * s) /\
  ((cx mod 2 =? 0)%Z = false -> ry <= 2 * inject_Z (rows_of h cx) * s).
Proof.
  intros cx ry. destruct (hex_init_inv _ _ _ _ H) as [_ [_ [_ [_ [_ [He [Ho _]]]]]]]. cbv zeta in He, Ho. fold ry in He, Ho.
  unfold rows_of. split; intros ->.
  - rewrite He. destruct (Qltb s ry) eqn:E; qb.
    + destruct (Qceiling_bounds ((ry - s) / (2 * s))) as [B1 B2]. apply Qdiv_le_mul in B2; [|lra].
      rewrite inject_Z_plus. change (inject_Z 1) with 1. lra.
    + change (inject_Z (1 + 0)) with 1. lra.
  - rewrite Ho. destruct (Qceiling_bounds (ry / (2 * s))) as [B1 B2]. apply Qdiv_le_mul in B2; [|lra]. lra.
Qed.

(** Where the hexagon of a point of the pattern can be. *)
Lemma cell_place : forall p, In p pts -> forall cx cy, hex_cell h p = (cx, cy) ->
  let c := hex_ctr l s (bxmin (hx_mbb h)) (bymin (hx_mbb h)) cx cy in
  Drawn h cx cy \/
  (((0 <= cx < hx_cols h)%Z /\ cy = rows_of h cx) /\ snd p == bymax (hx_mbb h) /\ snd p == snd c - s) \/
  (cx = hx_cols h /\ (0 <= cy <= rows_of h cx)%Z /\ fst p == bxmax (hx_mbb h) /\ fst p == fst c - l /\ snd p == snd c).
Proof.
  intros p Hp cx cy E c. destruct (in_bounds p Hp) as [[X0 X1] [Y0 Y1]].
  destruct (hex_init_inv _ _ _ _ H) as [_ [El [Es _]]].
  assert (Hl' : 0 < hx_l h) by (rewrite El; auto). assert (Hs' : 0 < hx_sh h) by (rewrite Es; auto).
  assert (Ha : 0 < l / 2) by (apply Qdiv_pos; lra).
  destruct cols_pos as [C1 C2]. pose proof (rows_top cx) as [RT1 RT2].
  pose proof (row_of_bounds h p Hs' Y0 cx) as [R0 [R1 R2]]. rewrite Es in R1, R2.
  assert (Er : cy = row_of h p cx).
  { pose proof (hex_cell_row h p Hl' Hs' Y0) as R. rewrite E in R. exact R. }
  rewrite <- Er in R0, R1, R2.
  set (t := (snd p - bymin (hx_mbb h)) / (2 * s)) in *.
  assert (Et : snd p == bymin (hx_mbb h) + t * (2 * s)) by (unfold t; field; lra).
  (* rows *)
  assert (RB : (cy <= rows_of h cx)%Z /\ (cy = rows_of h cx -> snd p == bymax (hx_mbb h) /\ snd p == snd c - s)).
  { unfold c, hex_ctr. cbn [snd]. rewrite mod2. destruct (cx mod 2 =? 0)%Z; cbn [negb].
    - specialize (R1 eq_refl). specialize (RT1 eq_refl).
      assert (T : t + (1#2) <= inject_Z (rows_of h cx)).
      { apply Qnot_lt_le. intro L. assert ((inject_Z (rows_of h cx) - (1#2)) * (2 * s) < t * (2 * s)) by (apply Qmult_lt_compat_r; lra). lra. }
      split; [apply inject_Z_le_inv; lra|]. intros Ec. rewrite <- Ec in T, RT1.
      assert (TT : t == inject_Z cy - (1#2)) by lra. rewrite TT in Et. split; lra.
    - specialize (R2 eq_refl). specialize (RT2 eq_refl).
      assert (T : t <= inject_Z (rows_of h cx)).
      { apply Qnot_lt_le. intro L. assert (inject_Z (rows_of h cx) * (2 * s) < t * (2 * s)) by (apply Qmult_lt_compat_r; lra). lra. }
      split; [apply inject_Z_le_inv; lra|]. intros Ec. rewrite <- Ec in T, RT2.
      assert (TT : t == inject_Z cy) by lra. rewrite TT in Et. split; lra. }
  (* columns *)
  set (u := (fst p - bxmin (hx_mbb h)) / (l / 2)).
  assert (Eu : fst p == bxmin (hx_mbb h) + u * (l / 2)) by (unfold u; field; lra).
  set (um := (bxmax (hx_mbb h) - bxmin (hx_mbb h)) / (l / 2)).
  assert (Eum : bxmax (hx_mbb h) == bxmin (hx_mbb h) + um * (l / 2)) by (unfold um; field; lra).
  assert (U1 : u <= um).
  { apply Qnot_lt_le. intro L. assert (um * (l / 2) < u * (l / 2)) by (apply Qmult_lt_compat_r; auto). lra. }
  assert (U2 : um <= 3 * inject_Z (hx_cols h - 1) + 1).
  { apply Qnot_lt_le. intro L. assert ((3 * inject_Z (hx_cols h - 1) + 1) * (l / 2) < um * (l / 2)) by (apply Qmult_lt_compat_r; auto). lra. }
  pose proof (hex_cell_col_weak h p Hl' Hs' X0 Y0) as CW. cbv zeta in CW. rewrite El, Es in CW. specialize (CW um (hx_cols h - 1)%Z U1 U2).
  rewrite E in CW. cbn [fst] in CW. replace (hx_cols h - 1 + 1)%Z with (hx_cols h) in CW by lia.
  destruct CW as [CW1 CW2]. destruct RB as [RB1 RB2].
  assert (K : cx = hx_cols h \/ (0 <= cx < hx_cols h)%Z) by lia. destruct K as [K|K].
  - right. right. split; auto. split; [lia|]. destruct (CW2 K) as [V1 [V2 V3]]. fold u in V1, V2. fold t in V3.
    split; [rewrite Eu, Eum, V2; reflexivity|]. split.
    + unfold c, hex_ctr. cbn [fst]. rewrite Eu, V1, K. 
      assert (I : inject_Z (hx_cols h) == inject_Z (hx_cols h - 1) + 1).
      { rewrite <- inject_Z_succ. replace (hx_cols h - 1 + 1)%Z with (hx_cols h) by lia. reflexivity. }
      rewrite I. field.
    + pose proof (abs_next h p (hx_cols h - 1)) as AN. cbv zeta in AN. rewrite Es in AN. fold t in AN. 
      replace (hx_cols h - 1 + 1)%Z with (hx_cols h) in AN by lia. rewrite V3 in AN at 2.
      assert (Z1 : Qabs (tc h p (hx_cols h - 1) - (1 # 2) - tc h p (hx_cols h - 1)) == 1#2).
      { assert (Z2 : tc h p (hx_cols h - 1) - (1 # 2) - tc h p (hx_cols h - 1) == -(1#2)) by ring. rewrite Z2. reflexivity. }
      rewrite Z1 in AN. assert (Z3 : Qabs (t - tc h p cx) == 0) by (rewrite K, AN; ring).
      assert (Z4 : t == tc h p cx).
      { pose proof (Qle_Qabs (t - tc h p cx)) as B1. pose proof (Qle_Qabs (- (t - tc h p cx))) as B2. rewrite Qabs_opp in B2. lra. }
      pose proof (ctr_y h p cx) as CY. cbv zeta in CY. rewrite El, Es in CY. rewrite <- Er in CY. unfold c. rewrite CY, Et, Z4. reflexivity.
  - assert (L : (cy < rows_of h cx)%Z \/ cy = rows_of h cx) by lia. destruct L as [L|L].
    + left. split; [auto|lia].
    + right. left. split; auto.
Qed.

(** Which of these ids are keys. *)
Lemma key_iff : forall cx cy, (0 <= cx <= hx_cols h)%Z -> (0 <= cy <= rows_of h cx)%Z ->
  (In (cx + cy * hx_cols h)%Z (hex_keys h) <-> Drawn h cx cy \/ (cx = hx_cols h /\ (cy + 1 < hx_even h)%Z)).
Proof.
  intros cx cy Cx Cy. destruct cols_pos as [C1 _]. destruct (hex_rows_relation _ _ _ _ H Hs) as [R1 [R2 R3]].
  rewrite in_hex_keys. unfold Drawn, rows_of in *. split.
  - intros [i [j [I [J [N E]]]]]. destruct (Z.eq_dec cx (hx_cols h)) as [->|D].
    + right. split; auto. assert (X : (j = 0 /\ i = cy + 1)%Z) by (apply (hex_id_inj (hx_cols h)); nia). lia.
    + left. destruct (hex_id_inj (hx_cols h) cx cy j i) as [-> ->]; try lia. split; [lia|]. split; [lia|].
      assert (M := Z.mod_pos_bound j 2 eq_refl). destruct (Z.eqb_spec (j mod 2) 0); [lia|].
      destruct R1 as [R1|R1]; [lia|]. assert (j mod 2 = 1)%Z by lia. destruct (Z.eq_dec i (hx_even h - 1)); [|lia]. exfalso. apply N. lia.
  - intros [[D1 D2]|[-> D]].
    + exists cy, cx. assert (M := Z.mod_pos_bound cx 2 eq_refl). destruct (Z.eqb_spec (cx mod 2) 0) as [Z0|Z0];
        (split; [lia|]; split; [lia|]; split; [|reflexivity]); intros [A1 [A2 A3]]; lia.
    + exists (cy + 1)%Z, 0%Z. split; [lia|]. split; [lia|]. split; [|lia]. intros [_ [_ A]]. discriminate.
Qed.
End Exact.

(** ** C46 *)
(** Every point with coordinates beyond the lower left corner of the data belongs to
    exactly one half-open hexagon of the infinite pattern. *)
Theorem C46_owner_unique : forall pts l s h p, hex_init pts l s = Ok h -> 0 < l -> 0 < s ->
  bxmin (hx_mbb h) <= fst p -> bymin (hx_mbb h) <= snd p ->
  exists cx cy, Owns h cx cy p /\ (forall cx' cy', Owns h cx' cy' p -> cx' = cx /\ cy' = cy) /\
    in_ccw_polygon (hex_vertices h (hex_ctr l s (bxmin (hx_mbb h)) (bymin (hx_mbb h)) cx cy)) p.
Proof.
  intros pts l s h p H Hl Hs X Y. destruct (hex_init_inv _ _ _ _ H) as [_ [El [Es _]]].
  assert (Hl' : 0 < hx_l h) by (rewrite El; auto). assert (Hs' : 0 < hx_sh h) by (rewrite Es; auto).
  pose proof (hex_cell_owner h p Hl' Hs' Y) as O. cbv zeta in O.
  exists (fst (hex_cell h p)), (snd (hex_cell h p)). split; [apply O; apply surjective_pairing|]. split.
  - intros cx' cy' A. apply O in A. rewrite A. auto.
  - apply in_hex_polygon; auto. pose proof (hex_cell_contains h p Hl' Hs' X Y) as C. cbv zeta in C. rewrite El, Es in *. exact C.
Qed.
Print Assumptions C46_owner_unique.

(** The hexagon of a point is drawn, unless the point lies at the top of the data on
    the lower edge of a hexagon that is not drawn, or at the right end of the data in
    the left corner of one. *)
Theorem C46_places : forall pts l s h p cx cy, hex_init pts l s = Ok h -> 0 < l -> 0 < s -> In p pts -> Owns h cx cy p ->
  let c := hex_ctr l s (bxmin (hx_mbb h)) (bymin (hx_mbb h)) cx cy in
  Drawn h cx cy \/
  (((0 <= cx < hx_cols h)%Z /\ cy = rows_of h cx) /\ snd p == bymax (hx_mbb h) /\ snd p == snd c - s) \/
  (cx = hx_cols h /\ fst p == bxmax (hx_mbb h) /\ fst p == fst c - l /\ snd p == snd c).
Proof.
  intros pts l s h p cx cy H Hl Hs Hp O c. apply (owner pts l s h H Hl Hs p Hp) in O.
  destruct (cell_place pts l s h H Hl Hs p Hp cx cy O) as [A|[A|[A1 [A2 A3]]]]; auto.
Qed.
Print Assumptions C46_places.

Lemma foldM_dincr_fail : forall (f : pt -> Z) pts d, (exists p, In p pts /\ ~ In (f p) (dkeys d)) ->
  foldM (fun d p => dincr d (f p)) pts d = Raise KeyError.
Proof.
  intros f pts. induction pts as [|q pts IH]; intros d [p [Hp N]]; [destruct Hp|]. cbn [foldM].
  destruct (in_dec Z.eq_dec (f q) (dkeys d)) as [I|I].
  - destruct (dincr_ok d (f q) I) as [d' D]. destruct D as [D1 D2]. rewrite D1. cbn [bind]. apply IH.
    destruct Hp as [->|Hp]; [contradiction|]. exists p. split; auto. destruct D2 as [D2 _]. rewrite D2. auto.
  - rewrite (dincr_keyerror d (f q) I). reflexivity.
Qed.

(** The exact outcome for every pattern: KeyError iff some point lies on the upper border
    or in a right corner beyond the last row; otherwise every drawn hexagon is
    credited with the points it owns, and the first one of a row also with the right
    corner points of the row below. *)
Theorem C46_exact : forall pts l s h, hex_init pts l s = Ok h -> 0 < l -> 0 < s ->
  (hex_location_sta h = Raise KeyError <->
     exists p cx cy, In p pts /\ Owns h cx cy p /\
       (((0 <= cx < hx_cols h)%Z /\ cy = rows_of h cx) \/ (cx = hx_cols h /\ (hx_even h <= cy + 1)%Z))) /\
  (hex_location_sta h <> Raise KeyError -> exists d, hex_location_sta h = Ok d /\ dkeys d = hex_keys h /\
     Zsum (dvals d) = Z.of_nat (List.length pts) /\
     forall cx cy, Drawn h cx cy -> exists k, dget d (cx + cy * hx_cols h)%Z = Some (Z.of_nat k) /\
       Counts (fun p => Owns h cx cy p \/ (cx = 0%Z /\ Owns h (hx_cols h) (cy - 1) p)) pts k).
Proof.
  intros pts l s h H Hl Hs.
  pose proof (owner pts l s h H Hl Hs) as O. pose proof (cell_place pts l s h H Hl Hs) as P. pose proof (key_iff pts l s h H Hl Hs) as K.
  destruct (hex_init_inv _ _ _ _ H) as [Ep _]. destruct (cols_pos pts l s h H Hl) as [C1 _].
  assert (R : forall p, In p pts -> (0 <= fst (hex_cell h p) <= hx_cols h)%Z /\ (0 <= snd (hex_cell h p) <= rows_of h (fst (hex_cell h p)))%Z).
  { intros p Hp. destruct (hex_rows_relation _ _ _ _ H Hs) as [Q1 [Q2 Q3]].
    destruct (P p Hp _ _ (surjective_pairing _)) as [[A1 A2]|[[[A1 A2] _]|[A1 [A2 _]]]]; [lia| |lia].
    split; [lia|]. rewrite A2. unfold rows_of. destruct (_ =? 0)%Z; lia. }
  assert (KI : forall p, In p pts -> (In (hex_cell_id h p) (hex_keys h) <->
     Drawn h (fst (hex_cell h p)) (snd (hex_cell h p)) \/ (fst (hex_cell h p) = hx_cols h /\ (snd (hex_cell h p) + 1 < hx_even h)%Z))).
  { intros p Hp. destruct (R p Hp). unfold hex_cell_id. apply K; auto. }
  assert (BAD : (exists p, In p pts /\ ~ In (hex_cell_id h p) (hex_keys h)) <->
     exists p cx cy, In p pts /\ Owns h cx cy p /\
       (((0 <= cx < hx_cols h)%Z /\ cy = rows_of h cx) \/ (cx = hx_cols h /\ (hx_even h <= cy + 1)%Z))).
  { split.
    - intros [p [Hp N]]. rewrite (KI p Hp) in N. exists p, (fst (hex_cell h p)), (snd (hex_cell h p)). split; auto. split.
      + apply O; auto. apply surjective_pairing.
      + destruct (P p Hp _ _ (surjective_pairing _)) as [A|[[A _]|[A _]]]; [exfalso; tauto|auto|].
        right. split; auto. destruct (Z.lt_ge_cases (snd (hex_cell h p) + 1) (hx_even h)); [exfalso; tauto|auto].
    - intros [p [cx [cy [Hp [A B]]]]]. apply O in A; auto. exists p. split; auto. rewrite (KI p Hp), A. cbn [fst snd]. unfold Drawn.
      intros [X|X]; destruct B as [[B1 B2]|B]; lia. }
  assert (LOC : hex_location_sta h = foldM (fun d p => dincr d (hex_cell_id h p)) pts (map (fun k => (k, 0%Z)) (hex_keys h))).
  { unfold hex_location_sta. rewrite Ep. reflexivity. }
  assert (D : (exists p, In p pts /\ ~ In (hex_cell_id h p) (hex_keys h)) \/ (forall p, In p pts -> In (hex_cell_id h p) (hex_keys h))).
  { clear. induction pts as [|q pts IH]; [right; intros p []|].
    destruct (in_dec Z.eq_dec (hex_cell_id h q) (hex_keys h)) as [I|I]; [|left; exists q; split; [left|]; auto].
    destruct IH as [[p [A B]]|B]; [left; exists p; split; [right|]; auto|]. right. intros p [<-|A]; auto. }
  destruct D as [D|D].
  - assert (F : hex_location_sta h = Raise KeyError).
    { rewrite LOC. apply foldM_dincr_fail. rewrite dkeys_init. exact D. }
    split; [split; [intros _; apply BAD; auto|auto]|]. intro N. contradiction.
  - destruct (fold_dincr_ok pt (fun p => Ok (hex_cell_id h p)) (hex_cell_id h) pts (map (fun k => (k, 0%Z)) (hex_keys h))) as [d [D1 [D2 [D3 D4]]]].
    { auto. } { intros. rewrite dkeys_init. auto. }
    assert (F : hex_location_sta h = Ok d) by (rewrite LOC; exact D1). rewrite dkeys_init in D2. split.
    + split; [rewrite F; discriminate|]. intro B. apply BAD in B. destruct B as [p [Hp N]]. exfalso. apply N. auto.
    + intros _. exists d. split; auto. split; auto. split; [rewrite D3, dvals_init; lia|].
      intros cx cy Dr. assert (I : In (cx + cy * hx_cols h)%Z (hex_keys h)).
      { destruct Dr as [Dr1 Dr2]. apply K; [lia|lia|]. left. split; auto. }
      rewrite D4, dget_init by auto. eexists. split; [reflexivity|]. unfold count. apply Counts_filter.
      intros p Hp. rewrite Z.eqb_eq. rewrite (O p Hp cx cy), (O p Hp (hx_cols h) (cy - 1)%Z).
      destruct (R p Hp) as [R1 R2]. unfold hex_cell_id. destruct Dr as [Dr1 Dr2].
      rewrite (surjective_pairing (hex_cell h p)). cbn [fst snd].
      split.
      * intro E. destruct (Z.eq_dec (fst (hex_cell h p)) (hx_cols h)) as [Z1|Z1].
        -- right. rewrite Z1 in E. assert (X : (cx = 0 /\ cy = snd (hex_cell h p) + 1)%Z) by (apply (hex_id_inj (hx_cols h)); nia).
           destruct X as [X1 X2]. split; auto. rewrite Z1. f_equal. lia.
        -- left. destruct (hex_id_inj (hx_cols h) cx cy (fst (hex_cell h p)) (snd (hex_cell h p))) as [-> ->]; try lia. reflexivity.
      * intros [E|[-> E]]; injection E as E1 E2; rewrite E1, E2; lia.
Qed.
Print Assumptions C46_exact.

(** The point (4,2) is a right corner: it is counted in the first hexagon of the next row. *)
Example C46_exact_case : exists h, hex_init [(0,0); (4,2); (1#2, 39#10)] 2 1 = Ok h /\ hx_cols h = 2%Z /\ hx_even h = 3%Z /\
  Owns h 2 1 (4, 2) /\ Drawn h 0 2 /\ exists d, hex_location_sta h = Ok d /\ dget d 4%Z = Some 2%Z.
Proof.
  eexists. split; [reflexivity|]. split; [reflexivity|]. split; [reflexivity|]. split.
  - unfold Owns, owned_by. vm_compute. intuition discriminate.
  - split; [vm_compute; intuition discriminate|]. eexists. split; vm_compute; reflexivity.
Qed.
