(** Theorems about coordinates and times held as machine integers. *)
From Coq Require Import ZArith Reals QArith List Bool Arith Lia Lra Psatz.
From Verif Require Import Base Quadrat_model Geometry_model Random_model CenterR_model CenterR_spec CenterR_proofs Ints_model Ints_spec.
Import ListNotations.
Local Close Scope Q_scope.
Local Open Scope Z_scope.

(** ** wrap *)
Section Wrap.
Context (t : itype).
Hypothesis W : 0 < width t.
Lemma pow_half : 2 ^ width t = 2 * 2 ^ (width t - 1).
Proof using W. replace (width t) with (Z.succ (width t - 1)) at 1 by lia. rewrite Z.pow_succ_r by lia. lia. Qed.
Lemma half_pos : 0 < 2 ^ (width t - 1).
Proof using W. apply Z.pow_pos_nonneg; lia. Qed.
Lemma wrap_eq : forall z, exists k, wrap t z = z - 2 ^ width t * k /\ Fits t (wrap t z) /\ (0 <= z -> 0 <= k).
Proof using W.
  intro z. pose proof pow_half as P. pose proof half_pos as H. unfold wrap, Fits. destruct (signed t).
  - exists ((z + 2 ^ (width t - 1)) / 2 ^ width t). pose proof (Z.mod_pos_bound (z + 2 ^ (width t - 1)) (2 ^ width t) ltac:(lia)) as B.
    pose proof (Z.div_mod (z + 2 ^ (width t - 1)) (2 ^ width t) ltac:(lia)) as D. split; [lia|]. split; [lia|]. intro Z0. apply Z.div_pos; lia.
  - exists (z / 2 ^ width t). pose proof (Z.mod_pos_bound z (2 ^ width t) ltac:(lia)) as B.
    pose proof (Z.div_mod z (2 ^ width t) ltac:(lia)) as D. split; [lia|]. split; [lia|]. intro Z0. apply Z.div_pos; lia.
Qed.
Lemma fits_unique : forall a b k, Fits t a -> Fits t b -> a = b - 2 ^ width t * k -> a = b.
Proof using W.
  intros a b k A B E. pose proof pow_half as P. pose proof half_pos as H. unfold Fits in *. destruct (signed t); assert (k = 0) by nia; subst k; lia.
Qed.
Lemma wrap_fits : forall z, Fits t (wrap t z).
Proof using W. intro z. destruct (wrap_eq z) as [k [_ [F _]]]. exact F. Qed.
Lemma wrap_id : forall z, wrap t z = z <-> Fits t z.
Proof using W.
  intro z. split; intro X; [rewrite <- X; apply wrap_fits|]. destruct (wrap_eq z) as [k [E [F _]]]. eapply fits_unique; eauto.
Qed.
Lemma wrap_le : forall z, 0 <= z -> wrap t z <= z.
Proof using W. intros z Z0. destruct (wrap_eq z) as [k [E [_ K]]]. specialize (K Z0). pose proof pow_half. pose proof half_pos. nia. Qed.
Lemma wrap_cong : forall a b k, a = b + 2 ^ width t * k -> wrap t a = wrap t b.
Proof using W.
  intros a b k E. destruct (wrap_eq a) as [ka [Ea [Fa _]]]. destruct (wrap_eq b) as [kb [Eb [Fb _]]].
  apply (fits_unique _ _ (ka - kb - k) Fa Fb). lia.
Qed.
Lemma imul_wrap : forall a b, imul t (wrap t a) (wrap t b) = wrap t (a * b).
Proof using W.
  intros a b. unfold imul. destruct (wrap_eq a) as [ka [Ea _]]. destruct (wrap_eq b) as [kb [Eb _]].
  apply (wrap_cong _ _ (- ka * b - a * kb + 2 ^ width t * ka * kb)). rewrite Ea, Eb. ring.
Qed.
Lemma iadd_wrap : forall a b, iadd t (wrap t a) (wrap t b) = wrap t (a + b).
Proof using W.
  intros a b. unfold iadd. destruct (wrap_eq a) as [ka [Ea _]]. destruct (wrap_eq b) as [kb [Eb _]].
  apply (wrap_cong _ _ (- ka - kb)). rewrite Ea, Eb. ring.
Qed.
End Wrap.

Definition Zsum (l : list Z) : Z := fold_right Z.add 0 l.
Lemma wide_pos : forall t, 0 < width (wide t).
Proof. intro t. unfold wide. cbn [width]. lia. Qed.
Lemma isum_wrap : forall t l, isum t l = wrap (wide t) (Zsum l).
Proof.
  intros t l. pose proof (wide_pos t) as W. induction l as [|a l IH].
  - cbn. symmetry. apply wrap_id; auto. pose proof (half_pos _ W). pose proof (pow_half _ W). unfold Fits. destruct (signed (wide t)); lia.
  - unfold isum in *. cbn [fold_right]. rewrite IH. destruct (wrap_eq _ W (Zsum l)) as [k [E _]]. unfold iadd. cbn [Zsum fold_right].
    apply (wrap_cong _ W _ _ (- k)). fold (Zsum l). rewrite E. ring.
Qed.
Lemma IZR_sum : forall (A : Type) (f : A -> Z) l, IZR (Zsum (map f l)) = Rsum (map (fun a => IZR (f a)) l).
Proof. intros A f l. induction l as [|a l IH]; [reflexivity|]. cbn [map Zsum Rsum fold_right]. rewrite plus_IZR. f_equal. exact IH. Qed.

(** The sums of squares do not overflow for short types and any realistic number of points. *)
Definition roomy (t : itype) (n : nat) : Prop := Z.of_nat n * 2 ^ width t <= 2 ^ 63.
Lemma isum_short : forall t l, 0 < width t -> roomy t (List.length l) -> Forall (Fits t) l -> isum t l = Zsum l.
Proof.
  intros t l W RM F. rewrite isum_wrap. apply wrap_id; [apply wide_pos|]. unfold roomy in RM. pose proof (half_pos _ W) as H. pose proof (pow_half _ W) as P.
  assert (B : - (Z.of_nat (List.length l) * 2 ^ width t) <= Zsum l <= Z.of_nat (List.length l) * 2 ^ width t - Z.of_nat (List.length l) /\ (signed t = false -> 0 <= Zsum l)).
  { clear RM. induction F as [|a l A F [IH1 IH2]]; [cbn; split; lia|]. cbn [List.length]. rewrite Nat2Z.inj_succ. unfold Fits in A.
    change (Zsum (a :: l)) with (a + Zsum l). destruct (signed t); split; intros; try discriminate; try (specialize (IH2 eq_refl)); lia. }
  assert (E63 : 2 ^ 63 <= 2 ^ (width (wide t) - 1)) by (apply Z.pow_le_mono_r; cbn [wide width]; lia).
  pose proof (pow_half _ (wide_pos t)) as P2. unfold Fits. cbn [wide signed]. cbn [wide width] in *.
  destruct l as [|a l]; [cbn; destruct (signed t); lia|]. cbn [List.length] in B. rewrite Nat2Z.inj_succ in B.
  cbn [List.length] in RM. rewrite Nat2Z.inj_succ in RM. destruct B as [B1 B2]. destruct (signed t); [lia|specialize (B2 eq_refl); lia].
Qed.

(** ** std_distance *)
Definition var_of (n : nat) (sx sy : Z) (pts : list ipt) : R :=
  let N := INR n in
  let mx := (Rsum (map (fun p : ipt => IZR (fst p)) pts) / N)%R in
  let my := (Rsum (map (fun p : ipt => IZR (snd p)) pts) / N)%R in
  ((IZR sx / N - mx * mx) + (IZR sy / N - my * my))%R.
Lemma std_real : forall pts, pts <> [] -> std_distance (map real_pt pts) =
  Some (sqrt (var_of (List.length pts) (Zsum (map (fun p => fst p * fst p) pts)) (Zsum (map (fun p => snd p * snd p) pts)) pts)).
Proof.
  intros pts N. unfold std_distance, var_of. destruct pts as [|p l]; [congruence|]. cbn [map]. f_equal. f_equal.
  rewrite <- (map_cons real_pt p l). set (q := p :: l) in *. change (real_pt p :: map real_pt l) with (map real_pt q). rewrite map_length, !map_map. cbn [real_pt fst snd].
  change (fst p * fst p :: map (fun p0 => fst p0 * fst p0) l) with (map (fun p0 : ipt => fst p0 * fst p0) q).
  change (snd p * snd p :: map (fun p0 => snd p0 * snd p0) l) with (map (fun p0 : ipt => snd p0 * snd p0) q).
  rewrite !IZR_sum.
  rewrite (map_ext (fun a : ipt => IZR (fst a * fst a)) (fun x : ipt => (IZR (fst x) * IZR (fst x))%R)) by (intro; apply mult_IZR).
  rewrite (map_ext (fun a : ipt => IZR (snd a * snd a)) (fun x : ipt => (IZR (snd x) * IZR (snd x))%R)) by (intro; apply mult_IZR). reflexivity.
Qed.
Lemma var_nonneg : forall pts, pts <> [] ->
  (0 <= var_of (List.length pts) (Zsum (map (fun p : ipt => (fst p * fst p)%Z) pts)) (Zsum (map (fun p : ipt => (snd p * snd p)%Z) pts)) pts)%R.
Proof.
  intros pts N. pose proof (var_identity ipt (fun p => IZR (fst p)) pts N) as A. pose proof (var_identity ipt (fun p => IZR (snd p)) pts N) as B.
  unfold var_of. rewrite !IZR_sum.
  rewrite (map_ext (fun a : ipt => IZR (fst a * fst a)) (fun x : ipt => (IZR (fst x) * IZR (fst x))%R)) by (intro; apply mult_IZR).
  rewrite (map_ext (fun a : ipt => IZR (snd a * snd a)) (fun x : ipt => (IZR (snd x) * IZR (snd x))%R)) by (intro; apply mult_IZR).
  unfold mean_of in A at 3 4. unfold mean_of in B at 3 4. rewrite <- A, <- B.
  apply Rplus_le_le_0_compat; apply mean_of_nonneg; auto; intros x _; apply pow2_ge_0.
Qed.
Lemma sum_le : forall (A : Type) (f g : A -> Z) l, (forall a, In a l -> f a <= g a) ->
  Zsum (map f l) <= Zsum (map g l) /\ (Zsum (map f l) = Zsum (map g l) <-> forall a, In a l -> f a = g a).
Proof.
  intros A f g l. induction l as [|a l IH]; intro H.
  - cbn. split; [lia|]. split; [intros _ a []|reflexivity].
  - destruct IH as [I1 I2]; [intros; apply H; right; auto|]. specialize (H a (or_introl eq_refl)) as Ha. cbn [map]. 
    change (Zsum (f a :: map f l)) with (f a + Zsum (map f l)). change (Zsum (g a :: map g l)) with (g a + Zsum (map g l)). split; [lia|]. split.
    + intros E b [<-|B]; [lia|]. apply I2; [lia|auto].
    + intro E. rewrite (E a (or_introl eq_refl)). f_equal. apply I2. intros b B. apply E. right; auto.
Qed.
Lemma wrap_square : forall t (f : ipt -> Z) l, 0 < width t ->
  Zsum (map (fun p => imul t (f p) (f p)) l) <= Zsum (map (fun p => f p * f p) l) /\
  (Zsum (map (fun p => imul t (f p) (f p)) l) = Zsum (map (fun p => f p * f p) l) <-> forall p, In p l -> Fits t (f p * f p)).
Proof.
  intros t f l W. destruct (sum_le _ (fun p => imul t (f p) (f p)) (fun p => f p * f p) l) as [A B].
  { intros p _. apply wrap_le; auto. apply Z.square_nonneg. }
  split; [exact A|]. rewrite B. split; intros X p Hp; specialize (X p Hp); apply (wrap_id t W); exact X.
Qed.

(** The standard distance of an integer array is the standard distance of its points
    exactly when every squared coordinate fits the type; otherwise it is smaller, or NaN. *)
Theorem C126_std : forall t pts, 0 < width t -> pts <> [] -> roomy t (List.length pts) ->
  let fit := forall p, In p pts -> Fits t (fst p * fst p) /\ Fits t (snd p * snd p) in
  exists d, std_distance (map real_pt pts) = Some d /\
    (fit -> std_distance_int t pts = Some d) /\
    (~ fit -> std_distance_int t pts = None \/ exists v, std_distance_int t pts = Some v /\ (0 <= v < d)%R) /\
    (std_distance_int t pts = Some d -> fit).
Proof.
  intros t pts W N RM fit. rewrite (std_real pts N). set (sx := Zsum (map (fun p => fst p * fst p) pts)). set (sy := Zsum (map (fun p => snd p * snd p) pts)).
  set (wx := Zsum (map (fun p => imul t (fst p) (fst p)) pts)). set (wy := Zsum (map (fun p => imul t (snd p) (snd p)) pts)).
  assert (SI : std_distance_int t pts = if Rlt_dec (var_of (List.length pts) wx wy pts) 0 then None else Some (sqrt (var_of (List.length pts) wx wy pts))).
  { unfold std_distance_int. destruct pts as [|p l]; [congruence|]. rewrite !isum_short; auto; try (rewrite map_length; auto);
      try (apply Forall_forall; intros z Z0; apply in_map_iff in Z0; destruct Z0 as [q [<- _]]; apply wrap_fits; auto). }
  destruct (wrap_square t fst pts W) as [X1 X2]. destruct (wrap_square t snd pts W) as [Y1 Y2]. fold wx sx in X1, X2. fold wy sy in Y1, Y2.
  assert (n0 : (0 < INR (List.length pts))%R) by (apply INR_len_pos; auto).
  assert (DV : var_of (List.length pts) sx sy pts = (var_of (List.length pts) wx wy pts + (IZR (sx - wx) + IZR (sy - wy)) / INR (List.length pts))%R).
  { unfold var_of. rewrite !minus_IZR. field. lra. }
  assert (V0 : (0 <= var_of (List.length pts) sx sy pts)%R).
  { apply var_nonneg. exact N. }
  assert (FT : fit <-> wx = sx /\ wy = sy).
  { unfold fit. rewrite X2, Y2. split; [intro X; split; intros p P; apply X; auto|]. intros [A B] p P. auto. }
  exists (sqrt (var_of (List.length pts) sx sy pts)). split; [reflexivity|].
  assert (F1 : fit -> std_distance_int t pts = Some (sqrt (var_of (List.length pts) sx sy pts))).
  { intro X. apply FT in X. destruct X as [-> ->]. rewrite SI. destruct (Rlt_dec _ _); [lra|reflexivity]. }
  split; [exact F1|].
  assert (F2 : ~ fit -> std_distance_int t pts = None \/ exists v, std_distance_int t pts = Some v /\ (0 <= v < sqrt (var_of (List.length pts) sx sy pts))%R).
  { intro X. rewrite SI. destruct (Rlt_dec _ _) as [L|L]; [left; reflexivity|right]. eexists. split; [reflexivity|]. split; [apply sqrt_pos|].
    apply sqrt_lt_1_alt. split; [lra|]. rewrite DV.
    assert (P : 0 < (sx - wx) + (sy - wy)) by (assert (~ (wx = sx /\ wy = sy)) by (rewrite <- FT; auto); lia).
    apply IZR_lt in P. rewrite plus_IZR in P. assert (0 < (IZR (sx - wx) + IZR (sy - wy)) / INR (List.length pts))%R by (apply Rdiv_lt_0_compat; lra). lra. }
  split; [exact F2|]. intro E. apply FT. destruct (Z.eq_dec wx sx) as [A|A]; destruct (Z.eq_dec wy sy) as [B|B]; auto; exfalso;
    (assert (NF : ~ fit) by (rewrite FT; tauto); destruct (F2 NF) as [Q|[v [Q [_ Q2]]]]; [congruence|]; rewrite E in Q; injection Q as Q; lra).
Qed.
Print Assumptions C126_std.
(** Three 8-bit points have no standard distance; two 32-bit points 2 apart neither. *)
Theorem C126_std_refuted :
  std_distance_int uint8 [(0, 0); (16, 0)] = None /\ std_distance (map real_pt [(0, 0); (16, 0)]) = Some 8%R /\
  std_distance_int int32 [(46341, 0); (46343, 0)] = None /\ std_distance (map real_pt [(46341, 0); (46343, 0)]) = Some 1%R.
Proof.
  assert (A : forall t pts n mx my wx wy, pts <> [] -> INR (List.length pts) = n ->
    Rsum (map (fun p : ipt => IZR (fst p)) pts) = mx -> Rsum (map (fun p : ipt => IZR (snd p)) pts) = my ->
    isum t (map (fun p => imul t (fst p) (fst p)) pts) = wx -> isum t (map (fun p => imul t (snd p) (snd p)) pts) = wy ->
    ((IZR wx / n - (mx / n) * (mx / n)) + (IZR wy / n - (my / n) * (my / n)) < 0)%R -> std_distance_int t pts = None).
  { intros t pts n mx my wx wy N <- <- <- <- <- L. unfold std_distance_int. destruct pts; [congruence|]. destruct (Rlt_dec _ _); [reflexivity|lra]. }
  split; [apply (A _ _ 2%R 16%R 0%R 0 0); try (vm_compute; reflexivity); try congruence; cbn; lra|].
  split. { rewrite std_distance_value by (cbn; congruence). f_equal. rewrite <- (sqrt_square 8) by lra. f_equal. cbn. unfold mean_of. cbn. field. }
  split; [apply (A _ _ 2%R 92684%R 0%R (-4294772662) 0); try (vm_compute; reflexivity); try congruence; cbn; lra|].
  rewrite std_distance_value by (cbn; congruence). f_equal. rewrite <- sqrt_1. f_equal. cbn. unfold mean_of. cbn. field.
Qed.
Print Assumptions C126_std_refuted.

(** ** dtot *)
Lemma dtot_terms_wrap : forall t c pts, 0 < width t -> dtot_terms t c pts = map (fun p => wrap t (sqd c p)) pts.
Proof.
  intros t c pts W. unfold dtot_terms. apply map_ext. intro p. unfold isub. cbv zeta. rewrite !imul_wrap, iadd_wrap by auto. reflexivity.
Qed.
Lemma sqd_nonneg : forall c p, 0 <= sqd c p.
Proof. intros. unfold sqd. pose proof (Z.square_nonneg (fst p - fst c)). pose proof (Z.square_nonneg (snd p - snd c)). lia. Qed.
Lemma dtot_real : forall c pts, dtot (real_pt c) (map real_pt pts) = Rsum (map (fun p => sqrt (IZR (sqd c p))) pts).
Proof.
  intros c pts. unfold dtot. rewrite map_map. f_equal. apply map_ext. intro p. unfold sqd, real_pt. cbn [fst snd]. cbv zeta.
  rewrite plus_IZR, !mult_IZR, !minus_IZR. reflexivity.
Qed.
(** The sum of distances of integer points to an integer place is exact exactly when
    every squared distance fits the type, whatever the differences; otherwise it is
    smaller, or NaN, which happens only for signed types. *)
Theorem C126_dtot : forall t c pts, 0 < width t ->
  let fit := forall p, In p pts -> Fits t (sqd c p) in
  let d := dtot (real_pt c) (map real_pt pts) in
  (dtot_int t c pts = Some d <-> fit) /\
  (~ fit -> dtot_int t c pts = None \/ exists v, dtot_int t c pts = Some v /\ (0 <= v < d)%R) /\
  (signed t = false -> dtot_int t c pts <> None) /\
  (dtot_int t c pts = None <-> exists p, In p pts /\ wrap t (sqd c p) < 0).
Proof.
  intros t c pts W fit d.
  set (neg := existsb (fun z => z <? 0) (dtot_terms t c pts)).
  assert (NG : neg = true <-> exists p, In p pts /\ wrap t (sqd c p) < 0).
  { unfold neg. rewrite dtot_terms_wrap by auto. rewrite existsb_exists. split.
    - intros [z [Z0 L]]. apply in_map_iff in Z0. destruct Z0 as [p [<- P]]. apply Z.ltb_lt in L. eauto.
    - intros [p [P L]]. exists (wrap t (sqd c p)). split; [apply in_map_iff; eauto|]. apply Z.ltb_lt; auto. }
  assert (NE : dtot_int t c pts = if neg then None else Some (Rsum (map (fun p => sqrt (IZR (wrap t (sqd c p)))) pts))).
  { unfold dtot_int. fold neg. destruct neg; [reflexivity|]. rewrite dtot_terms_wrap by auto. rewrite map_map. reflexivity. }
  assert (SM : neg = false -> (Rsum (map (fun p => sqrt (IZR (wrap t (sqd c p)))) pts) <= d)%R /\
                 (Rsum (map (fun p => sqrt (IZR (wrap t (sqd c p)))) pts) = d <-> fit)).
  { intro NF. assert (P : forall p, In p pts -> 0 <= wrap t (sqd c p)).
    { intros p Hp. destruct (Z_lt_le_dec (wrap t (sqd c p)) 0) as [L|L]; auto. exfalso. assert (neg = true) by (apply NG; eauto). congruence. }
    unfold d. rewrite dtot_real. unfold fit. clear -W P. induction pts as [|p l IH].
    - cbn. split; [lra|]. split; [intros _ p []|reflexivity].
    - destruct IH as [I1 I2]; [intros; apply P; right; auto|]. specialize (P p (or_introl eq_refl)). pose proof (wrap_le t W _ (sqd_nonneg c p)) as L.
      cbn [map Rsum fold_right]. fold (Rsum (map (fun p => sqrt (IZR (wrap t (sqd c p)))) l)). fold (Rsum (map (fun p => sqrt (IZR (sqd c p))) l)).
      assert (S : (sqrt (IZR (wrap t (sqd c p))) <= sqrt (IZR (sqd c p)))%R) by (apply sqrt_le_1_alt, IZR_le; auto).
      split; [lra|]. split.
      + intros E q [<-|Q]; [|apply I2; auto; lra]. apply (wrap_id t W). apply eq_IZR. apply sqrt_inj; [apply (IZR_le 0); auto|apply (IZR_le 0), sqd_nonneg|lra].
      + intro F. rewrite (proj2 (wrap_id t W (sqd c p)) (F p (or_introl eq_refl))). f_equal. apply I2. intros; apply F; right; auto. }
  assert (FN : fit -> neg = false).
  { intro F. destruct neg eqn:E; [|reflexivity]. exfalso. destruct (proj1 NG eq_refl) as [p [P L]]. rewrite (proj2 (wrap_id t W _) (F p P)) in L. pose proof (sqd_nonneg c p). lia. }
  rewrite NE. split; [|split; [|split]].
  - split.
    + destruct neg; [discriminate|]. intro E. injection E as E. apply (proj2 (SM eq_refl)). exact E.
    + intro F. rewrite (FN F). f_equal. apply (proj2 (SM (FN F))). exact F.
  - intro NF. destruct neg; [left; reflexivity|right]. destruct (SM eq_refl) as [S1 S2]. eexists. split; [reflexivity|]. split.
    + apply Rsum_nonneg. intros; apply sqrt_pos.
    + destruct (Rle_lt_or_eq_dec _ _ S1) as [L|L]; [exact L|]. exfalso. apply NF, S2, L.
  - intro U. destruct neg; [|discriminate]. exfalso. destruct (proj1 NG eq_refl) as [p [P L]]. pose proof (wrap_fits t W (sqd c p)) as F. unfold Fits in F. rewrite U in F. lia.
  - rewrite <- NG. destruct neg; split; congruence.
Qed.
Print Assumptions C126_dtot.

(** ** area of a bounding box *)
(** The area of an integer bounding box is the product of its sides exactly when that
    product fits the type, whatever the sides; otherwise it is less.  It is negative
    only for signed types, where the product is an odd multiple of 2^(width-1). *)
Theorem C126_area : forall t x0 y0 x1 y1, 0 < width t -> x0 <= x1 -> y0 <= y1 ->
  let a := (x1 - x0) * (y1 - y0) in
  (area_int t x0 y0 x1 y1 = a <-> Fits t a) /\
  (~ Fits t a -> area_int t x0 y0 x1 y1 < a) /\
  (area_int t x0 y0 x1 y1 < 0 <-> signed t = true /\ exists k, a = 2 ^ (width t - 1) * (2 * k + 1)) /\
  (area_int t x0 y0 x1 y1 = 0 <-> exists k, a = 2 ^ width t * k).
Proof.
  intros t x0 y0 x1 y1 W X Y a. assert (A0 : 0 <= a) by (apply Z.mul_nonneg_nonneg; lia).
  pose proof (pow_half t W) as P. pose proof (half_pos t W) as H.
  assert (E : area_int t x0 y0 x1 y1 = iabs t (wrap t a)).
  { unfold area_int, isub. cbv zeta. rewrite imul_wrap by auto. reflexivity. }
  rewrite E. destruct (wrap_eq t W a) as [k [K [F K0]]]. specialize (K0 A0). unfold iabs.
  destruct (wrap_eq t W (Z.abs (wrap t a))) as [j [J [G J0]]]. specialize (J0 (Z.abs_nonneg _)).
  set (v := wrap t (Z.abs (wrap t a))) in *. set (w := wrap t a) in *. unfold Fits in *. set (h := 2 ^ (width t - 1)) in *. rewrite P in *.
  assert (V : (w = - h /\ signed t = true /\ v = - h) \/ ((w <> - h \/ signed t = false) /\ v = Z.abs w)).
  { destruct (signed t).
    - destruct (Z.eq_dec w (- h)) as [Q|Q]; [left|right]; [split; [auto|split; auto]; assert (j = 1) by nia; subst j; lia|].
      split; [auto|]. assert (j = 0) by nia. subst j. lia.
    - right. split; [auto|]. assert (j = 0) by nia. subst j. lia. }
  split; [|split; [|split]].
  - split; intro Q; destruct V as [[V1 [V2 V3]]|[V1 V3]]; destruct (signed t); try discriminate; try lia; assert (k = 0) by nia; subst k; lia.
  - intro Q. destruct V as [[V1 [V2 V3]]|[V1 V3]]; destruct (signed t); try discriminate; try lia; assert (k <> 0) by (intro; subst k; lia); nia.
  - split.
    + intro L. destruct V as [[V1 [V2 V3]]|[V1 V3]]; [|lia]. split; [auto|]. exists (k - 1). lia.
    + intros [SG [m M]]. destruct V as [[V1 [V2 V3]]|[[V1|V1] V3]]; [lia| |congruence]. rewrite SG in F. exfalso. apply V1.
      assert (w = h * (2 * (m - k) + 1)) by lia. assert (m - k = -1) by nia. nia.
  - split.
    + intro L. exists k. destruct V as [[V1 [V2 V3]]|[V1 V3]]; lia.
    + intros [m M]. assert (M2 : w = 2 * h * (m - k)) by lia. assert (m - k = 0) by (destruct (signed t); nia).
      assert (w = 0) by nia. destruct V as [[V1 [V2 V3]]|[V1 V3]]; lia.
Qed.
Print Assumptions C126_area.
(** A 32-bit box of 50000 by 50000 has area 1794967296, one of 65536 by 65536 area 0,
    one of 65536 by 32768 a negative area: point processes of a given intensity on
    them have too few points, none, or fail. *)
Definition int_hull (t : itype) (x0 y0 x1 y1 : Z) : hull :=
  mkhull (inject_Z (area_int t x0 y0 x1 y1)) (mkbox (inject_Z x0) (inject_Z y0) (inject_Z x1) (inject_Z y1)) (fun _ => true) true.
Theorem C126_area_refuted :
  area_int int32 0 0 50000 50000 = 1794967296 /\ area_int int32 0 0 65536 65536 = 0 /\ area_int int32 0 0 65536 32768 = -2147483648 /\
  parse_size_and_intensity (int_hull int32 0 0 50000 50000) (Some (1 # 1000000)%Q) SNone = Ok (1794, 1, Fin (1 # 1000000)%Q) /\
  parse_size_and_intensity (int_hull int64 0 0 50000 50000) (Some (1 # 1000000)%Q) SNone = Ok (2500, 1, Fin (1 # 1000000)%Q) /\
  area_int int64 50000 0 0 50000 = 2500000000 /\ poisson (int_hull int32 0 0 65536 32768) (Some (1 # 1000000)%Q) SNone [] = Exc ValueError /\
  parse_size_and_intensity (int_hull int32 0 0 65536 65536) None SNone = Ok (100, 1, PInf) /\
  area_int uint8 10 20 30 40 = 144 /\ area_int uint8 10 20 25 37 = 255 /\ area_int uint8 10 20 26 36 = 0.
Proof. repeat split. Qed.
Print Assumptions C126_area_refuted.

(** ** knox *)
Lemma knox_wrap : forall t times ids tau, 0 < width t ->
  knox_int t times ids tau = List.length (filter (fun ij => wrap t ((nth (fst ij) times 0 - nth (snd ij) times 0) * (nth (fst ij) times 0 - nth (snd ij) times 0)) <=? tau * tau) ids).
Proof. intros t times ids tau W. unfold knox_int, isub. cbv zeta. f_equal. apply filter_ext. intro ij. rewrite imul_wrap by auto. reflexivity. Qed.
Lemma close_sq : forall d tau, 0 <= tau -> (d * d <= tau * tau <-> - tau <= d <= tau).
Proof. intros d tau T. split; intro H; [split|]; nia. Qed.
Lemma count_le : forall (A : Type) (f g : A -> bool) l, (forall a, In a l -> f a = true -> g a = true) ->
  (List.length (filter f l) <= List.length (filter g l))%nat /\
  (List.length (filter f l) = List.length (filter g l) -> forall a, In a l -> g a = true -> f a = true).
Proof.
  intros A f g l. induction l as [|a l IH]; intro H; [split; [reflexivity|intros _ a []]|].
  destruct IH as [I1 I2]; [intros; apply H; auto; right; auto|]. specialize (H a (or_introl eq_refl)). cbn [filter].
  destruct (f a) eqn:Fa; [rewrite (H eq_refl)|destruct (g a) eqn:Ga]; cbn [List.length]; split; try lia.
  - intros E b [<-|B]; [auto|]. apply I2; [lia|auto].
  - intros E b [<-|B] Gb; [congruence|]. apply I2; auto; lia.
Qed.
(** Every pair of times at most tau apart is counted; the count is
    the number of such pairs exactly when no other pair has a squared difference
    that the type turns into a number up to tau^2. *)
Theorem C126_knox : forall t times ids tau close, 0 < width t -> 0 <= tau ->
  (forall ij, In ij ids -> close ij = true <-> CloseTimes times tau ij) ->
  let sq ij := (nth (fst ij) times 0 - nth (snd ij) times 0) * (nth (fst ij) times 0 - nth (snd ij) times 0) in
  (knox_int t times ids tau >= List.length (filter close ids))%nat /\
  (knox_int t times ids tau = List.length (filter close ids) <->
     forall ij, In ij ids -> wrap t (sq ij) <= tau * tau -> CloseTimes times tau ij) /\
  ((forall ij, In ij ids -> Fits t (sq ij)) -> knox_int t times ids tau = List.length (filter close ids)).
Proof.
  intros t times ids tau close W T C sq. rewrite knox_wrap by auto.
  destruct (count_le _ close (fun ij => wrap t (sq ij) <=? tau * tau) ids) as [A B].
  { intros ij I H. apply C in H; auto. apply Z.leb_le. pose proof (wrap_le t W (sq ij) (Z.square_nonneg _)) as L.
    apply (close_sq _ tau T) in H. unfold sq in *. lia. }
  fold sq.
  assert (IFF : List.length (filter (fun ij => wrap t (sq ij) <=? tau * tau) ids) = List.length (filter close ids) <->
    forall ij, In ij ids -> wrap t (sq ij) <= tau * tau -> CloseTimes times tau ij).
  { split.
    - intros E ij I L. apply C; auto. apply B; auto. apply Z.leb_le; auto.
    - intro X. f_equal. apply filter_ext_in. intros ij I. destruct (close ij) eqn:K.
      + apply C in K; auto. apply Z.leb_le. pose proof (wrap_le t W (sq ij) (Z.square_nonneg _)) as L. apply (close_sq _ tau T) in K. unfold sq in *. lia.
      + destruct (Z.leb_spec (wrap t (sq ij)) (tau * tau)) as [L|L]; [|reflexivity]. apply X in L; auto. apply C in L; auto. congruence. }
  split; [exact A|]. split; [exact IFF|]. intro F. apply IFF. intros ij I L. rewrite (proj2 (wrap_id t W _) (F ij I)) in L. apply (close_sq _ tau T). exact L.
Qed.
Print Assumptions C126_knox.
(** With 16-bit times, 0 and 256 are at most 3 apart. *)
Theorem C126_knox_refuted : knox_int int16 [0; 256] [(0, 1)%nat] 3 = 1%nat /\ knox_int int64 [0; 256] [(0, 1)%nat] 3 = 0%nat /\
  ~ CloseTimes [0; 256] 3 (0, 1)%nat.
Proof. split; [reflexivity|split; [reflexivity|]]. unfold CloseTimes. cbn. lia. Qed.
Print Assumptions C126_knox_refuted.

Example C126_case :
  dtot_int int16 (100, 100) [(103, 104); (100, 95)] = Some (Rsum [sqrt 25; sqrt 25]) /\
  dtot_int int16 (0, 0) [(200, 0)] = None /\
  dtot_terms uint8 (5, 5) [(2, 1); (5, 0)] = [25; 25] /\
  area_int uint8 10 20 20 40 = 200 /\ area_int uint8 10 20 30 40 = 144 /\
  knox_int int32 [5; 2; 9] [(0, 1); (1, 2); (0, 2)]%nat 4 = 2%nat /\ roomy int32 1000.
Proof. repeat split. unfold roomy. cbn. lia. Qed.
