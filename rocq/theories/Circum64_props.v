(** Further theorems for C147: the circumscribed circle of points with integer
    coordinates, and the choice of the point. *)
From Coq Require Import Reals ZArith List Bool Lia Lra Psatz.
From Flocq Require Import Core BinarySingleNaN.
From Verif Require Import Base Float_model Float_proofs F64_model F64_proofs F64_props K64_model K64_spec K64_proofs K64_props L64_model L64_proofs Area64_model Area64_proofs Sample64_model Sample64_proofs Hex64_proofs Mbc64_model Mbc64_spec Mbc64_proofs Mbc64_props.
Import ListNotations.
Local Open Scope R_scope.

(** ** Specification *)
Definition within (n : Z) (p : Z * Z) : Prop := (Z.abs (fst p) <= n /\ Z.abs (snd p) <= n)%Z.
(** Twice the signed area of the triangle. *)
Definition area2 (p q r : Z * Z) : Z := ((fst q - fst p) * (snd r - snd p) - (fst r - fst p) * (snd q - snd p))%Z.
Definition sqd (x y : R) (p : Z * Z) : R := (x - IZR (fst p)) ^ 2 + (y - IZR (snd p)) ^ 2.
(** (x, y) is as far from p as from q and from r. *)
Definition Circumcentre (x y : R) (p q r : Z * Z) : Prop := sqd x y p = sqd x y q /\ sqd x y q = sqd x y r.

(** A value of the angles and radii: a number or NaN. *)
Definition number (x : f64) : Prop := fin x \/ x = B754_nan.
(** The order of numpy's sorts: by value, NaN last. *)
Definition Below (a b : f64) : Prop := (fin a /\ fin b /\ V a < V b) \/ (fin a /\ b = B754_nan).
(** Radius first, then angle. *)
Definition LexBelow (k m : f64 * f64) : Prop :=
  Below (fst k) (fst m) \/ (~ Below (fst m) (fst k) /\ Below (snd k) (snd m)).

(** ** Lemmas *)
Lemma before_iff : forall a b, number a -> number b -> (before64 a b = true <-> Below a b).
Proof.
  intros a b A B. unfold before64, Below. destruct A as [A| ->]; destruct B as [B| ->].
  - assert (NA : fnan a = false) by (destruct a; try reflexivity; discriminate A). assert (NB : fnan b = false) by (destruct b; try reflexivity; discriminate B).
    rewrite NB, NA, Bool.orb_false_r, (flt_ok a b A B). split.
    + intro H. left. auto.
    + intros [[_ [_ H]]|[_ H]]; [exact H|]. subst b. discriminate B.
  - assert (NA : fnan a = false) by (destruct a; try reflexivity; discriminate A). rewrite NA. cbn. rewrite Bool.orb_true_r. split; intros _; [right; auto|reflexivity].
  - assert (NB : fnan b = false) by (destruct b; try reflexivity; discriminate B). rewrite NB. cbn. split.
    + intro H. destruct b; discriminate H.
    + intros [[H _]|[H _]]; discriminate H.
  - cbn. split; [intro H; discriminate H|]. intros [[H _]|[H _]]; discriminate H.
Qed.
Lemma below_asym : forall a b, Below a b -> ~ Below b a.
Proof. intros a b [[A [B H]]|[A ->]] [[A' [B' H']]|[A' E]]; try lra; subst; discriminate. Qed.
Lemma below_between : forall a b c, number c -> Below a b -> Below a c \/ Below c b.
Proof.
  intros a b c [C| ->] [[A [B H]]|[A ->]].
  - destruct (Rlt_le_dec (V a) (V c)); [left; left; auto|right; left; repeat split; auto; lra].
  - right. right. auto.
  - left. right. auto.
  - left. right. auto.
Qed.
Lemma below_dec : forall a b, number a -> number b -> Below a b \/ ~ Below a b.
Proof. intros a b A B. destruct (before64 a b) eqn:E; [left; apply before_iff; assumption|right; intro H; apply before_iff in H; congruence]. Qed.
Definition numbers (k : f64 * f64) : Prop := number (fst k) /\ number (snd k).
Lemma lex_iff : forall k m, numbers k -> numbers m -> (lex_before k m = true <-> LexBelow k m).
Proof.
  intros k m [K1 K2] [M1 M2]. unfold lex_before, LexBelow. rewrite Bool.orb_true_iff, Bool.andb_true_iff, Bool.negb_true_iff, <- Bool.not_true_iff_false.
  rewrite !before_iff by assumption. reflexivity.
Qed.
Lemma lex_asym : forall k m, LexBelow k m -> ~ LexBelow m k.
Proof.
  intros k m [H|[N H]] [H'|[N' H']].
  - exact (below_asym _ _ H H').
  - exact (N' H).
  - exact (N H').
  - exact (below_asym _ _ H H').
Qed.
Lemma lex_between : forall k m c, numbers k -> numbers m -> numbers c -> LexBelow k m -> LexBelow k c \/ LexBelow c m.
Proof.
  intros k m c [K1 K2] [M1 M2] [C1 C2] [H|[N H]]; unfold LexBelow.
  - destruct (below_between _ _ _ C1 H) as [G|G]; [left; left; exact G|right; left; exact G].
  - destruct (below_dec _ _ K1 C1) as [G1|G1]; [left; left; exact G1|]. destruct (below_dec _ _ C1 M1) as [G2|G2]; [right; left; exact G2|].
    assert (G3 : ~ Below (fst c) (fst k)). { intro G. destruct (below_between _ _ (fst m) M1 G); contradiction. }
    assert (G4 : ~ Below (fst m) (fst c)). { intro G. destruct (below_between _ _ (fst k) K1 G); contradiction. }
    destruct (below_between _ _ _ C2 H) as [G|G]; [left|right]; right; split; assumption.
Qed.
Definition kat (keys : list (f64 * f64)) (i : nat) : f64 * f64 := nth i keys (fint 0, fint 0).
Definition Chosen (keys : list (f64 * f64)) (i : nat) : Prop :=
  (i < length keys)%nat /\ forall j, (j < length keys)%nat -> ~ LexBelow (kat keys i) (kat keys j) /\ ((i < j)%nat -> LexBelow (kat keys j) (kat keys i)).
Lemma last_chosen : forall rest seen best, Forall numbers (seen ++ rest) -> Chosen seen best ->
  Chosen (seen ++ rest) (lex_last64 best (kat seen best) (length seen) rest).
Proof.
  induction rest as [|k t IH]; intros seen best F C; cbn [lex_last64]; [rewrite app_nil_r; exact C|].
  destruct C as [L C].
  assert (OLD : forall j, (j < length seen)%nat -> kat (seen ++ [k]) j = kat seen j) by (intros j J; apply app_nth1, J).
  assert (NEW : kat (seen ++ [k]) (length seen) = k) by (unfold kat; rewrite app_nth2, Nat.sub_diag by lia; reflexivity).
  assert (LEN : length (seen ++ [k]) = S (length seen)) by (rewrite app_length; cbn; lia).
  assert (NS : forall j, (j < length seen)%nat -> numbers (kat seen j)).
  { intros j J. rewrite Forall_forall in F. apply F, in_or_app. left. apply nth_In, J. }
  assert (NK : numbers k) by (rewrite Forall_forall in F; apply F, in_or_app; right; left; reflexivity).
  replace (seen ++ k :: t) with ((seen ++ [k]) ++ t) in * by (rewrite <- app_assoc; reflexivity).
  destruct (lex_before k (kat seen best)) eqn:E.
  - apply lex_iff in E; [|exact NK|apply NS, L]. rewrite <- (OLD best L), <- LEN. apply IH; [exact F|]. split; [lia|]. rewrite LEN. intros j J.
    rewrite (OLD best L). destruct (Nat.eq_dec j (length seen)) as [->|NE].
    + rewrite NEW. split; [exact (lex_asym _ _ E)|intros _; exact E].
    + rewrite OLD by lia. apply C. lia.
  - rewrite <- LEN. pose proof (IH (seen ++ [k]) (length seen) F) as G. rewrite NEW in G. apply G. split; [lia|]. rewrite LEN, NEW. intros j J.
    destruct (Nat.eq_dec j (length seen)) as [->|NE].
    + rewrite NEW. split; [intro H; exact (lex_asym _ _ H H)|lia].
    + rewrite OLD by lia. split; [|lia]. intro H. destruct (lex_between k (kat seen j) (kat seen best) NK (NS j ltac:(lia)) (NS best L) H) as [X|X].
      * apply lex_iff in X; [congruence|exact NK|apply NS, L].
      * destruct (C j ltac:(lia)) as [NB _]. contradiction.
Qed.
(** A number that is the integer k. *)
Definition isint (x : f64) (k : Z) : Prop := fin x /\ V x = IZR k.
Lemma int_big : forall k, (Z.abs k <= 2 ^ 53)%Z -> Rabs (IZR k) <= bpow radix2 1023.
Proof. intros k K. rewrite <- abs_IZR. apply Rle_trans with (IZR (2 ^ 53)); [apply IZR_le; exact K|]. rewrite IZR_pow2 by lia. apply bpow_le. lia. Qed.
Lemma isint_fint : forall k, (Z.abs k <= 2 ^ 53)%Z -> isint (fint k) k.
Proof. intros k K. apply fint_ok, K. Qed.
Lemma isint_add : forall x y a b, isint x a -> isint y b -> (Z.abs (a + b) <= 2 ^ 53)%Z -> isint (fadd x y) (a + b).
Proof.
  intros x y a b [F1 V1] [F2 V2] K. destruct (fadd_ok x y F1 F2) as [F3 V3]; [rewrite V1, V2, <- plus_IZR; apply int_big, K|].
  split; [exact F3|]. rewrite V3, V1, V2, <- plus_IZR. apply rnd_id, float_int, K.
Qed.
Lemma isint_sub : forall x y a b, isint x a -> isint y b -> (Z.abs (a - b) <= 2 ^ 53)%Z -> isint (fsub x y) (a - b).
Proof.
  intros x y a b [F1 V1] [F2 V2] K. destruct (fsub_ok x y F1 F2) as [F3 V3]; [rewrite V1, V2, <- minus_IZR; apply int_big, K|].
  split; [exact F3|]. rewrite V3, V1, V2, <- minus_IZR. apply rnd_id, float_int, K.
Qed.
Lemma isint_mul : forall x y a b, isint x a -> isint y b -> (Z.abs (a * b) <= 2 ^ 53)%Z -> isint (fmul x y) (a * b).
Proof.
  intros x y a b [F1 V1] [F2 V2] K. destruct (fmul_ok x y F1 F2) as [F3 V3]; [rewrite V1, V2, <- mult_IZR; apply int_big, K|].
  split; [exact F3|]. rewrite V3, V1, V2, <- mult_IZR. apply rnd_id, float_int, K.
Qed.
Lemma mul_bound : forall a b m n, (Z.abs a <= m -> Z.abs b <= n -> Z.abs (a * b) <= m * n)%Z.
Proof. intros a b m n A B. rewrite Z.abs_mul. apply Z.mul_le_mono_nonneg; lia. Qed.
(** The three-term sums of the circle. *)
Lemma isint_three : forall x1 x2 x3 y1 y2 y3 a1 a2 a3 b1 b2 b3 m n, isint x1 a1 -> isint x2 a2 -> isint x3 a3 -> isint y1 b1 -> isint y2 b2 -> isint y3 b3 ->
  (Z.abs a1 <= m)%Z -> (Z.abs a2 <= m)%Z -> (Z.abs a3 <= m)%Z -> (Z.abs b1 <= n)%Z -> (Z.abs b2 <= n)%Z -> (Z.abs b3 <= n)%Z -> (3 * (m * n) <= 2 ^ 53)%Z ->
  isint (fadd (fadd (fmul x1 y1) (fmul x2 y2)) (fmul x3 y3)) (a1 * b1 + a2 * b2 + a3 * b3) /\ (Z.abs (a1 * b1 + a2 * b2 + a3 * b3) <= 3 * (m * n))%Z.
Proof.
  intros x1 x2 x3 y1 y2 y3 a1 a2 a3 b1 b2 b3 m n X1 X2 X3 Y1 Y2 Y3 A1 A2 A3 B1 B2 B3 K.
  pose proof (mul_bound _ _ _ _ A1 B1) as M1. pose proof (mul_bound _ _ _ _ A2 B2) as M2. pose proof (mul_bound _ _ _ _ A3 B3) as M3.
  split; [|lia]. apply isint_add; [apply isint_add|apply isint_mul; [assumption|assumption|lia]|lia].
  - apply isint_mul; [assumption|assumption|lia].
  - apply isint_mul; [assumption|assumption|lia].
  - lia.
Qed.

Lemma quotient_ok : forall x y a b, isint x a -> isint y b -> (Z.abs a <= 2 ^ 53)%Z -> b <> 0%Z ->
  fin (fdiv x y) /\ V (fdiv x y) = rnd (IZR a / IZR b) /\ Rabs (V (fdiv x y)) <= bpow radix2 53.
Proof.
  intros x y a b [F1 V1] [F2 V2] A B.
  assert (NZ : IZR b <> 0) by (intro E; apply eq_IZR in E; contradiction).
  assert (Q : Rabs (IZR a / IZR b) <= bpow radix2 53).
  { unfold Rdiv. rewrite Rabs_mult, Rabs_inv, <- !abs_IZR. rewrite <- (IZR_pow2 53) by lia.
    assert (1 <= IZR (Z.abs b)) by (apply IZR_le; lia). assert (0 <= IZR (Z.abs a) <= IZR (2 ^ 53)) by (split; apply IZR_le; lia).
    assert (I1 : / IZR (Z.abs b) <= 1) by (rewrite <- Rinv_1; apply Rinv_le_contravar; lra). assert (I0 : 0 < / IZR (Z.abs b)) by (apply Rinv_0_lt_compat; lra). nra. }
  destruct (fdiv_ok x y F1) as [F3 V3]; [rewrite V2; exact NZ|rewrite V1, V2; eapply Rle_trans; [exact Q|apply bpow_le; lia]|].
  rewrite V1, V2 in V3. split; [exact F3|]. split; [exact V3|]. rewrite V3. apply rnd_abs_le; [apply float_pow2; lia|exact Q].
Qed.

Lemma centre_equations : forall p1 p2 q1 q2 r1 r2 nx ny dz : Z, IZR dz <> 0 ->
  IZR nx * (IZR q1 - IZR p1) + IZR ny * (IZR q2 - IZR p2) = IZR dz * (IZR q1 * IZR q1 + IZR q2 * IZR q2 - IZR p1 * IZR p1 - IZR p2 * IZR p2) ->
  IZR nx * (IZR r1 - IZR q1) + IZR ny * (IZR r2 - IZR q2) = IZR dz * (IZR r1 * IZR r1 + IZR r2 * IZR r2 - IZR q1 * IZR q1 - IZR q2 * IZR q2) ->
  Circumcentre (IZR nx / IZR (2 * dz)) (IZR ny / IZR (2 * dz)) (p1, p2) (q1, q2) (r1, r2).
Proof.
  intros p1 p2 q1 q2 r1 r2 nx ny dz NZ E1 E2. rewrite mult_IZR. unfold Circumcentre, sqd. cbn [fst snd].
  set (d := IZR dz) in *. set (x := IZR nx / (2 * d)). set (y := IZR ny / (2 * d)).
  assert (X : IZR nx = 2 * d * x) by (unfold x; field; exact NZ). assert (Y : IZR ny = 2 * d * y) by (unfold y; field; exact NZ).
  rewrite X, Y in E1, E2. clearbody x y.
  assert (G1 : 2 * x * (IZR q1 - IZR p1) + 2 * y * (IZR q2 - IZR p2) = IZR q1 * IZR q1 + IZR q2 * IZR q2 - IZR p1 * IZR p1 - IZR p2 * IZR p2) by (apply (Rmult_eq_reg_l d); [rewrite <- E1; ring|exact NZ]).
  assert (G2 : 2 * x * (IZR r1 - IZR q1) + 2 * y * (IZR r2 - IZR q2) = IZR r1 * IZR r1 + IZR r2 * IZR r2 - IZR q1 * IZR q1 - IZR q2 * IZR q2) by (apply (Rmult_eq_reg_l d); [rewrite <- E2; ring|exact NZ]).
  split; lra.
Qed.

(** ** C147 *)
(** Three points with integer coordinates up to 2^16: on a line the division by zero is
    raised, and otherwise the centre returned is the circumcentre, each coordinate
    correctly rounded, and the radius the computed distance between the two. *)
Theorem C147_circumscribed : forall p q r, within (2 ^ 16) p -> within (2 ^ 16) q -> within (2 ^ 16) r ->
  (area2 p q r = 0%Z -> circum64 (ipt p) (ipt q) (ipt r) = Raise ZeroDivisionError) /\
  (area2 p q r <> 0%Z -> exists rho cx cy x y, circum64 (ipt p) (ipt q) (ipt r) = Ok (rho, cx, cy) /\ Circumcentre x y p q r /\
     fin cx /\ V cx = rnd x /\ fin cy /\ V cy = rnd y /\ fin rho /\
     Rabs (V rho - sqrt (sqd (V cx) (V cy) p)) <= bpow radix2 (-51) * sqrt (sqd (V cx) (V cy) p) + bpow radix2 (-535)).
Proof.
  intros [p1 p2] [q1 q2] [r1 r2] [P1 P2] [Q1 Q2] [R1 R2]. cbn [fst snd] in *. change (2 ^ 16)%Z with 65536%Z in *.
  unfold circum64, ipt, area2. cbn [fst snd]. cbv zeta.
  assert (I : forall k, (Z.abs k <= 65536)%Z -> isint (fint k) k) by (intros k K; apply isint_fint; lia).
  assert (SB : forall a b, (Z.abs a <= 65536)%Z -> (Z.abs b <= 65536)%Z -> isint (fsub (fint a) (fint b)) (a - b)) by (intros a b A B; apply isint_sub; [auto|auto|lia]).
  assert (SQ : forall a b, (Z.abs a <= 65536)%Z -> (Z.abs b <= 65536)%Z -> isint (fadd (pow2 (fint a)) (pow2 (fint b))) (a * a + b * b) /\ (Z.abs (a * a + b * b) <= 2 * (65536 * 65536))%Z).
  { intros a b A B. pose proof (mul_bound a a _ _ A A) as M1. pose proof (mul_bound b b _ _ B B) as M2. split; [|lia]. unfold pow2. apply isint_add; [apply isint_mul; auto; lia|apply isint_mul; auto; lia|lia]. }
  destruct (SQ p1 p2 P1 P2) as [SP BP]. destruct (SQ q1 q2 Q1 Q2) as [SQQ BQ]. destruct (SQ r1 r2 R1 R2) as [SR BR].
  assert (DF : forall a b, (Z.abs a <= 65536)%Z -> (Z.abs b <= 65536)%Z -> (Z.abs (a - b) <= 131072)%Z) by (clear; intros a b A B; lia).
  destruct (isint_three _ _ _ _ _ _ _ _ _ _ _ _ 65536 131072 (I p1 P1) (I q1 Q1) (I r1 R1) (SB q2 r2 Q2 R2) (SB r2 p2 R2 P2) (SB p2 q2 P2 Q2) P1 Q1 R1 (DF _ _ Q2 R2) (DF _ _ R2 P2) (DF _ _ P2 Q2) ltac:(clear; lia)) as [DI DB].
  destruct (isint_three _ _ _ _ _ _ _ _ _ _ _ _ (2 * (65536 * 65536)) 131072 SP SQQ SR (SB q2 r2 Q2 R2) (SB r2 p2 R2 P2) (SB p2 q2 P2 Q2) BP BQ BR (DF _ _ Q2 R2) (DF _ _ R2 P2) (DF _ _ P2 Q2) ltac:(clear; lia)) as [XI XB].
  destruct (isint_three _ _ _ _ _ _ _ _ _ _ _ _ (2 * (65536 * 65536)) 131072 SP SQQ SR (SB r1 q1 R1 Q1) (SB p1 r1 P1 R1) (SB q1 p1 Q1 P1) BP BQ BR (DF _ _ R1 Q1) (DF _ _ P1 R1) (DF _ _ Q1 P1) ltac:(clear; lia)) as [YI YB].
  clear DF SQ SP SQQ SR BP BQ BR SB.
  set (dz := (p1 * (q2 - r2) + q1 * (r2 - p2) + r1 * (p2 - q2))%Z) in DI, DB.
  set (nx := ((p1 * p1 + p2 * p2) * (q2 - r2) + (q1 * q1 + q2 * q2) * (r2 - p2) + (r1 * r1 + r2 * r2) * (p2 - q2))%Z) in XI, XB.
  set (ny := ((p1 * p1 + p2 * p2) * (r1 - q1) + (q1 * q1 + q2 * q2) * (p1 - r1) + (r1 * r1 + r2 * r2) * (q1 - p1))%Z) in YI, YB.
  assert (AE : ((q1 - p1) * (r2 - p2) - (r1 - p1) * (q2 - p2) = dz)%Z) by (unfold dz; ring). rewrite AE. clear AE.
  assert (NX : IZR nx = (IZR p1 * IZR p1 + IZR p2 * IZR p2) * (IZR q2 - IZR r2) + (IZR q1 * IZR q1 + IZR q2 * IZR q2) * (IZR r2 - IZR p2) + (IZR r1 * IZR r1 + IZR r2 * IZR r2) * (IZR p2 - IZR q2)) by (unfold nx; rewrite ?plus_IZR, ?mult_IZR, ?minus_IZR, ?plus_IZR, ?mult_IZR; ring).
  assert (NY : IZR ny = (IZR p1 * IZR p1 + IZR p2 * IZR p2) * (IZR r1 - IZR q1) + (IZR q1 * IZR q1 + IZR q2 * IZR q2) * (IZR p1 - IZR r1) + (IZR r1 * IZR r1 + IZR r2 * IZR r2) * (IZR q1 - IZR p1)) by (unfold ny; rewrite ?plus_IZR, ?mult_IZR, ?minus_IZR, ?plus_IZR, ?mult_IZR; ring).
  assert (DZ : IZR dz = IZR p1 * (IZR q2 - IZR r2) + IZR q1 * (IZR r2 - IZR p2) + IZR r1 * (IZR p2 - IZR q2)) by (unfold dz; rewrite ?plus_IZR, ?mult_IZR, ?minus_IZR; ring).
  clearbody dz nx ny.
  assert (D2 := isint_mul (fint 2) _ 2 _ (isint_fint 2 ltac:(clear; lia)) DI ltac:(lia)).
  set (dd := fmul (fint 2) (fadd (fadd (fmul (fint p1) (fsub (fint q2) (fint r2))) (fmul (fint q1) (fsub (fint r2) (fint p2)))) (fmul (fint r1) (fsub (fint p2) (fint q2))))) in *.
  destruct (isint_fint 0 ltac:(lia)) as [F0 V0]. destruct D2 as [FD VD]. split; intro A.
  - rewrite (proj2 (feq_ok dd (fint 0) FD F0)); [reflexivity|]. rewrite VD, V0, A. reflexivity.
  - rewrite (feq_no dd (fint 0) FD F0) by (rewrite VD, V0; intro E; apply eq_IZR in E; lia).
    assert (D2 : isint dd (2 * dz)) by (split; assumption).
    destruct (quotient_ok _ _ _ _ XI D2 ltac:(lia) ltac:(lia)) as [FX [VX BX]]. destruct (quotient_ok _ _ _ _ YI D2 ltac:(lia) ltac:(lia)) as [FY [VY BY]].
    set (cx := fdiv _ dd) in FX, VX, BX. set (cy := fdiv _ dd) in FY, VY, BY. fold cx cy.
    assert (UC : usable (cx, cy)).
    { unfold usable. cbn [fst snd]. repeat split; try assumption; (eapply Rle_trans; [eassumption|apply bpow_le; lia]). }
    assert (UP : usable (fint p1, fint p2)).
    { destruct (I p1 P1) as [G1 G2]. destruct (I p2 P2) as [G3 G4]. unfold usable. cbn [fst snd]. repeat split; try assumption.
      - rewrite G2, <- abs_IZR. apply Rle_trans with (IZR (2 ^ 53)); [apply IZR_le; lia|]. rewrite IZR_pow2 by lia. apply bpow_le. lia.
      - rewrite G4, <- abs_IZR. apply Rle_trans with (IZR (2 ^ 53)); [apply IZR_le; lia|]. rewrite IZR_pow2 by lia. apply bpow_le. lia. }
    exists (distance64 cx cy (fint p1) (fint p2)), cx, cy, (IZR nx / IZR (2 * dz)), (IZR ny / IZR (2 * dz)).
    split; [reflexivity|]. split.
    { assert (NZ : IZR dz <> 0) by (intro E; apply eq_IZR in E; contradiction).
      apply centre_equations; try exact NZ; rewrite NX, NY, DZ; ring. }
    split; [exact FX|]. split; [exact VX|]. split; [exact FY|]. split; [exact VY|].
    unfold distance64. destruct (dist64_ok _ _ UC UP) as [FR _]. split; [exact FR|].
    pose proof (dist_error _ _ UC UP) as E. destruct (I p1 P1) as [_ G2]. destruct (I p2 P2) as [_ G4].
    assert (DE : D (cx, cy) (fint p1, fint p2) = sqrt (sqd (V cx) (V cy) (p1, p2))) by (unfold D, sqd; cbn [fst snd]; rewrite G2, G4; f_equal; ring).
    rewrite DE in E. exact E.
Qed.
Print Assumptions C147_circumscribed.

(** The choice of the point of a round: no radius and angle follow the chosen ones in
    numpy's order, NaN being last, and of several equal ones the last is taken. *)
Theorem C147_choice : forall keys, keys <> [] -> Forall (fun k => number (fst k) /\ number (snd k)) keys ->
  let i := lexmax64 keys in (i < length keys)%nat /\
  forall j, (j < length keys)%nat -> let k := nth j keys (fint 0, fint 0) in let m := nth i keys (fint 0, fint 0) in
    ~ LexBelow m k /\ ((i < j)%nat -> LexBelow k m).
Proof.
  intros [|k t] N F; [contradiction|]. cbn [lexmax64]. cbv zeta. apply (last_chosen t [k] 0%nat F). split; [cbn; lia|].
  intros j J. cbn in J. assert (j = 0)%nat by lia. subst j. split; [intro H; exact (lex_asym _ _ H H)|lia].
Qed.
Print Assumptions C147_choice.

Example C147_case_circumscribed : within (2 ^ 16) (0, 0)%Z /\ within (2 ^ 16) (4, 3)%Z /\ within (2 ^ 16) (4, -3)%Z /\ area2 (0, 0)%Z (4, 3)%Z (4, -3)%Z = (-24)%Z /\
  area2 (0, 0)%Z (1, 1)%Z (2, 2)%Z = 0%Z /\ Circumcentre (25 / 8) 0 (0, 0)%Z (4, 3)%Z (4, -3)%Z.
Proof. unfold within, Circumcentre, sqd. cbn [fst snd]. repeat split; try lia; lra. Qed.
(** Two equal radii, one with a NaN angle: it is the one chosen. *)
Example C147_case_choice : lexmax64 [(fint 2, B754_nan); (fint 2, fint 1); (fint 1, fint 3)] = 0%nat /\ LexBelow (fint 2, fint 1) (fint 2, B754_nan).
Proof.
  split; [vm_compute; reflexivity|]. right. cbn [fst snd]. split.
  - intro H. exact (below_asym _ _ H H).
  - right. split; [apply fint_ok; lia|reflexivity].
Qed.
