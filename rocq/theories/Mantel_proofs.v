(** Lemmas about mantel_full: the pairs, numpy's powers, the coefficient and equal distances. *)
From Coq Require Import ZArith QArith Qreals Reals List Bool Arith Lia Lqa Lra Psatz Permutation.
From Verif Require Import Base BaseLemmas Spec Quadrat_model Spacetime_model Spacetime_spec Pairs_proofs Spacetime_proofs Spacetime2_proofs Hyper_proofs
  Perms_proofs Spacetime_props Spacetime3_props CenterR_model CenterR_proofs PermMean_props KnoxSym_spec StSym_spec StSym_proofs StSym_props Mantel_model.
Import ListNotations.
Local Open Scope R_scope.

(** ** The number of pairs *)
Lemma lower_S : forall n, lower_idx (S n) = lower_idx n ++ map (pair n) (seq 0 n).
Proof. intro n. unfold lower_idx. rewrite seq_S, flat_map_app. cbn [flat_map Nat.add]. rewrite app_nil_r. reflexivity. Qed.
Lemma lower_len : forall n, (2 * List.length (lower_idx n) = n * (n - 1))%nat.
Proof. induction n as [|n IH]; [reflexivity|]. rewrite lower_S, app_length, map_length, seq_length. nia. Qed.
Lemma lower_two : forall n, (List.length (lower_idx n) < 2)%nat <-> (n <= 2)%nat.
Proof. intro n. pose proof (lower_len n). destruct (Nat.le_gt_cases n 2) as [L|G]; [|split; nia]. split; [lia|]. intros _. destruct n as [|[|[|n]]]; cbn in *; lia. Qed.
Lemma lower_same : forall n m, (3 <= m)%nat -> List.length (lower_idx n) = List.length (lower_idx m) -> n = m.
Proof. intros n m M E. pose proof (lower_len n). pose proof (lower_len m). rewrite E in *. nia. Qed.

(** ** Lists of numbers *)
Lemma numbers_map : forall A (f : A -> xr) l, (forall x, In x l -> exists v, f x = Num v) -> exists g, (forall x, In x l -> f x = Num (g x)) /\ numbers (map f l) = Some (map g l).
Proof.
  intros A f l H. set (g := fun x => match f x with Num v => v | _ => 0 end). exists g.
  assert (G : forall x, In x l -> f x = Num (g x)) by (intros x X; destruct (H x X) as [v V]; unfold g; rewrite V; reflexivity).
  split; [exact G|]. clear H. induction l as [|a l IH]; [reflexivity|]. cbn [map numbers]. rewrite (G a) at 1 by (left; reflexivity). rewrite IH by (intros; apply G; right; assumption). reflexivity.
Qed.
Lemma numbers_some : forall A (f : A -> xr) (g : A -> R) l, (forall x, In x l -> f x = Num (g x)) -> numbers (map f l) = Some (map g l).
Proof. intros A f g l G. induction l as [|a l IH]; [reflexivity|]. cbn [map numbers]. rewrite (G a) at 1 by (left; reflexivity). rewrite IH by (intros; apply G; right; assumption). reflexivity. Qed.
Lemma numbers_none : forall A (f : A -> xr) l x, In x l -> (forall v, f x <> Num v) -> numbers (map f l) = None.
Proof.
  intros A f l. induction l as [|a l IH]; intros x X N; [destruct X|]. destruct X as [X|X].
  - subst a. cbn [map numbers]. destruct (f x) as [v| |]; [exfalso; apply (N v); reflexivity|reflexivity|reflexivity].
  - cbn [map numbers]. rewrite (IH x X N). destruct (f a); reflexivity.
Qed.
Lemma mapM_map : forall A B (f : A -> res B) (g : A -> B) l, (forall x, In x l -> f x = Ok (g x)) -> mapM f l = Ok (map g l).
Proof. intros A B f g l H. induction l as [|a l IH]; [reflexivity|]. cbn [mapM map]. rewrite (H a) by (left; reflexivity). cbn [bind]. rewrite IH by (intros; apply H; right; assumption). reflexivity. Qed.

(** ** Constant lists *)
Lemma Rsum_squares_zero : forall A (h : A -> R) l, Rsum (map (fun x => h x * h x) l) = 0 -> forall x, In x l -> h x = 0.
Proof.
  intros A h l. assert (NN : forall m, 0 <= Rsum (map (fun x => h x * h x) m)).
  { induction m as [|a m IH]; [right; reflexivity|]. cbn [map]. change (Rsum (?u :: ?v)) with (u + Rsum v). nra. }
  induction l as [|a l IH]; intros E x X; [destruct X|]. cbn [map] in E. change (Rsum (?u :: ?v)) with (u + Rsum v) in E. pose proof (NN l). destruct X as [<-|X]; [nra|]. apply IH; [nra|exact X].
Qed.
Lemma spread_zero : forall A (f : A -> R) l, l <> [] -> dot (dev (map f l)) (dev (map f l)) = 0 <-> (forall x y, In x l -> In y l -> f x = f y).
Proof.
  intros A f l NE. rewrite dot_dev. split.
  - intros E x y X Y. pose proof (Rsum_squares_zero _ (fun x => f x - rmean (map f l)) l E) as H. cbv beta in H. pose proof (H x X). pose proof (H y Y). lra.
  - intro H. destruct l as [|a l]; [contradiction|]. set (m := a :: l) in *. assert (M : rmean (map f m) = f a).
    { unfold rmean. rewrite (Rsum_ext _ _ (fun _ => f a)) by (intros x X; apply H; [exact X|left; reflexivity]). rewrite Rsum_const, map_length. field. apply not_0_INR. discriminate. }
    rewrite (Rsum_ext _ _ (fun _ => 0)); [rewrite Rsum_const; ring|]. intros x X. rewrite M, (H x a X (or_introl eq_refl)). ring.
Qed.

(** ** The range of the coefficient *)
Section Range.
Variables (A : Type) (f g : A -> R) (l : list A).
Let a0 := rmean (map f l).
Let b0 := rmean (map g l).
Let N := dot (dev (map f l)) (dev (map f l)).
Let M := dot (dev (map g l)) (dev (map g l)).
Let C := dot (dev (map f l)) (dev (map g l)).
Hypothesis HN : N <> 0.
Hypothesis HM : M <> 0.
Lemma both_pos : 0 < sqrt N /\ 0 < sqrt M /\ sqrt N * sqrt N = N /\ sqrt M * sqrt M = M.
Proof using HN HM.
  pose proof (dot_dev_nonneg (map f l)) as A1. pose proof (dot_dev_nonneg (map g l)) as B1. fold N in A1. fold M in B1.
  split; [apply sqrt_lt_R0; lra|]. split; [apply sqrt_lt_R0; lra|]. split; apply sqrt_sqrt; assumption.
Qed.
Lemma mixed : forall c, Rsum (map (fun x => ((g x - b0) * sqrt N - c * (f x - a0) * sqrt M) * ((g x - b0) * sqrt N - c * (f x - a0) * sqrt M)) l) = N * M + c * c * (N * M) - 2 * c * (sqrt N * sqrt M) * C.
Proof using HN HM.
  intro c. destruct both_pos as [_ [_ [SN SM]]].
  rewrite (Rsum_ext _ _ (fun x => N * ((g x - b0) * (g x - b0)) + (c * c * M * ((f x - a0) * (f x - a0)) + (- 2 * c * (sqrt N * sqrt M)) * ((f x - a0) * (g x - b0))))).
  - rewrite (Rsum_plus A (fun x => N * ((g x - b0) * (g x - b0)))), (Rsum_plus A (fun x => c * c * M * ((f x - a0) * (f x - a0)))), !Rsum_scale.
    unfold a0, b0. rewrite <- (dot_dev A g g l), <- (dot_dev A f f l), <- (dot_dev A f g l). fold N M C. ring.
  - intros x _. set (p := g x - b0). set (q := f x - a0). clearbody p q. clear - SN SM. replace (N * (p * p)) with (sqrt N * sqrt N * (p * p)) by (rewrite SN; reflexivity). replace (c * c * M * (q * q)) with (c * c * (sqrt M * sqrt M) * (q * q)) by (rewrite SM; reflexivity). ring.
Qed.
Lemma sum_nonneg : forall h : A -> R, 0 <= Rsum (map (fun x => h x * h x) l).
Proof using. intro h. clear. induction l as [|a m IH]; [right; reflexivity|]. cbn [map]. change (Rsum (?u :: ?v)) with (u + Rsum v). nra. Qed.
Lemma corr_value : corr (map f l) (map g l) * (sqrt N * sqrt M) = C.
Proof using HN HM. destruct both_pos as [P [Q _]]. unfold corr. fold N M C. field. split; lra. Qed.
Lemma corr_range : -1 <= corr (map f l) (map g l) <= 1.
Proof using HN HM.
  destruct both_pos as [P [Q [SN SM]]]. pose proof corr_value as V. set (r := corr (map f l) (map g l)) in *. clearbody r. set (w := sqrt N * sqrt M) in *.
  assert (W : 0 < w) by (apply Rmult_lt_0_compat; assumption). assert (WW : w * w = N * M) by (unfold w; rewrite <- SN at 3; rewrite <- SM at 3; ring).
  pose proof (mixed 1) as E1. pose proof (mixed (-1)) as E2. fold w in E1, E2.
  pose proof (sum_nonneg (fun x => (g x - b0) * sqrt N - 1 * (f x - a0) * sqrt M)) as S1. pose proof (sum_nonneg (fun x => (g x - b0) * sqrt N - (-1) * (f x - a0) * sqrt M)) as S2. cbv beta in S1, S2.
  rewrite E1 in S1. rewrite E2 in S2. rewrite <- V, <- WW in S1, S2. clear - W S1 S2. split; apply Rmult_le_reg_r with (w * w); nra.
Qed.
Lemma corr_one : forall c, c * c = 1 -> (corr (map f l) (map g l) = c <-> exists a b, 0 < c * a /\ forall x, In x l -> g x = a * f x + b).
Proof using HN HM.
  intros c Hc. destruct both_pos as [P [Q [SN SM]]]. pose proof corr_value as V. set (w := sqrt N * sqrt M) in *. assert (W : 0 < w) by (apply Rmult_lt_0_compat; assumption).
  assert (WW : w * w = N * M) by (unfold w; rewrite <- SN at 3; rewrite <- SM at 3; ring). split.
  - intro E. rewrite E in V. pose proof (mixed c) as X. fold w in X. rewrite <- V, <- WW in X. replace (w * w + c * c * (w * w) - 2 * c * w * (c * w)) with ((1 - c * c) * (w * w)) in X by ring. rewrite Hc in X.
    replace ((1 - 1) * (w * w)) with 0 in X by ring. pose proof (Rsum_squares_zero _ (fun x => (g x - b0) * sqrt N - c * (f x - a0) * sqrt M) l X) as H. cbv beta in H.
    exists (c * sqrt M / sqrt N), (b0 - c * sqrt M / sqrt N * a0). split.
    + replace (c * (c * sqrt M / sqrt N)) with (c * c * (sqrt M / sqrt N)) by (unfold Rdiv; ring). rewrite Hc, Rmult_1_l. apply Rdiv_lt_0_compat; assumption.
    + intros x I. specialize (H x I). apply Rmult_eq_reg_r with (sqrt N); [|lra]. replace ((c * sqrt M / sqrt N * f x + (b0 - c * sqrt M / sqrt N * a0)) * sqrt N) with (c * sqrt M * (f x - a0) + b0 * sqrt N) by (field; lra). lra.
  - intros [a [b [Ha H]]]. assert (NEl : l <> []). { intro X. apply HN. unfold N. rewrite X. reflexivity. }
    assert (B0 : b0 = a * a0 + b).
    { unfold b0, a0, rmean. rewrite (Rsum_ext _ _ (fun x => a * f x + b)) by exact H. rewrite (Rsum_plus A (fun x => a * f x) (fun _ => b)), Rsum_scale, Rsum_const, !map_length.
      assert (INR (List.length l) <> 0) by (apply not_0_INR; destruct l; [contradiction|discriminate]). field. assumption. }
    assert (CE : C = a * N).
    { unfold C, N. rewrite !dot_dev, <- Rsum_scale. fold a0 b0. apply Rsum_ext. intros x I. rewrite (H x I), B0. ring. }
    assert (ME : M = a * a * N).
    { unfold M, N. rewrite !dot_dev, <- Rsum_scale. fold a0 b0. apply Rsum_ext. intros x I. rewrite (H x I), B0. ring. }
    assert (wE : w = c * a * N).
    { assert (NP : 0 < N) by (rewrite <- SN; apply Rmult_lt_0_compat; assumption). assert (X : w * w = (c * a * N) * (c * a * N)) by (rewrite WW, ME; replace (c * a * N * (c * a * N)) with (c * c * (a * a * N * N)) by ring; rewrite Hc; ring).
      assert (0 < c * a * N) by (apply Rmult_lt_0_compat; assumption). nra. }
    rewrite CE in V. apply Rmult_eq_reg_r with w; [|lra]. rewrite V, wE. replace (c * (c * a * N)) with (c * c * (a * N)) by ring. rewrite Hc. ring.
Qed.
End Range.

(** ** Powers *)
Lemma power_zero : forall b, power b 0 = Num 1.
Proof. intro b. unfold power. destruct (Req_EM_T 0 0) as [_|N]; [reflexivity|contradiction]. Qed.
Lemma power_pos : forall b p, 0 < b -> power b p = Num (Rpower b p).
Proof.
  intros b p B. unfold power. destruct (Req_EM_T p 0) as [->|_]; [rewrite Rpower_O by exact B; reflexivity|]. destruct (Rlt_dec 0 b) as [_|N]; [reflexivity|contradiction].
Qed.
Lemma power_one : forall b, power b 1 = Num b.
Proof.
  intro b. unfold power. destruct (Req_EM_T 1 0) as [E|_]; [lra|]. destruct (Rlt_dec 0 b) as [B|B]; [rewrite Rpower_1 by exact B; reflexivity|].
  destruct (Req_EM_T b 0) as [->|NZ]; [destruct (Rlt_dec 0 1) as [_|X]; [reflexivity|lra]|].
  assert (I1 : Int_part 1 = 1%Z) by (unfold Int_part; rewrite <- (tech_up 1 2); [reflexivity|simpl; lra|simpl; lra]). rewrite I1. destruct (Req_EM_T 1 (IZR 1)) as [_|X]; [|lra]. f_equal. simpl. ring.
Qed.
Lemma power_at_zero : forall p, p < 0 -> power 0 p = Infinite.
Proof. intros p P. unfold power. destruct (Req_EM_T p 0) as [E|_]; [lra|]. destruct (Rlt_dec 0 0) as [X|_]; [lra|]. destruct (Req_EM_T 0 0) as [_|X]; [|contradiction]. destruct (Rlt_dec 0 p) as [X|_]; [lra|reflexivity]. Qed.
Lemma power_up_zero : forall p, 0 < p -> power 0 p = Num 0.
Proof. intros p P. unfold power. destruct (Req_EM_T p 0) as [E|_]; [lra|]. destruct (Rlt_dec 0 0) as [X|_]; [lra|]. destruct (Req_EM_T 0 0) as [_|X]; [|contradiction]. destruct (Rlt_dec 0 p) as [_|X]; [reflexivity|lra]. Qed.
Lemma Rpower_inj : forall p b c, p <> 0 -> 0 < b -> 0 < c -> Rpower b p = Rpower c p -> b = c.
Proof. intros p b c P B C E. unfold Rpower in E. apply exp_inv in E. apply Rmult_eq_reg_l in E; [|exact P]. apply ln_inv; assumption. Qed.
(** On non-negative numbers, except for a zero with a negative exponent, a power other than 0 is a number and determines its base. *)
Lemma power_number : forall b p, 0 <= b -> (b = 0 -> 0 <= p) -> exists v, power b p = Num v.
Proof.
  intros b p B H. destruct (Req_EM_T p 0) as [->|P]; [exists 1; apply power_zero|]. destruct (Req_EM_T b 0) as [->|NZ]; [exists 0; apply power_up_zero; specialize (H eq_refl); lra|]. exists (Rpower b p). apply power_pos. lra.
Qed.
Lemma power_inj : forall p b c, p <> 0 -> 0 <= b -> 0 <= c -> (b = 0 -> 0 <= p) -> (c = 0 -> 0 <= p) -> power b p = power c p -> b = c.
Proof.
  intros p b c P B C HB HC E. assert (PP : forall x, 0 < Rpower x p) by (intro; apply exp_pos). pose proof (PP b). pose proof (PP c).
  destruct (Req_EM_T b 0) as [->|NB]; destruct (Req_EM_T c 0) as [->|NC]; [reflexivity| | |].
  - specialize (HB eq_refl). rewrite power_up_zero, power_pos in E by lra. injection E as E. lra.
  - specialize (HC eq_refl). rewrite (power_up_zero p), power_pos in E by lra. injection E as E. lra.
  - rewrite !power_pos in E by lra. injection E as E. apply (Rpower_inj p); try assumption; lra.
Qed.

(** ** Equal distances *)
Local Open Scope Z_scope.
Lemma no_root3_Z : forall k y x : Z, 0 <= k -> 0 <= y <= k -> x * x = 3 * (y * y) -> y = 0.
Proof.
  intros k y x K. revert y x. pattern k. apply natlike_ind; [| |exact K].
  - intros y x Y _. lia.
  - intros m Mz IH y x Y E. assert (X3 : exists z, x = 3 * z).
    { pose proof (Z.div_mod x 3 ltac:(lia)) as D. pose proof (Z.mod_pos_bound x 3 ltac:(lia)) as B. exists (x / 3). assert (x mod 3 = 0 \/ x mod 3 = 1 \/ x mod 3 = 2) as [R|[R|R]] by lia; [lia| |]; exfalso; rewrite R in D; set (q := x / 3) in *; clearbody q; subst x; lia. }
    destruct X3 as [z ->]. assert (E2 : y * y = 3 * (z * z)) by lia.
    assert (Y3 : exists w, y = 3 * w).
    { pose proof (Z.div_mod y 3 ltac:(lia)) as D. pose proof (Z.mod_pos_bound y 3 ltac:(lia)) as B. exists (y / 3). assert (y mod 3 = 0 \/ y mod 3 = 1 \/ y mod 3 = 2) as [R|[R|R]] by lia; [lia| |]; exfalso; rewrite R in D; set (q := y / 3) in *; clearbody q; subst y; lia. }
    destruct Y3 as [w ->]. assert (E3 : z * z = 3 * (w * w)) by lia. destruct (Z.eq_dec w 0) as [->|W]; [reflexivity|]. exfalso. apply W. apply (IH w z); [lia|exact E3].
Qed.
Local Open Scope Q_scope.
Lemma no_root3 : forall x y : Q, x * x == 3 * (y * y) -> y == 0.
Proof.
  intros [xn xd] [yn yd] E. unfold Qeq in E. cbn [Qmult Qnum Qden] in E. unfold Qeq. cbn [Qnum Qden]. rewrite !Pos2Z.inj_mul, !Z.mul_1_l in E.
  assert (H : (Z.abs (yn * Z.pos xd)) = 0%Z).
  { apply (no_root3_Z (Z.abs (yn * Z.pos xd)) _ (xn * Z.pos yd)); [apply Z.abs_nonneg|split; [apply Z.abs_nonneg|apply Z.le_refl]|]. rewrite Z.abs_square.
    replace (xn * Z.pos yd * (xn * Z.pos yd))%Z with (xn * xn * (Z.pos yd * Z.pos yd))%Z by ring. rewrite E. ring. }
  apply Z.abs_0_iff, Z.eq_mul_0 in H. destruct H as [->|H]; [reflexivity|discriminate H].
Qed.
(** Three points of the plane with rational coordinates, and three numbers, at the same
    distance from each other coincide. *)
Lemma no_equilateral : forall ax ay bx by_ d : Q, ax * ax + ay * ay == d -> bx * bx + by_ * by_ == d -> (ax - bx) * (ax - bx) + (ay - by_) * (ay - by_) == d -> d == 0.
Proof.
  intros ax ay bx by_ d A B C. apply (no_root3 (2 * (ax * by_ - ay * bx)) d).
  assert (DT : 2 * (ax * bx + ay * by_) == d) by Lqa.lra.
  setoid_replace (2 * (ax * by_ - ay * bx) * (2 * (ax * by_ - ay * bx))) with (4 * ((ax * ax + ay * ay) * (bx * bx + by_ * by_)) - (2 * (ax * bx + ay * by_)) * (2 * (ax * bx + ay * by_))) by ring.
  rewrite A, B, DT. ring.
Qed.
