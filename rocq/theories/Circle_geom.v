(** Plane geometry for the minimum bounding circle: circumscribed circles of the
    vertices of a strictly convex polygon given clockwise. *)
From Coq Require Import Reals Lra Lia Psatz Arith.
From Verif Require Import Base CenterR_model CenterR_spec.
Local Open Scope R_scope.

(** Squared distance, dot product at the middle point, and (twice) the area of
    the triangle, positive when the three points turn clockwise. *)
Definition sq (p q : rpt) : R := (fst p - fst q) ^ 2 + (snd p - snd q) ^ 2.
Definition dot (p q r : rpt) : R := (fst p - fst q) * (fst r - fst q) + (snd p - snd q) * (snd r - snd q).
Definition turn (p q r : rpt) : R := (snd q - snd p) * (fst r - fst p) - (fst q - fst p) * (snd r - snd p).
(** Cotangent of the angle at [q]. *)
Definition cot (p q r : rpt) : R := dot p q r / turn p q r.
(** Squared circumradius. *)
Definition R2 (p q r : rpt) : R := sq p q * sq q r * sq p r / (4 * (turn p q r) ^ 2).
(** Circumcentre. *)
Definition ccx (p q r : rpt) : R :=
  ((fst p ^ 2 + snd p ^ 2) * (snd q - snd r) + (fst q ^ 2 + snd q ^ 2) * (snd r - snd p) +
   (fst r ^ 2 + snd r ^ 2) * (snd p - snd q)) / (- 2 * turn p q r).
Definition ccy (p q r : rpt) : R :=
  ((fst p ^ 2 + snd p ^ 2) * (fst r - fst q) + (fst q ^ 2 + snd q ^ 2) * (fst p - fst r) +
   (fst r ^ 2 + snd r ^ 2) * (fst q - fst p)) / (- 2 * turn p q r).
Definition cc (p q r : rpt) : rpt := (ccx p q r, ccy p q r).
(** Power of the point [u] with respect to the circle through [p], [q], [r]. *)
Definition pw (p q r u : rpt) : R := dot p u q - cot p r q * turn p u q.

Ltac geo := unfold pw, cc, ccx, ccy, R2, cot, sq, dot, turn in *; cbn [fst snd] in *.

Lemma turn_cycle : forall p q r, turn q r p = turn p q r.
Proof. intros. geo. ring. Qed.
Lemma turn_swap : forall p q r, turn p r q = - turn p q r.
Proof. intros. geo. ring. Qed.
Lemma turn_rev : forall p q r, turn r q p = - turn p q r.
Proof. intros. geo. ring. Qed.
Lemma dot_sym : forall p q r, dot r q p = dot p q r.
Proof. intros. geo. ring. Qed.
Lemma sq_sym : forall p q, sq p q = sq q p.
Proof. intros. geo. ring. Qed.
Lemma sq_nonneg : forall p q, 0 <= sq p q.
Proof. intros. unfold sq. apply Rplus_le_le_0_compat; apply pow2_ge_0. Qed.
Lemma sq_pos_turn : forall p q r, turn p q r <> 0 -> 0 < sq p q /\ 0 < sq q r /\ 0 < sq p r.
Proof.
  intros p q r H.
  assert (Z : forall a b : R, a ^ 2 + b ^ 2 = 0 -> a = 0 /\ b = 0) by (intros; apply Rplus_sqr_eq_0; unfold Rsqr; lra).
  assert (P : forall p q, sq p q <> 0 -> 0 < sq p q) by (intros a b X; pose proof (sq_nonneg a b); lra).
  repeat split; apply P; intro X; apply H; unfold sq in X; apply Z in X; destruct X as [X1 X2]; unfold turn;
    [replace (snd q) with (snd p) by lra; replace (fst q) with (fst p) by lra
    |replace (snd q) with (snd r) by lra; replace (fst q) with (fst r) by lra
    |replace (snd r) with (snd p) by lra; replace (fst r) with (fst p) by lra]; ring.
Qed.

Lemma lagrange : forall p q r, sq p q * sq r q = dot p q r ^ 2 + turn p q r ^ 2.
Proof. intros. geo. ring. Qed.
Lemma R2_cycle : forall p q r, R2 q r p = R2 p q r.
Proof. intros. unfold R2. rewrite turn_cycle, (sq_sym r p), (sq_sym q p). unfold Rdiv. ring. Qed.
Lemma R2_cot : forall p q r, turn p q r <> 0 -> R2 p q r = sq p r * (1 + cot p q r ^ 2) / 4.
Proof.
  intros p q r H. unfold R2, cot.
  replace (sq p q * sq q r * sq p r) with (sq p r * (sq p q * sq r q)) by (rewrite (sq_sym q r); ring).
  rewrite lagrange. field. exact H.
Qed.
Lemma R2_pos : forall p q r, turn p q r <> 0 -> 0 < R2 p q r.
Proof.
  intros p q r H. rewrite R2_cot by auto. destruct (sq_pos_turn p q r H) as (_ & _ & P).
  assert (0 <= cot p q r ^ 2) by apply pow2_ge_0. nra.
Qed.

(** The circumcentre is equidistant. *)
Lemma cc_p : forall p q r, turn p q r <> 0 -> sq p (cc p q r) = R2 p q r.
Proof. intros p q r H. geo. field. lra. Qed.
Lemma cc_q : forall p q r, turn p q r <> 0 -> sq q (cc p q r) = R2 p q r.
Proof. intros p q r H. geo. field. lra. Qed.
Lemma cc_r : forall p q r, turn p q r <> 0 -> sq r (cc p q r) = R2 p q r.
Proof. intros p q r H. geo. field. lra. Qed.

(** The power of a point. *)
Lemma pw_value : forall p q r u, turn p q r <> 0 -> pw p q r u = sq u (cc p q r) - R2 p q r.
Proof.
  intros p q r u H. rewrite <- cc_p by exact H.
  replace (sq u (cc p q r) - sq p (cc p q r)) with
    (fst u ^ 2 + snd u ^ 2 - fst p ^ 2 - snd p ^ 2 - 2 * ccx p q r * (fst u - fst p) - 2 * ccy p q r * (snd u - snd p))
    by (unfold sq, cc; cbn [fst snd]; ring).
  unfold pw, cot, ccx, ccy. rewrite (turn_swap p q r). geo. field. lra.
Qed.
Lemma cc_cycle : forall p q r, cc q r p = cc p q r.
Proof.
  intros. unfold cc, ccx, ccy. rewrite turn_cycle. f_equal; unfold Rdiv; ring.
Qed.
Lemma pw_cycle : forall p q r u, turn p q r <> 0 -> pw q r p u = pw p q r u.
Proof.
  intros p q r u H. rewrite (pw_value p q r u H).
  rewrite (pw_value q r p u) by (rewrite turn_cycle; exact H). rewrite cc_cycle, R2_cycle. reflexivity.
Qed.
Lemma turn_cycle2 : forall p q r, turn r p q = turn p q r.
Proof. intros. geo. ring. Qed.
Lemma R2_cycle2 : forall p q r, R2 r p q = R2 p q r.
Proof. intros. rewrite (R2_cycle q r p), (R2_cycle p q r). reflexivity. Qed.
Lemma pw_cycle2 : forall p q r u, turn p q r <> 0 -> pw r p q u = pw p q r u.
Proof.
  intros p q r u H. rewrite (pw_cycle q r p u) by (rewrite turn_cycle; exact H). apply pw_cycle. exact H.
Qed.

(** On the two sides of a chord [p q]. A point [u] before the chord (clockwise
    from p over u to q) is inside iff its angle is large enough. *)
Lemma pw_near : forall p q r u, 0 < turn p q r -> 0 < turn p u q ->
  (pw p q r u <= 0 <-> cot p u q <= - cot q r p).
Proof.
  intros p q r u H U. unfold pw. assert (H' : turn q r p <> 0) by (rewrite turn_cycle; lra).
  assert (E : cot p r q = - cot q r p).
  { unfold cot. rewrite (turn_rev q r p), (dot_sym q r p). field. exact H'. }
  rewrite E. replace (dot p u q) with (cot p u q * turn p u q) by (unfold cot; field; lra).
  split; intro X; nra.
Qed.
(** A point on the same side as [r]. *)
Lemma pw_far : forall p q r u, 0 < turn p q r -> 0 < turn p q u ->
  (pw p q r u <= 0 <-> cot q u p <= cot q r p).
Proof.
  intros p q r u H U. unfold pw. assert (H' : turn q r p <> 0) by (rewrite turn_cycle; lra).
  assert (E : cot p r q = - cot q r p).
  { unfold cot. rewrite (turn_rev q r p), (dot_sym q r p). field. exact H'. }
  rewrite E. assert (T : turn p u q = - turn p q u) by apply turn_swap. rewrite T.
  assert (T2 : turn q u p = turn p q u) by (rewrite turn_cycle; reflexivity).
  replace (dot p u q) with (cot q u p * turn p q u) by (unfold cot; rewrite T2, dot_sym; field; lra).
  split; intro X; nra.
Qed.
(** The three vertices are on the circle. *)
Lemma pw_vertices : forall p q r, turn p q r <> 0 -> pw p q r p = 0 /\ pw p q r q = 0 /\ pw p q r r = 0.
Proof.
  intros p q r H. rewrite !pw_value by auto. rewrite cc_p, cc_q, cc_r by auto. lra.
Qed.

(** Two angles of a triangle add up to less than pi. *)
Lemma cot_sum : forall p q r, 0 < turn p q r -> 0 < cot p q r + cot q r p.
Proof.
  intros p q r H. unfold cot. rewrite (turn_cycle p q r).
  replace (dot p q r / turn p q r + dot q r p / turn p q r) with (sq q r / turn p q r) by (geo; field; lra).
  destruct (sq_pos_turn p q r ltac:(lra)) as (_ & P & _). apply Rdiv_lt_0_compat; auto.
Qed.

(** The largest value of a function on an interval. *)
Lemma max_on : forall (f : nat -> R) a b, (a < b)%nat ->
  exists m, (a <= m < b)%nat /\ forall l, (a <= l < b)%nat -> f l <= f m.
Proof.
  intros f a b H. induction b as [|b IH]; [lia|].
  destruct (Nat.eq_dec a b) as [->|N].
  - exists b. split; [lia|]. intros l Hl. replace l with b by lia. lra.
  - destruct IH as (m & M1 & M2); [lia|]. destruct (Rle_dec (f b) (f m)) as [L|L].
    + exists m. split; [lia|]. intros l Hl. destruct (Nat.eq_dec l b) as [->|]; auto. apply M2. lia.
    + exists b. split; [lia|]. intros l Hl. destruct (Nat.eq_dec l b) as [->|]; [lra|].
      specialize (M2 l ltac:(lia)). lra.
Qed.

Section Polygon.
(** A strictly convex polygon with [n] vertices, clockwise, indexed cyclically. *)
Variable n : nat.
Variable v : nat -> rpt.
Hypothesis per : forall i, v (i + n)%nat = v i.
Hypothesis convex : forall i j k, (i < j)%nat -> (j < k)%nat -> (k < i + n)%nat -> 0 < turn (v i) (v j) (v k).

Definition R2c (l : nat) : R := R2 (v l) (v (l + 1)) (v (l + 2)).
Definition cotc (l : nat) : R := cot (v l) (v (l + 1)) (v (l + 2)).

(** A chain of vertices inside a circle, on a short arc of it, contains three
    consecutive vertices with at least that circumradius, and a large angle. *)
Lemma chain : forall d i j k, (j - i <= d)%nat -> (i + 1 < j)%nat -> (j < i + n)%nat -> 0 <= k ->
  (forall l, (i < l < j)%nat -> cot (v i) (v l) (v j) <= - k) ->
  exists l, (i <= l)%nat /\ (l + 2 <= j)%nat /\ sq (v i) (v j) * (1 + k ^ 2) / 4 <= R2c l /\ cotc l <= - k.
Proof.
  induction d as [|d IH]; intros i j k D IJ JN K H; [lia|].
  destruct (max_on (fun l => cot (v i) (v l) (v j)) (i + 1) j ltac:(lia)) as (m & M1 & M2).
  assert (Km : cot (v i) (v m) (v j) <= - k) by (apply H; lia).
  assert (Tm : 0 < turn (v i) (v m) (v j)) by (apply convex; lia).
  assert (SQ : 0 < sq (v i) (v j)) by (apply (sq_pos_turn (v i) (v m) (v j)); lra).
  assert (RB : sq (v i) (v j) * (1 + k ^ 2) / 4 <= R2 (v i) (v m) (v j)).
  { rewrite R2_cot by lra. set (c := cot (v i) (v m) (v j)) in *.
    assert (k ^ 2 <= c ^ 2) by nra. nra. }
  assert (IN : forall l, (i < l < j)%nat -> pw (v j) (v i) (v m) (v l) <= 0).
  { intros l Hl. assert (Tl : 0 < turn (v i) (v l) (v j)) by (apply convex; lia).
    apply pw_far.
    - rewrite <- turn_cycle. exact Tm.
    - rewrite <- turn_cycle. exact Tl.
    - apply M2. lia. }
  assert (Tm2 : 0 < turn (v j) (v i) (v m)) by (rewrite <- turn_cycle; exact Tm).
  destruct (Nat.eq_dec m (i + 1)) as [Em|Em].
  - destruct (Nat.eq_dec (m + 1) j) as [Ej|Ej].
    + exists i. split; [lia|]. split; [lia|]. unfold R2c, cotc.
      replace (i + 1)%nat with m by lia. replace (i + 2)%nat with j by lia. auto.
    + (* recursion on m .. j *)
      set (k2 := cot (v j) (v i) (v m)).
      assert (K2 : - cot (v i) (v m) (v j) < k2).
      { unfold k2. pose proof (cot_sum (v j) (v i) (v m) Tm2). lra. }
      destruct (IH m j k2) as (l & L1 & L2 & L3 & L4); try lia; [lra| |].
      * intros l Hl. assert (Tl : 0 < turn (v m) (v l) (v j)) by (apply convex; lia).
        unfold k2. apply pw_near; [rewrite <- turn_cycle; exact Tm2|exact Tl|].
        rewrite <- pw_cycle; [|rewrite <- turn_cycle; lra]. apply IN. lia.
      * exists l. split; [lia|]. split; [lia|]. split; [|lra].
        eapply Rle_trans; [exact RB|]. eapply Rle_trans; [|exact L3].
        assert (E : R2 (v i) (v m) (v j) = sq (v m) (v j) * (1 + k2 ^ 2) / 4).
        { transitivity (R2 (v j) (v i) (v m)); [apply R2_cycle|]. rewrite R2_cot by lra.
          rewrite (sq_sym (v j) (v m)). reflexivity. }
        lra.
  - (* recursion on i .. m *)
    set (k2 := cot (v m) (v j) (v i)).
    assert (K2 : - cot (v i) (v m) (v j) < k2).
    { unfold k2. pose proof (cot_sum (v i) (v m) (v j) Tm). lra. }
    destruct (IH i m k2) as (l & L1 & L2 & L3 & L4); try lia; [lra| |].
    + intros l Hl. assert (Tl : 0 < turn (v i) (v l) (v m)) by (apply convex; lia).
      unfold k2. apply pw_near; [exact Tm|exact Tl|].
      rewrite pw_cycle by lra. apply IN. lia.
    + exists l. split; [lia|]. split; [lia|]. split; [|lra].
      eapply Rle_trans; [exact RB|]. eapply Rle_trans; [|exact L3].
      assert (E : R2 (v i) (v m) (v j) = sq (v i) (v m) * (1 + k2 ^ 2) / 4).
      { transitivity (R2 (v m) (v j) (v i)); [symmetry; apply R2_cycle|].
        rewrite R2_cot by (rewrite turn_cycle; lra). rewrite (sq_sym (v m) (v i)). reflexivity. }
      lra.
Qed.

Hypothesis n3 : (3 <= n)%nat.

Lemma window : forall a l, exists l', (a <= l' < a + n)%nat /\ v l' = v l.
Proof.
  intros a l. induction a as [|a IH].
  - exists (l mod n)%nat. split; [pose proof (Nat.mod_upper_bound l n); lia|].
    assert (P : forall k i, v (i + k * n)%nat = v i).
    { induction k as [|k IHk]; intro i; [f_equal; lia|]. replace (i + S k * n)%nat with ((i + k * n) + n)%nat by lia.
      rewrite per. apply IHk. }
    rewrite (Nat.div_mod l n) at 2 by lia. rewrite Nat.add_comm, Nat.mul_comm. symmetry. apply P.
  - destruct IH as (l' & B & E). destruct (Nat.eq_dec l' a) as [->|N].
    + exists (a + n)%nat. split; [lia|]. rewrite per. exact E.
    + exists l'. split; [lia|exact E].
Qed.

Lemma short_chord : forall a b c, (a + 1 < b)%nat -> (b < c)%nat -> (c < a + n)%nat ->
  0 <= cot (v b) (v c) (v a) -> (forall l, pw (v a) (v b) (v c) (v l) <= 0) ->
  exists l, (a <= l)%nat /\ (l + 2 <= b)%nat /\ R2 (v a) (v b) (v c) <= R2c l /\ cotc l <= - cot (v b) (v c) (v a).
Proof.
  intros a b c AB BC CN K H.
  assert (T : 0 < turn (v a) (v b) (v c)) by (apply convex; lia).
  destruct (chain (b - a) a b (cot (v b) (v c) (v a))) as (l & L1 & L2 & L3 & L4); try lia; auto.
  - intros l Hl. apply pw_near; auto. apply convex; lia.
  - exists l. repeat split; auto. eapply Rle_trans; [|exact L3].
    rewrite <- (R2_cycle (v a) (v b) (v c)). rewrite R2_cot by (rewrite turn_cycle; lra). rewrite (sq_sym (v b) (v a)). lra.
Qed.

Lemma enclosing_triple : forall a b c, (a < b)%nat -> (b < c)%nat -> (c < a + n)%nat ->
  (forall l, pw (v a) (v b) (v c) (v l) <= 0) -> exists l, R2 (v a) (v b) (v c) <= R2c l.
Proof.
  intros a b c AB BC CN H.
  assert (T : 0 < turn (v a) (v b) (v c)) by (apply convex; lia).
  assert (T1 : 0 < turn (v b) (v c) (v a)) by (rewrite turn_cycle; exact T).
  assert (T2 : 0 < turn (v c) (v a) (v b)) by (rewrite turn_cycle2; exact T).
  pose proof (cot_sum _ _ _ T) as S1. pose proof (cot_sum _ _ _ T1) as S2. pose proof (cot_sum _ _ _ T2) as S3.
  assert (C1 : 0 <= cot (v b) (v c) (v a) -> b <> (a + 1)%nat -> exists l, R2 (v a) (v b) (v c) <= R2c l).
  { intros K N. destruct (short_chord a b c) as (l & _ & _ & L & _); try lia; auto. exists l; auto. }
  assert (C2 : 0 <= cot (v c) (v a) (v b) -> c <> (b + 1)%nat -> exists l, R2 (v a) (v b) (v c) <= R2c l).
  { intros K N. destruct (short_chord b c (a + n)) as (l & _ & _ & L & _); try lia.
    - rewrite per. exact K.
    - intro l. rewrite per. rewrite pw_cycle by lra. apply H.
    - exists l. rewrite per, R2_cycle in L. exact L. }
  assert (C3 : 0 <= cot (v a) (v b) (v c) -> (a + n)%nat <> (c + 1)%nat -> exists l, R2 (v a) (v b) (v c) <= R2c l).
  { intros K N. destruct (short_chord c (a + n) (b + n)) as (l & _ & _ & L & _); try lia.
    - rewrite !per. exact K.
    - intro l. rewrite !per. rewrite pw_cycle2 by lra. apply H.
    - exists l. rewrite !per, R2_cycle2 in L. exact L. }
  destruct (Nat.eq_dec b (a + 1)) as [E1|N1]; destruct (Nat.eq_dec c (b + 1)) as [E2|N2];
    destruct (Nat.eq_dec (a + n) (c + 1)) as [E3|N3].
  - exists a. unfold R2c. replace (a + 1)%nat with b by lia. replace (a + 2)%nat with c by lia. lra.
  - exists a. unfold R2c. replace (a + 1)%nat with b by lia. replace (a + 2)%nat with c by lia. lra.
  - exists c. unfold R2c. replace (c + 1)%nat with (a + n)%nat by lia. replace (c + 2)%nat with (b + n)%nat by lia.
    rewrite !per, (R2_cycle2 (v a) (v b) (v c)). lra.
  - destruct (Rle_dec 0 (cot (v c) (v a) (v b))); [apply C2; auto|]. apply C3; auto. lra.
  - exists b. unfold R2c. replace (b + 1)%nat with c by lia. replace (b + 2)%nat with (a + n)%nat by lia.
    rewrite per, (R2_cycle (v a) (v b) (v c)). lra.
  - destruct (Rle_dec 0 (cot (v b) (v c) (v a))); [apply C1; auto|]. apply C3; auto. lra.
  - destruct (Rle_dec 0 (cot (v b) (v c) (v a))); [apply C1; auto|]. apply C2; auto. lra.
  - destruct (Rle_dec 0 (cot (v b) (v c) (v a))); [apply C1; auto|]. apply C2; auto. lra.
Qed.

(** The outermost circle over an edge. *)
Lemma outermost : forall a s, (a + 2 <= s)%nat -> (s < a + n)%nat ->
  0 <= cot (v (a + 1)) (v s) (v a) -> (forall l, R2c l <= R2 (v a) (v (a + 1)) (v s)) ->
  forall l, pw (v a) (v (a + 1)) (v s) (v l) <= 0.
Proof.
  intros a s S1 S2 K M.
  assert (EN : forall x, (a + 2 <= x < a + n)%nat ->
             (forall u, (a + 2 <= u < a + n)%nat -> cot (v (a + 1)) (v u) (v a) <= cot (v (a + 1)) (v x) (v a)) ->
             forall l, pw (v a) (v (a + 1)) (v x) (v l) <= 0).
  { intros x X1 X2 l. assert (T : 0 < turn (v a) (v (a + 1)) (v x)) by (apply convex; lia).
    destruct (window a l) as (l' & B & <-).
    destruct (pw_vertices (v a) (v (a + 1)) (v x) ltac:(lra)) as (V1 & V2 & V3).
    destruct (Nat.eq_dec l' a) as [->|N1]; [lra|].
    destruct (Nat.eq_dec l' (a + 1)) as [->|N2]; [lra|].
    apply pw_far; auto; [apply convex; lia|]. apply X2. lia. }
  destruct (max_on (fun u => cot (v (a + 1)) (v u) (v a)) (a + 2) (a + n) ltac:(lia)) as (x & X1 & X2). cbn beta in X2.
  pose proof (EN x X1 X2) as EX.
  destruct (enclosing_triple a (a + 1) x) as (l & L); try lia; auto.
  specialize (M l).
  assert (T : 0 < turn (v a) (v (a + 1)) (v x)) by (apply convex; lia).
  assert (Ts : 0 < turn (v a) (v (a + 1)) (v s)) by (apply convex; lia).
  assert (Q : cot (v (a + 1)) (v x) (v a) <= cot (v (a + 1)) (v s) (v a)).
  { assert (LE : R2 (v a) (v (a + 1)) (v x) <= R2 (v a) (v (a + 1)) (v s)) by lra.
    rewrite <- (R2_cycle (v a) (v (a + 1)) (v x)), <- (R2_cycle (v a) (v (a + 1)) (v s)) in LE.
    rewrite !R2_cot in LE by (rewrite turn_cycle; lra).
    destruct (sq_pos_turn (v a) (v (a + 1)) (v s) ltac:(lra)) as (SQ & _ & _). rewrite sq_sym in SQ.
    specialize (X2 s ltac:(lia)). cbn beta in X2.
    set (cx := cot (v (a + 1)) (v x) (v a)) in *. set (cs := cot (v (a + 1)) (v s) (v a)) in *.
    set (w := sq (v (a + 1)) (v a)) in *.
    assert (LE2 : w * cx ^ 2 <= w * cs ^ 2) by lra.
    assert (LE3 : cx ^ 2 <= cs ^ 2) by (apply Rmult_le_reg_l with w; auto).
    apply Rsqr_incr_0_var; auto. unfold Rsqr. lra. }
  apply EN; [lia|]. intros u U. specialize (X2 u U). lra.
Qed.

(** Step 1: the consecutive triple with the largest circumradius encloses all. *)
Lemma largest_encloses : forall m, (forall l, R2c l <= R2c m) ->
  forall l, pw (v m) (v (m + 1)) (v (m + 2)) (v l) <= 0.
Proof.
  intros m M.
  assert (T : 0 < turn (v m) (v (m + 1)) (v (m + 2))) by (apply convex; lia).
  assert (T1 : 0 < turn (v (m + 1)) (v (m + 2)) (v m)) by (rewrite turn_cycle; exact T).
  pose proof (cot_sum _ _ _ T1) as S1.
  destruct (Rle_dec 0 (cot (v (m + 1)) (v (m + 2)) (v m))) as [K|K].
  - apply outermost; auto; lia.
  - intro l. rewrite <- pw_cycle by lra.
    pose proof (outermost (m + 1) (m + n)) as O. replace (m + 1 + 1)%nat with (m + 2)%nat in O by lia.
    rewrite per in O. apply O; try lia; [lra|]. intro l0. rewrite R2_cycle. apply M.
Qed.

(** Step 2: if moreover its angle is the largest among those and not obtuse,
    the triangle is not obtuse. *)
Lemma largest_not_obtuse : forall m, (forall l, R2c l <= R2c m) ->
  (forall l, R2c l = R2c m -> cotc m <= cotc l) -> 0 <= cotc m ->
  0 <= dot (v (m + 2)) (v m) (v (m + 1)) /\ 0 <= dot (v (m + 1)) (v (m + 2)) (v m).
Proof.
  intros m M A K. pose proof (largest_encloses m M) as EN.
  assert (T : 0 < turn (v m) (v (m + 1)) (v (m + 2))) by (apply convex; lia).
  assert (T1 : 0 < turn (v (m + 1)) (v (m + 2)) (v m)) by (rewrite turn_cycle; exact T).
  assert (T2 : 0 < turn (v (m + 2)) (v m) (v (m + 1))) by (rewrite turn_cycle; exact T1).
  pose proof (cot_sum _ _ _ T) as S1. pose proof (cot_sum _ _ _ T2) as S3.
  assert (D1 : dot (v (m + 2)) (v m) (v (m + 1)) = cot (v (m + 2)) (v m) (v (m + 1)) * turn (v (m + 2)) (v m) (v (m + 1)))
    by (unfold cot; field; lra).
  assert (D2 : dot (v (m + 1)) (v (m + 2)) (v m) = cot (v (m + 1)) (v (m + 2)) (v m) * turn (v (m + 1)) (v (m + 2)) (v m))
    by (unfold cot; field; lra).
  enough (C : 0 <= cot (v (m + 2)) (v m) (v (m + 1)) /\ 0 <= cot (v (m + 1)) (v (m + 2)) (v m))
    by (rewrite D1, D2; split; apply Rmult_le_pos; lra).
  unfold cotc in K. destruct (Req_dec (cot (v m) (v (m + 1)) (v (m + 2))) 0) as [Z|Z]; [lra|].
  destruct (Nat.eq_dec n 3) as [E|N].
  - assert (X1 : R2c (m + 1) = R2c m /\ cotc (m + 1) = cot (v (m + 1)) (v (m + 2)) (v m)).
    { unfold R2c, cotc. replace (m + 1 + 1)%nat with (m + 2)%nat by lia. replace (m + 1 + 2)%nat with (m + n)%nat by lia.
      rewrite per, (R2_cycle (v m) (v (m + 1)) (v (m + 2))). auto. }
    assert (X2 : R2c (m + 2) = R2c m /\ cotc (m + 2) = cot (v (m + 2)) (v m) (v (m + 1))).
    { unfold R2c, cotc. replace (m + 2 + 1)%nat with (m + n)%nat by lia. replace (m + 2 + 2)%nat with (m + 1 + n)%nat by lia.
      rewrite !per, (R2_cycle2 (v m) (v (m + 1)) (v (m + 2))). auto. }
    destruct X1 as [X1 Y1]. destruct X2 as [X2 Y2]. apply A in X1. apply A in X2. unfold cotc in X1 at 1. unfold cotc in X2 at 1. lra.
  - exfalso. destruct (short_chord (m + 2) (m + n) (m + 1 + n)) as (l & _ & _ & L1 & L2); try lia.
    + rewrite !per. exact K.
    + intro l. rewrite !per. rewrite pw_cycle2 by lra. apply EN.
    + rewrite !per in L1, L2. rewrite R2_cycle2 in L1.
      assert (E : R2c l = R2c m) by (apply Rle_antisym; [apply M|exact L1]).
      apply A in E. unfold cotc in E at 1. lra.
Qed.
End Polygon.

(** The circumscribed disc of a triangle that is not obtuse is its smallest
    enclosing disc. *)
Lemma circumcentre_weights : forall p q r c, turn p q r <> 0 ->
  (sq q r * dot r p q * sq p c + sq r p * dot p q r * sq q c + sq p q * dot q r p * sq r c) / (2 * turn p q r ^ 2)
    = R2 p q r + sq (cc p q r) c /\
  (sq q r * dot r p q + sq r p * dot p q r + sq p q * dot q r p) / (2 * turn p q r ^ 2) = 1.
Proof. intros p q r c H. split; geo; field; lra. Qed.

Lemma circumscribed_minimal : forall p q r c rho, turn p q r <> 0 ->
  0 <= dot r p q -> 0 <= dot p q r -> 0 <= dot q r p ->
  sq p c <= rho -> sq q c <= rho -> sq r c <= rho -> R2 p q r + sq (cc p q r) c <= rho.
Proof.
  intros p q r c rho T P Q R Cp Cq Cr. destruct (circumcentre_weights p q r c T) as [E S].
  rewrite <- E. replace rho with (rho * 1) by ring. rewrite <- S.
  assert (T2 : 0 < / (2 * turn p q r ^ 2)) by (apply Rinv_0_lt_compat; pose proof (Rsqr_pos_lt _ T); unfold Rsqr in *; lra).
  pose proof (sq_nonneg q r). pose proof (sq_nonneg r p). pose proof (sq_nonneg p q).
  unfold Rdiv. rewrite <- Rmult_assoc. apply Rmult_le_compat_r; [lra|].
  assert (X1 : sq q r * dot r p q * sq p c <= sq q r * dot r p q * rho) by (apply Rmult_le_compat_l; auto; apply Rmult_le_pos; auto).
  assert (X2 : sq r p * dot p q r * sq q c <= sq r p * dot p q r * rho) by (apply Rmult_le_compat_l; auto; apply Rmult_le_pos; auto).
  assert (X3 : sq p q * dot q r p * sq r c <= sq p q * dot q r p * rho) by (apply Rmult_le_compat_l; auto; apply Rmult_le_pos; auto).
  lra.
Qed.

(** Step 3: a disc not larger than the circumscribed disc of a triangle with an
    obtuse angle at [q] that contains the two others contains [q]. *)
Lemma obtuse_inside : forall p q r c rho, 0 < turn p q r -> dot p q r <= 0 ->
  sq p c <= rho -> sq r c <= rho -> rho <= R2 p q r -> sq q c <= rho.
Proof.
  intros p q r c rho T D Cp Cr Hr.
  destruct (sq_pos_turn p q r ltac:(lra)) as (_ & _ & L).
  set (s := (sq p q - dot p q r) / sq p r).
  set (tau := ((fst p + fst r - 2 * fst c) * - (snd r - snd p) + (snd p + snd r - 2 * snd c) * (fst r - fst p)) / sq p r).
  assert (E : sq q c - rho = dot p q r + tau * turn p q r + (1 - s) * (sq p c - rho) + s * (sq r c - rho)).
  { unfold tau, s. geo. field. lra. }
  assert (S : 0 <= s <= 1).
  { assert (Es : s * sq p r = sq p q - dot p q r) by (unfold s; field; lra).
    assert (Es2 : (1 - s) * sq p r = sq q r - dot p q r) by (unfold s; geo; field; lra).
    pose proof (sq_nonneg p q). pose proof (sq_nonneg q r).
    split; [assert (0 <= s * sq p r) by lra|assert (0 <= (1 - s) * sq p r) by lra]; nra. }
  assert (W : tau ^ 2 * sq p r / 4 + sq p r / 4 <= rho).
  { assert (I : (sq p c + sq r c) / 2 = tau ^ 2 * sq p r / 4 + sq p r / 4 +
       ((fst p + fst r - 2 * fst c) * (fst r - fst p) + (snd p + snd r - 2 * snd c) * (snd r - snd p)) ^ 2 / (4 * sq p r)).
    { unfold tau. geo. field. lra. }
    match type of I with _ = _ + ?x => assert (0 <= x) end.
    { apply Rmult_le_pos; [apply pow2_ge_0|]. left. apply Rinv_0_lt_compat. lra. }
    lra. }
  assert (K : tau * turn p q r <= - dot p q r).
  { rewrite R2_cot in Hr by lra.
    assert (tau ^ 2 * sq p r <= cot p q r ^ 2 * sq p r) by lra.
    assert (T2 : tau ^ 2 <= cot p q r ^ 2) by (apply Rmult_le_reg_r with (sq p r); auto).
    assert (C0 : cot p q r <= 0).
    { unfold cot. assert (0 < / turn p q r) by (apply Rinv_0_lt_compat; auto). unfold Rdiv. nra. }
    assert (tau <= - cot p q r) by nra.
    replace (- dot p q r) with (- cot p q r * turn p q r) by (unfold cot; field; lra).
    apply Rmult_le_compat_r; lra. }
  assert (X1 : (1 - s) * (sq p c - rho) <= 0) by nra.
  assert (X2 : s * (sq r c - rho) <= 0) by nra.
  lra.
Qed.

(** Two points. *)
Lemma two_points_minimal : forall p q c rho, sq p c <= rho -> sq q c <= rho ->
  sq p q / 4 + sq ((fst p + fst q) / 2, (snd p + snd q) / 2) c <= rho.
Proof.
  intros p q c rho Hp Hq.
  assert ((sq p c + sq q c) / 2 = sq p q / 4 + sq ((fst p + fst q) / 2, (snd p + snd q) / 2) c) by (geo; field).
  lra.
Qed.
