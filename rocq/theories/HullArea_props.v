(** hull_area and lambda_hull do not depend on the convex hull routine, the order and
    the repetitions, and scale with the units. *)
From Coq Require Import ZArith QArith Qabs List Bool Lia Lqa Arith.
From Verif Require Import Base Geometry_model Pattern_model Pattern_spec PatternRing_proofs Pattern_props Straight_model Straight_props HullExists_proofs HullExists_props.
Import ListNotations.
Local Open Scope Q_scope.

(** ** Lemmas *)
Lemma at_refl : forall p, At p p. Proof. split; reflexivity. Qed.
Lemma at_dec : forall p q, At p q \/ ~ At p q.
Proof.
  intros p q. unfold At. destruct (Qeq_dec (fst p) (fst q)) as [A|A]; [|right; intros [X _]; contradiction].
  destruct (Qeq_dec (snd p) (snd q)) as [B|B]; [left; split; assumption|right; intros [_ X]; contradiction].
Qed.
Lemma ring_same : forall pts pts' h, (forall p, In p pts <-> In p pts') -> HullRing pts h -> HullRing pts' h.
Proof.
  intros pts pts' h S (A & B & C & D). split; [exact A|]. split; [intros p P; apply S, B, P|]. split; [exact C|]. intros p0 t E a b p CO P. apply (D p0 t E a b p CO), S, P.
Qed.
Lemma consecutive_snoc : forall (l : list pt) p q a b, consecutive ((l ++ [p]) ++ [q]) a b -> consecutive (l ++ [p]) a b \/ (a = p /\ b = q).
Proof.
  intros l p q a b (m1 & m2 & E). destruct m2 as [|y m2].
  - right. change (m1 ++ [a; b]) with (m1 ++ [a] ++ [b]) in E. rewrite app_assoc in E. apply app_inj_tail in E. destruct E as [E ->]. apply app_inj_tail in E. destruct E as [_ ->]. auto.
  - left. destruct (exists_last (l := y :: m2) ltac:(discriminate)) as (m3 & z & EM). rewrite EM in E.
    change (m1 ++ a :: b :: m3 ++ [z]) with (m1 ++ (a :: b :: m3) ++ [z]) in E. rewrite app_assoc in E. apply app_inj_tail in E. destruct E as [E _]. exists m1, m3. exact E.
Qed.
Lemma ring_turn : forall pts p t, HullRing pts (p :: t) -> HullRing pts (t ++ [p]).
Proof.
  intros pts p t (L3 & IN & TR & ED). cbn [length] in *. split; [rewrite app_length; cbn [length]; lia|]. split.
  { intros q Q0. apply IN. apply in_app_or in Q0. destruct Q0 as [Q0|[<-|[]]]; [right; exact Q0|left; reflexivity]. }
  split.
  - rewrite app_length. cbn [length]. intros i j k IJ JK K. rewrite (app_nth1 t [p] (0, 0) (n := i)), (app_nth1 t [p] (0, 0) (n := j)) by lia.
    destruct (Nat.eq_dec k (length t)) as [->|NK].
    + rewrite app_nth2, Nat.sub_diag by lia. cbn [nth]. pose proof (TR 0%nat (S i) (S j) ltac:(lia) ltac:(lia) ltac:(lia)) as T. cbn [nth] in T. unfold orient in *. Lqa.lra.
    + rewrite app_nth1 by lia. exact (TR (S i) (S j) (S k) ltac:(lia) ltac:(lia) ltac:(lia)).
  - intros p0 t0 E a b q CO Q0. destruct t as [|x t]; [cbn in L3; lia|]. cbn [app] in E. injection E as E1 E2. subst p0.
    apply (ED p (x :: t) eq_refl a b q); [|exact Q0]. apply consecutive_snoc in CO. destruct CO as [(m1 & m2 & CO)|[-> ->]].
    + exists (p :: m1), m2. cbn [app] in *. rewrite CO. reflexivity.
    + exists [], (t ++ [p]). reflexivity.
Qed.
Lemma ring_start : forall pts x l1 l2, HullRing pts (l1 ++ x :: l2) -> exists t, HullRing pts (x :: t) /\ ring_sum (x :: t) == ring_sum (l1 ++ x :: l2) /\ length (x :: t) = length (l1 ++ x :: l2).
Proof.
  intros pts x. induction l1 as [|p l1 IH]; intros l2 HR; [exists l2; split; [exact HR|split; reflexivity]|].
  cbn [app] in HR. pose proof (ring_turn _ _ _ HR) as HT. rewrite <- app_assoc in HT. cbn [app] in HT. destruct (IH (l2 ++ [p]) HT) as (t & A & B & C). exists t. split; [exact A|]. split.
  - rewrite B. cbn [app]. rewrite <- (ring_sum_rotate p (l1 ++ x :: l2)). rewrite <- app_assoc. reflexivity.
  - rewrite C. cbn [app length]. rewrite !app_length. cbn [length]. rewrite app_length. cbn [length]. lia.
Qed.
Lemma ring_three : forall pts h x y z, HullRing pts h -> In x h -> In y h -> In z h -> ~ At x y -> ~ At y z -> ~ At x z -> ~ orient x y z == 0.
Proof.
  intros pts h x y z (_ & _ & TR & _) X Y Zz NXY NYZ NXZ E.
  destruct (In_nth h x (0, 0) X) as (i & I & EI). destruct (In_nth h y (0, 0) Y) as (j & J & EJ). destruct (In_nth h z (0, 0) Zz) as (k & K & EK).
  assert (IJ : i <> j) by (intros ->; apply NXY; rewrite <- EI, <- EJ; apply at_refl).
  assert (JK : j <> k) by (intros ->; apply NYZ; rewrite <- EJ, <- EK; apply at_refl).
  assert (IK : i <> k) by (intros ->; apply NXZ; rewrite <- EI, <- EK; apply at_refl).
  assert (T : forall u v w pu pv pw, (u < v)%nat -> (v < w)%nat -> (w < length h)%nat -> nth u h (0, 0) = pu -> nth v h (0, 0) = pv -> nth w h (0, 0) = pw -> 0 < orient pu pv pw) by (intros u v w pu pv pw A B C <- <- <-; apply TR; assumption).
  destruct (lt_dec i j); destruct (lt_dec j k); destruct (lt_dec i k); try lia.
  - pose proof (T i j k x y z ltac:(lia) ltac:(lia) K EI EJ EK) as G. rewrite E in G. Lqa.lra.
  - pose proof (T i k j x z y ltac:(lia) ltac:(lia) J EI EK EJ) as G. unfold orient in *. Lqa.lra.
  - pose proof (T k i j z x y ltac:(lia) ltac:(lia) J EK EI EJ) as G. unfold orient in *. Lqa.lra.
  - pose proof (T j i k y x z ltac:(lia) ltac:(lia) K EJ EI EK) as G. unfold orient in *. Lqa.lra.
  - pose proof (T j k i y z x ltac:(lia) ltac:(lia) I EJ EK EI) as G. unfold orient in *. Lqa.lra.
  - pose proof (T k j i z y x ltac:(lia) ltac:(lia) I EK EJ EI) as G. unfold orient in *. Lqa.lra.
Qed.
(** The edges of a closed ring. *)
Definition Edges (pts h l : list pt) : Prop :=
  forall a b, consecutive l a b -> In a h /\ In b h /\ ~ At a b /\ forall p, In p pts -> 0 <= orient a b p.
Lemma ring_edges : forall pts p t, HullRing pts (p :: t) -> Edges pts (p :: t) (p :: t ++ [p]).
Proof.
  intros pts p t HR a b CO. pose proof (ring_apart _ _ HR) as AP. pose proof HR as (L3 & _ & _ & ED). cbn [length] in L3.
  assert (IN : forall x, In x (p :: t ++ [p]) -> In x (p :: t)) by (intros x [<-|X]; [left; reflexivity|]; apply in_app_or in X; destruct X as [X|[<-|[]]]; [right; exact X|left; reflexivity]).
  assert (MEM : In a (p :: t ++ [p]) /\ In b (p :: t ++ [p])) by (destruct CO as (m1 & m2 & ->); split; apply in_or_app; right; cbn; auto).
  split; [apply IN, MEM|]. split; [apply IN, MEM|]. split; [|intros q Q0; exact (ED p t eq_refl a b q CO Q0)].
  destruct (exists_last (l := t) ltac:(intros ->; cbn in L3; lia)) as (t' & z & ->). rewrite app_length in L3. cbn [length] in L3.
  change (p :: (t' ++ [z]) ++ [p]) with (((p :: t') ++ [z]) ++ [p]) in CO. apply consecutive_snoc in CO. destruct CO as [(m1 & m2 & CO)|[-> ->]].
  - change (p :: t' ++ [z]) with ((p :: t') ++ [z]) in AP. rewrite CO in AP. intro X. apply (AP (length m1) (S (length m1))); [lia|rewrite app_length; cbn [length]; lia|].
    rewrite app_nth2, Nat.sub_diag by lia. rewrite app_nth2 by lia. replace (S (length m1) - length m1)%nat with 1%nat by lia. cbn [nth]. exact X.
  - intro X. apply (AP 0%nat (S (length t'))); [lia|cbn [length]; rewrite app_length; cbn [length]; lia|]. cbn [nth]. rewrite app_nth2, Nat.sub_diag by lia. cbn [nth]. destruct X. split; symmetry; assumption.
Qed.
Lemma follow : forall pts h h' l l' v v', HullRing pts h -> HullRing pts h' -> length l = length l' -> At v v' -> Edges pts h (v :: l) -> Edges pts h' (v' :: l') -> Forall2 At (v :: l) (v' :: l').
Proof.
  intros pts h h' l l' v v' HR HR'. revert l' v v'. induction l as [|w l IH]; intros [|w' l'] v v' LE AT E E'; try discriminate LE.
  - constructor; [exact AT|constructor].
  - constructor; [exact AT|]. apply IH; [injection LE as LE; exact LE| | |].
    + destruct (E v w) as (V & W & NVW & LW); [exists [], l; reflexivity|]. destruct (E' v' w') as (V' & W' & NVW' & LW'); [exists [], l'; reflexivity|].
      destruct (at_dec w w') as [Y|N]; [exact Y|exfalso].
      assert (PW' : In w' pts) by (apply HR', W').
      assert (CW : Corner pts w') by (apply (ring_corners pts h' HR' w' PW'); exists w'; split; [exact W'|apply at_refl]).
      apply (ring_corners pts h HR w' PW') in CW. destruct CW as (q & Q0 & [Q1 Q2]).
      assert (PW : In w pts) by (apply HR, W). pose proof (LW w' PW') as G1. pose proof (LW' w PW) as G2. destruct AT as [A1 A2].
      assert (Z0 : orient v w q == 0) by (unfold orient in *; rewrite Q1, Q2; rewrite <- A1, <- A2 in G2; Lqa.lra).
      revert Z0. apply (ring_three pts h); auto.
      * intros [B1 B2]. apply N. split; Lqa.lra.
      * intros [B1 B2]. apply NVW'. split; Lqa.lra.
    + intros a b (m1 & m2 & CO). apply E. exists (v :: m1), m2. cbn [app]. rewrite CO. reflexivity.
    + intros a b (m1 & m2 & CO). apply E'. exists (v' :: m1), m2. cbn [app]. rewrite CO. reflexivity.
Qed.
Lemma shoelace_at : forall l l', Forall2 At l l' -> shoelace l == shoelace l'.
Proof.
  intros l l' F. induction F as [|a a' l l' A F IH]; [reflexivity|]. destruct F as [|b b' l l' B F]; [reflexivity|]. rewrite !shoelace_cons, IH.
  destruct A as [A1 A2]. destruct B as [B1 B2]. unfold edge. rewrite A1, A2, B1, B2. reflexivity.
Qed.
Lemma ring_length : forall pts h h', HullRing pts h -> HullRing pts h' -> (length h <= length h')%nat.
Proof.
  intros pts h h' HR HR'. apply (fewer h h' (fun p => p)); [auto|apply (ring_apart pts), HR|]. intros q Q0. assert (P : In q pts) by (apply HR, Q0).
  apply (ring_corners pts h' HR' q P), (ring_corners pts h HR q P). exists q. split; [exact Q0|apply at_refl].
Qed.
Lemma ring_area : forall pts h h', HullRing pts h -> HullRing pts h' -> ring_sum h == ring_sum h'.
Proof.
  intros pts h h' HR HR'. destruct h as [|p t]; [destruct HR as [L _]; cbn in L; lia|]. assert (P : In p pts) by (apply HR; left; reflexivity).
  assert (C : Corner pts p) by (apply (ring_corners pts (p :: t) HR p P); exists p; split; [left; reflexivity|apply at_refl]).
  apply (ring_corners pts h' HR' p P) in C. destruct C as (x & X & A). apply in_split in X. destruct X as (l1 & l2 & ->).
  destruct (ring_start pts x l1 l2 HR') as (t' & HT & S & L). rewrite <- S.
  assert (LEN : length (p :: t) = length (x :: t')) by (apply Nat.le_antisymm; eapply ring_length; eassumption).
  change (shoelace (p :: t ++ [p]) == shoelace (x :: t' ++ [x])). apply shoelace_at. apply (follow pts (p :: t) (x :: t')); auto.
  - cbn [length] in LEN. rewrite !app_length. cbn [length]. lia.
  - destruct A. split; symmetry; assumption.
  - apply ring_edges, HR.
  - apply ring_edges, HT.
Qed.
(** Rings under affine maps. *)
Section AffineRing.
Variables a b c d e f : Q.
Notation g := (affine a b c d e f).
Notation D := (a * d - b * c).
Lemma orient_affine : forall x y z, orient (g x) (g y) (g z) == D * orient x y z.
Proof. intros x y z. unfold orient, affine. cbn [fst snd]. ring. Qed.
Lemma nth_affine : forall l i, (i < length l)%nat -> nth i (map g l) (0, 0) = g (nth i l (0, 0)).
Proof. intros l i I. rewrite (nth_indep _ _ (g (0, 0))) by (rewrite map_length; exact I). apply map_nth. Qed.
Lemma ring_affine : forall pts h, 0 < D -> HullRing pts h -> HullRing (map g pts) (map g h).
Proof.
  intros pts h DP (L3 & IN & TR & ED). split; [rewrite map_length; exact L3|]. split.
  { intros p P. apply in_map_iff in P. destruct P as (x & <- & X). apply in_map, IN, X. }
  split.
  - rewrite map_length. intros i j k IJ JK K. rewrite !nth_affine, orient_affine by lia. pose proof (TR i j k IJ JK K) as T. Lqa.nra.
  - intros p0 t E x y p (m1 & m2 & CO) P. apply in_map_iff in P. destruct P as (q & <- & Q0). destruct h as [|h0 t0]; [discriminate E|]. cbn [map] in E. injection E as E1 E2. subst p0.
    assert (CO' : map g ((h0 :: t0) ++ [h0]) = m1 ++ x :: y :: m2) by (rewrite map_app; exact CO).
    apply map_eq_app in CO'. destruct CO' as (n1 & n2 & EN & M1 & M2). destruct n2 as [|x0 [|y0 n2]]; try discriminate M2. cbn [map] in M2. injection M2 as <- <- _.
    rewrite orient_affine. assert (G : 0 <= orient x0 y0 q) by (apply (ED h0 t0 eq_refl x0 y0 q); [exists n1, n2; exact EN|exact Q0]). Lqa.nra.
Qed.
Lemma shoelace_affine : forall v l, fan (g v) (map g l) == D * fan v l.
Proof.
  intros v. induction l as [|x l IH]; [cbn; ring|]. destruct l as [|y l]; [cbn; ring|].
  cbn [map] in *. cbn [fan] in *. rewrite IH, orient_affine. ring.
Qed.
Lemma area_affine : forall h, ring_sum (map g h) == D * ring_sum h.
Proof.
  intros [|p t]; [cbn; ring|]. rewrite <- (fan_ring p p t). cbn [map]. rewrite <- (fan_ring (g p) (g p) (map g t)).
  change ((g p :: map g t) ++ [g p]) with (map g (p :: t) ++ map g [p]). rewrite <- map_app. apply shoelace_affine.
Qed.
End AffineRing.
(** A reflection: the ring turned around. *)
Lemma ring_mirror : forall pts p t a b c d e f, a * d - b * c < 0 -> HullRing pts (p :: t) ->
  let g := affine a b c d e f in HullRing (map g pts) (g p :: rev (map g t)).
Proof.
  intros pts p t a b c d e f DN (L3 & IN & TR & ED) g. cbn [length] in *. split; [cbn [length]; rewrite rev_length, map_length; exact L3|]. split.
  { intros q [<-|Q0]; [apply in_map, IN; left; reflexivity|]. apply in_rev in Q0. apply in_map_iff in Q0. destruct Q0 as (x & <- & X). apply in_map, IN. right. exact X. }
  split.
  - cbn [length]. rewrite rev_length, map_length. intros i j k IJ JK K. destruct j as [|j]; [lia|]. destruct k as [|k]; [lia|]. cbn [nth]. rewrite (rev_nth (map g t) (0, 0) (n := j)), (rev_nth (map g t) (0, 0) (n := k)) by (rewrite map_length; lia).
    rewrite map_length. subst g. rewrite !nth_affine by lia. destruct i as [|i]; cbn [nth].
    + rewrite orient_affine. pose proof (TR 0%nat (S (length t - S k)) (S (length t - S j)) ltac:(lia) ltac:(lia) ltac:(lia)) as T. cbn [nth] in T. unfold orient in *. Lqa.nra.
    + rewrite rev_nth by (rewrite map_length; lia). rewrite map_length, nth_affine by lia. rewrite orient_affine.
      pose proof (TR (S (length t - S k)) (S (length t - S j)) (S (length t - S i)) ltac:(lia) ltac:(lia) ltac:(lia)) as T. cbn [nth] in T.
      set (x := nth (length t - S i) t (0, 0)) in *. set (y := nth (length t - S j) t (0, 0)) in *. set (z := nth (length t - S k) t (0, 0)) in *.
      setoid_replace (orient x y z) with (- orient z y x) by (unfold orient; ring). Lqa.nra.
  - intros p0 t0 E x y q (m1 & m2 & CO) P. injection E as E1 E2. subst p0. apply in_map_iff in P. destruct P as (q0 & <- & Q0).
    apply (f_equal (@rev pt)) in CO. cbn [app rev] in CO. rewrite !rev_app_distr in CO. cbn [rev app] in CO. rewrite rev_involutive in CO.
    assert (CO' : map g ((p :: t) ++ [p]) = rev m2 ++ y :: x :: rev m1) by (rewrite map_app; cbn [map app]; rewrite CO; rewrite <- !app_assoc; reflexivity).
    apply map_eq_app in CO'. destruct CO' as (n1 & n2 & EN & M1 & M2). destruct n2 as [|y0 [|x0 n2]]; try discriminate M2. cbn [map] in M2. injection M2 as <- <- _.
    unfold g. rewrite orient_affine. assert (G : 0 <= orient y0 x0 q0) by (apply (ED p t eq_refl y0 x0 q0); [exists n1, n2; exact EN|exact Q0]).
    setoid_replace (orient x0 y0 q0) with (- orient y0 x0 q0) by (unfold orient; ring). Lqa.nra.
Qed.
Lemma area_mirror : forall p t, ring_sum (p :: rev t) == - ring_sum (p :: t).
Proof.
  intros p t. unfold ring_sum. rewrite <- shoelace_rev. cbn [app rev]. rewrite rev_app_distr. cbn [rev app]. reflexivity.
Qed.

(** ** C159 *)
(** Another order, other repetitions, another routine and other units or axes: hull_area
    is multiplied with the area of the unit square of the new axes. *)
Theorem C159_area : forall qhull qhull' pts pts' a b c d e f A, Qhull qhull -> Qhull qhull' -> ~ a * d - b * c == 0 ->
  (forall p, In p pts' <-> In p (map (affine a b c d e f) pts)) -> hull_area_array qhull pts = Ok A ->
  exists A', hull_area_array qhull' pts' = Ok A' /\ A' == Qabs (a * d - b * c) * A /\ 0 < A'.
Proof.
  intros qhull qhull' pts pts' a b c d e f A QH QH' DET SAME EA. unfold hull_area_array in EA.
  destruct (hull_array qhull pts) as [h|x] eqn:EH; [|discriminate EA]. cbn in EA.
  pose proof (hull_ring qhull pts h QH EH) as HR. destruct h as [|p t]; [discriminate EA|]. injection EA as <-.
  destruct (C158_invariant qhull qhull' pts (p :: t) QH QH' EH) as [INV _]. destruct (INV a b c d e f pts' DET SAME) as (h' & EH' & _).
  pose proof (hull_ring qhull' pts' h' QH' EH') as HR'. apply (ring_same pts' (map (affine a b c d e f) pts)) in HR'; [|exact SAME].
  assert (NS : ~ Straight pts').
  { intro ST. destruct QH' as (Q1 & Q2 & _). unfold hull_array in EH'. destruct pts' as [|y l]; [rewrite Q1 in EH'; discriminate EH'|]. rewrite (Q2 (y :: l) ltac:(discriminate) ST) in EH'. discriminate EH'. }
  destruct (C157_triangle qhull' QH' pts' NS) as (_ & (A' & EA' & A0 & _) & _). exists A'. split; [exact EA'|]. split; [|exact A0].
  unfold hull_area_array in EA'. rewrite EH' in EA'. cbn in EA'. destruct h' as [|p' t']; [discriminate EA'|]. injection EA' as <-. rewrite !hull_area_ring_sum.
  destruct (Qlt_le_dec 0 (a * d - b * c)) as [G|G].
  - rewrite (ring_area _ _ _ HR' (ring_affine a b c d e f pts (p :: t) G HR)), area_affine, Qabs_pos by Lqa.lra. field.
  - assert (G' : a * d - b * c < 0) by (destruct (Qlt_le_dec (a * d - b * c) 0); [assumption|exfalso; apply DET; Lqa.lra]).
    rewrite (ring_area _ _ _ HR' (ring_mirror pts p t a b c d e f G' HR)), area_mirror.
    change (affine a b c d e f p :: map (affine a b c d e f) t) with (map (affine a b c d e f) (p :: t)). rewrite area_affine, Qabs_neg by Lqa.lra. field.
Qed.
Print Assumptions C159_area.

(** lambda_hull of as many points is divided by it. *)
Theorem C159_lambda : forall qhull qhull' pts pts' a b c d e f q, Qhull qhull -> Qhull qhull' -> ~ a * d - b * c == 0 ->
  (forall p, In p pts' <-> In p (map (affine a b c d e f) pts)) -> length pts' = length pts -> lambda_hull_array qhull pts = Ok (Fin q) ->
  exists q', lambda_hull_array qhull' pts' = Ok (Fin q') /\ q' * Qabs (a * d - b * c) == q.
Proof.
  intros qhull qhull' pts pts' a b c d e f q QH QH' DET SAME LEN EL. unfold lambda_hull_array in EL.
  destruct (hull_area_array qhull pts) as [A|x] eqn:EA; [|discriminate EL]. cbn in EL.
  destruct (C159_area qhull qhull' pts pts' a b c d e f A QH QH' DET SAME EA) as (A' & EA' & AE & A0).
  assert (DP : 0 < Qabs (a * d - b * c)).
  { destruct (Qlt_le_dec 0 (Qabs (a * d - b * c))) as [G|G]; [exact G|exfalso; apply DET]. revert G. apply Qabs_case; intros; Lqa.lra. }
  assert (AP : 0 < A) by (apply Qnot_le_lt; intro N; rewrite AE in A0; Lqa.nra).
  unfold lambda_hull_array. rewrite EA'. cbn [xdiv] in *. unfold xdiv in *. rewrite LEN.
  destruct (Qeq_bool A 0) eqn:Z1; [apply Qeq_bool_iff in Z1; Lqa.lra|]. destruct (Qeq_bool A' 0) eqn:Z2; [apply Qeq_bool_iff in Z2; Lqa.lra|].
  injection EL as EL. exists (inject_Z (Z.of_nat (length pts)) / A'). split; [cbn; rewrite Z2; reflexivity|]. rewrite <- EL, AE. field. split; Lqa.lra.
Qed.
Print Assumptions C159_lambda.

(** A triangle, and its mirror image at double scale, reversed and with a point repeated. *)
Example C159_case : let g := affine 2 0 0 (-2) 1 0 in
  (forall p, In p [g (0, 3); g (4, 0); g (0, 0); g (4, 0)] <-> In p (map g [(0, 0); (4, 0); (0, 3)])) /\
  Qabs (2 * -2 - 0 * 0) == 4 /\ hull_area_of [(0, 0); (4, 0); (0, 3)] == 6 /\ hull_area_of [g (0, 0); g (0, 3); g (4, 0)] == 24.
Proof. cbv zeta. split; [|vm_compute; repeat split; reflexivity]. intro p. cbn [map In]. tauto. Qed.
