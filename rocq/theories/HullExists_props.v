(** The convex hull of scipy: such a function exists, and its vertices are the corners of
    the pattern. *)
From Coq Require Import ZArith QArith List Bool Lia Lqa Arith.
From Verif Require Import Base Geometry_model Pattern_model Pattern_spec Straight_model Straight_props HullExists_proofs.
Import ListNotations.
Local Open Scope Q_scope.

(** ** Specification *)
(** The same place. *)
Definition At (p q : pt) : Prop := fst p == fst q /\ snd p == snd q.
(** A corner: some direction in which the pattern begins at this place and at no other. *)
Definition Corner (pts : list pt) (p : pt) : Prop :=
  exists s t, forall q, In q pts -> s * fst p + t * snd p <= s * fst q + t * snd q /\ (s * fst q + t * snd q == s * fst p + t * snd p -> At q p).

(** ** Lemmas *)
Lemma consecutive_nth : forall l i, (S i < length l)%nat -> consecutive l (nth i l (0, 0)) (nth (S i) l (0, 0)).
Proof.
  induction l as [|a l IH]; intros i L; cbn [length] in L; [lia|]. destruct i as [|i].
  - destruct l as [|b l]; [cbn in L; lia|]. exists [], l. reflexivity.
  - destruct (IH i ltac:(lia)) as (l1 & l2 & E). exists (a :: l1), l2. cbn [nth app]. rewrite <- E. reflexivity.
Qed.
Lemma neighbours : forall pts h v, HullRing pts h -> In v h ->
  exists a b, In a h /\ In b h /\ 0 < orient a v b /\ forall p, In p pts -> 0 <= orient a v p /\ 0 <= orient v b p.
Proof.
  intros pts h v (L3 & IN & TR & ED) V. destruct h as [|p0 t]; [destruct V|]. set (h := p0 :: t) in *. specialize (ED p0 t eq_refl).
  set (n := length h) in *.
  assert (EDGE : forall i, (i < n)%nat -> forall p, In p pts -> 0 <= orient (nth i h (0, 0)) (nth (S i) (h ++ [p0]) (0, 0)) p).
  { intros i I p P. apply ED; [|exact P]. rewrite <- (app_nth1 h [p0] (0, 0) I). apply consecutive_nth. rewrite app_length. cbn [length]. fold n. lia. }
  assert (IN' : forall i, (i < n)%nat -> In (nth i h (0, 0)) h) by (intros i I; apply nth_In, I).
  destruct (In_nth h v (0, 0) V) as (i & I & E). fold n in I.
  assert (WRAP : nth n (h ++ [p0]) (0, 0) = nth 0 h (0, 0)) by (rewrite app_nth2 by (fold n; lia); fold n; rewrite Nat.sub_diag; reflexivity).
  assert (NEXT : forall j, (j < n)%nat -> nth j (h ++ [p0]) (0, 0) = nth j h (0, 0)) by (intros j J; apply app_nth1, J).
  destruct i as [|i].
  - exists (nth (n - 1) h (0, 0)), (nth 1 h (0, 0)). split; [apply IN'; lia|]. split; [apply IN'; lia|]. rewrite <- E. split.
    + pose proof (TR 0%nat 1%nat (n - 1)%nat ltac:(lia) ltac:(lia) ltac:(fold n; lia)) as T. unfold orient in *. Lqa.lra.
    + intros p P. split.
      * pose proof (EDGE (n - 1)%nat ltac:(lia) p P) as G. replace (S (n - 1)) with n in G by lia. rewrite WRAP in G. exact G.
      * pose proof (EDGE 0%nat ltac:(lia) p P) as G. rewrite NEXT in G by lia. exact G.
  - destruct (Nat.eq_dec (S (S i)) n) as [LAST|MID].
    + exists (nth i h (0, 0)), (nth 0 h (0, 0)). split; [apply IN'; lia|]. split; [apply IN'; lia|]. rewrite <- E. split.
      * pose proof (TR 0%nat i (S i) ltac:(lia) ltac:(lia) ltac:(fold n; lia)) as T. unfold orient in *. Lqa.lra.
      * intros p P. split.
        -- pose proof (EDGE i ltac:(lia) p P) as G. rewrite NEXT in G by lia. exact G.
        -- pose proof (EDGE (S i) ltac:(lia) p P) as G. rewrite LAST, WRAP in G. exact G.
    + exists (nth i h (0, 0)), (nth (S (S i)) h (0, 0)). split; [apply IN'; lia|]. split; [apply IN'; lia|]. rewrite <- E. split.
      * exact (TR i (S i) (S (S i)) ltac:(lia) ltac:(lia) ltac:(fold n; lia)).
      * intros p P. split.
        -- pose proof (EDGE i ltac:(lia) p P) as G. rewrite NEXT in G by lia. exact G.
        -- pose proof (EDGE (S i) ltac:(lia) p P) as G. rewrite NEXT in G by lia. exact G.
Qed.
(** A vertex least in a direction is least among all points. *)
Lemma least_vertex : forall h s t, h <> [] -> exists m, In m h /\ forall q, In q h -> s * fst m + t * snd m <= s * fst q + t * snd q.
Proof.
  induction h as [|a h IH]; intros s t NE; [contradiction|]. destruct h as [|b h]; [exists a; split; [left; reflexivity|intros q [<-|[]]; Lqa.lra]|].
  destruct (IH s t ltac:(discriminate)) as (m & M & LM). destruct (Qlt_le_dec (s * fst a + t * snd a) (s * fst m + t * snd m)) as [G|G].
  - exists a. split; [left; reflexivity|]. intros q [<-|Q0]; [Lqa.lra|]. specialize (LM q Q0). Lqa.lra.
  - exists m. split; [right; exact M|]. intros q [<-|Q0]; [exact G|apply LM, Q0].
Qed.
Lemma least_all : forall pts h s t, HullRing pts h -> exists m, In m h /\ forall q, In q pts -> s * fst m + t * snd m <= s * fst q + t * snd q.
Proof.
  intros pts h s t HR. destruct (least_vertex h s t) as (m & M & LM); [intros ->; destruct HR as [L _]; cbn in L; lia|]. exists m. split; [exact M|].
  destruct (neighbours pts h m HR M) as (a & b & A & B & T & LE). intros q Q0. destruct (LE q Q0) as [L1 L2]. pose proof (LM a A) as GA. pose proof (LM b B) as GB.
  assert (E : (s * fst q + t * snd q - (s * fst m + t * snd m)) * orient a m b ==
    orient a m q * (s * fst b + t * snd b - (s * fst m + t * snd m)) + orient m b q * (s * fst a + t * snd a - (s * fst m + t * snd m))) by (unfold orient; ring).
  assert (N : 0 <= s * fst q + t * snd q - (s * fst m + t * snd m)) by (apply (nonneg_cancel _ (orient a m b) T); rewrite E; Lqa.nra). Lqa.lra.
Qed.
Lemma ring_corners : forall pts h, HullRing pts h -> forall p, In p pts -> ((exists q, In q h /\ At q p) <-> Corner pts p).
Proof.
  intros pts h HR p P. split.
  - intros (v & V & [E1 E2]). destruct (neighbours pts h v HR V) as (a & b & A & B & T & LE).
    exists (snd a - snd b), (fst b - fst a). intros q Q0. destruct (LE q Q0) as [L1 L2].
    assert (E : (snd a - snd b) * fst q + (fst b - fst a) * snd q - ((snd a - snd b) * fst v + (fst b - fst a) * snd v) == orient a v q + orient v b q) by (unfold orient; ring).
    rewrite <- E1, <- E2. split; [Lqa.lra|]. intro EQ. assert (Z1 : orient a v q == 0) by Lqa.lra. assert (Z2 : orient v b q == 0) by Lqa.lra.
    assert (F1 : (fst q - fst v) * orient a v b == orient a v q * (fst b - fst v) + orient v b q * (fst a - fst v)) by (unfold orient; ring).
    assert (F2 : (snd q - snd v) * orient a v b == orient a v q * (snd b - snd v) + orient v b q * (snd a - snd v)) by (unfold orient; ring).
    rewrite Z1, Z2 in F1, F2. unfold At. rewrite <- E1, <- E2. split.
    + assert (G : fst q - fst v == 0) by (apply (Qmult_inj_r _ _ (orient a v b)); [intro X; rewrite X in T; Lqa.lra|rewrite F1; ring]). Lqa.lra.
    + assert (G : snd q - snd v == 0) by (apply (Qmult_inj_r _ _ (orient a v b)); [intro X; rewrite X in T; Lqa.lra|rewrite F2; ring]). Lqa.lra.
  - intros (s & t & H). destruct (least_all pts h s t HR) as (m & M & LM). exists m. split; [exact M|].
    destruct (H m (proj1 (proj2 HR) m M)) as [H1 H2]. apply H2. specialize (LM p P). Lqa.lra.
Qed.

Lemma hull_ring : forall qhull pts h, Qhull qhull -> hull_array qhull pts = Ok h -> HullRing pts h.
Proof.
  intros qhull pts h (Q1 & Q2 & Q3) E. unfold hull_array in E. destruct (straight_dec pts) as [ST|NS].
  - destruct pts as [|a t]; [rewrite Q1 in E; discriminate E|]. rewrite (Q2 (a :: t) ltac:(discriminate) ST) in E. discriminate E.
  - destruct (Q3 pts NS) as (v & QV & HR). rewrite QV in E. cbn in E. injection E as <-. exact HR.
Qed.
Lemma hull_defined : forall qhull pts, Qhull qhull -> ~ Straight pts -> exists h, hull_array qhull pts = Ok h.
Proof. intros qhull pts (_ & _ & Q3) NS. destruct (Q3 pts NS) as (v & QV & _). unfold hull_array. rewrite QV. eexists. reflexivity. Qed.
Lemma ring_not_straight : forall pts h, HullRing pts h -> ~ Straight h.
Proof.
  intros pts h (L3 & _ & TR & _) ST. pose proof (TR 0%nat 1%nat 2%nat ltac:(lia) ltac:(lia) ltac:(lia)) as T.
  rewrite (ST _ _ _ (nth_In h (0, 0) (n := 0) ltac:(lia)) (nth_In h (0, 0) (n := 1) ltac:(lia)) (nth_In h (0, 0) (n := 2) ltac:(lia))) in T. Lqa.lra.
Qed.
Definition Apart (h : list pt) : Prop := forall i j, (i < j)%nat -> (j < length h)%nat -> ~ At (nth i h (0, 0)) (nth j h (0, 0)).
Lemma ring_apart : forall pts h, HullRing pts h -> Apart h.
Proof.
  intros pts h (L3 & _ & TR & _) i j IJ J [E1 E2].
  assert (K : exists k, (k < length h)%nat /\ k <> i /\ k <> j).
  { destruct (Nat.eq_dec i 0) as [->|]; [|exists 0%nat; lia]. destruct (Nat.eq_dec j 1) as [->|]; [exists 2%nat; lia|exists 1%nat; lia]. }
  destruct K as (k & K & NI & NJ). destruct (lt_dec k i) as [G|G]; [|destruct (lt_dec k j) as [G'|G']].
  - pose proof (TR k i j G IJ J) as T. unfold orient in T. rewrite E1, E2 in T. Lqa.lra.
  - pose proof (TR i k j ltac:(lia) G' J) as T. unfold orient in T. rewrite E1, E2 in T. Lqa.lra.
  - pose proof (TR i j k IJ ltac:(lia) K) as T. unfold orient in T. rewrite E1, E2 in T. Lqa.lra.
Qed.
(** Different places of one list among those of another. *)
Lemma fewer : forall h h' (g : pt -> pt), (forall p q, At (g p) (g q) -> At p q) -> Apart h -> (forall q, In q h -> exists q', In q' h' /\ At q' (g q)) -> (length h <= length h')%nat.
Proof.
  induction h as [|a h IH]; intros h' g INJ AP M; [cbn; lia|].
  destruct (M a (or_introl eq_refl)) as (a' & A & E). apply in_split in A. destruct A as (l1 & l2 & ->).
  assert (K : (length h <= length (l1 ++ l2))%nat).
  { apply (IH (l1 ++ l2) g INJ).
    - intros i j IJ J. exact (AP (S i) (S j) ltac:(lia) ltac:(cbn [length]; lia)).
    - intros q Q0. destruct (M q (or_intror Q0)) as (q' & Q1 & E'). exists q'. split; [|exact E'].
      apply in_app_or in Q1. apply in_or_app. destruct Q1 as [Q1|[<-|Q1]]; [left; exact Q1| |right; exact Q1].
      exfalso. destruct (In_nth h q (0, 0) Q0) as (i & I & EI). apply (AP 0%nat (S i) ltac:(lia) ltac:(cbn [length]; lia)). cbn [nth]. rewrite EI. apply INJ.
      destruct E as [E1 E2]. destruct E' as [E3 E4]. split; Lqa.lra. }
  rewrite app_length in *. cbn [length]. lia.
Qed.
Lemma corner_subset : forall pts pts' p, (forall q, In q pts' -> In q pts) -> Corner pts p -> Corner pts' p.
Proof. intros pts pts' p SUB (s & t & H). exists s, t. intros q Q0. apply H, SUB, Q0. Qed.

(** An invertible affine map. *)
Section Affine.
Variables a b c d e f : Q.
Definition affine (p : pt) : pt := (a * fst p + b * snd p + e, c * fst p + d * snd p + f).
Hypothesis det : ~ a * d - b * c == 0.
Lemma affine_at : forall p q, At (affine p) (affine q) -> At p q.
Proof using det.
  intros p q [E1 E2]. unfold affine in E1, E2. cbn [fst snd] in E1, E2. split.
  - apply (Qmult_inj_r _ _ (a * d - b * c) det). assert (X : (a * fst p + b * snd p + e) * d - (c * fst p + d * snd p + f) * b == (a * fst q + b * snd q + e) * d - (c * fst q + d * snd q + f) * b) by (rewrite E1, E2; reflexivity). Lqa.lra.
  - apply (Qmult_inj_r _ _ (a * d - b * c) det). assert (X : (c * fst p + d * snd p + f) * a - (a * fst p + b * snd p + e) * c == (c * fst q + d * snd q + f) * a - (a * fst q + b * snd q + e) * c) by (rewrite E1, E2; reflexivity). Lqa.lra.
Qed.
Lemma affine_corner : forall pts p, Corner pts p -> Corner (map affine pts) (affine p).
Proof using det.
  intros pts p (s & t & H). set (D := a * d - b * c) in *. exists ((s * d - t * c) / D), ((t * a - s * b) / D). intros q Q0. apply in_map_iff in Q0. destruct Q0 as (x & <- & X).
  destruct (H x X) as [H1 H2]. unfold affine. cbn [fst snd].
  assert (G : forall y : pt, (s * d - t * c) / D * (a * fst y + b * snd y + e) + (t * a - s * b) / D * (c * fst y + d * snd y + f) ==
    s * fst y + t * snd y + ((s * d - t * c) * e + (t * a - s * b) * f) / D).
  { intro y. unfold D. field. exact det. }
  rewrite !G. split; [Lqa.lra|]. intro EQ. assert (EQ' : s * fst x + t * snd x == s * fst p + t * snd p) by Lqa.lra. destruct (H2 EQ') as [E1 E2]. split; cbn [fst snd]; rewrite E1, E2; reflexivity.
Qed.
Lemma affine_straight : forall pts, Straight (map affine pts) -> Straight pts.
Proof using det.
  intros pts ST x y z X Y Zz. specialize (ST (affine x) (affine y) (affine z) (in_map _ _ _ X) (in_map _ _ _ Y) (in_map _ _ _ Zz)).
  assert (E : orient (affine x) (affine y) (affine z) == orient x y z * (a * d - b * c)) by (unfold orient, affine; cbn [fst snd]; ring).
  apply (Qmult_inj_r _ _ (a * d - b * c) det). rewrite <- E, ST. ring.
Qed.
End Affine.

(** ** C157 and C158 *)
(** A function with the properties asked of scipy's ConvexHull exists. *)
Theorem C157_hull_exists : exists qhull, Qhull qhull.
Proof. exists some_qhull. exact some_qhull_ok. Qed.
Print Assumptions C157_hull_exists.

(** hull returns every corner of the pattern exactly once and nothing else. *)
Theorem C158_corners : forall qhull pts h, Qhull qhull -> hull_array qhull pts = Ok h ->
  (forall p, In p pts -> ((exists q, In q h /\ At q p) <-> Corner pts p)) /\
  (forall q, In q h -> In q pts /\ Corner pts q) /\
  (forall i j, (i < j)%nat -> (j < length h)%nat -> ~ At (nth i h (0, 0)) (nth j h (0, 0))).
Proof.
  intros qhull pts h QH E. pose proof (hull_ring qhull pts h QH E) as HR. pose proof (ring_corners pts h HR) as RC.
  split; [exact RC|]. split; [|exact (ring_apart pts h HR)].
  intros q Q0. assert (IQ : In q pts) by (apply HR, Q0). split; [exact IQ|]. apply (RC q IQ). exists q. split; [exact Q0|split; reflexivity].
Qed.
Print Assumptions C158_corners.

(** Of the pattern transformed by an invertible affine map (a change of units, of origin,
    of orientation, a reflection), in another order and with other repetitions, hull
    returns the transformed corners; and of the corners it returns the corners. *)
Theorem C158_invariant : forall qhull qhull' pts h, Qhull qhull -> Qhull qhull' -> hull_array qhull pts = Ok h ->
  (forall a b c d e f pts', ~ a * d - b * c == 0 -> (forall p, In p pts' <-> In p (map (affine a b c d e f) pts)) ->
     exists h', hull_array qhull' pts' = Ok h' /\ length h' = length h /\
       (forall q, In q h -> exists q', In q' h' /\ At q' (affine a b c d e f q)) /\ (forall q', In q' h' -> exists q, In q h /\ At q' (affine a b c d e f q))) /\
  (exists h', hull_array qhull' h = Ok h' /\ length h' = length h /\ (forall q, In q h -> exists q', In q' h' /\ At q' q) /\ (forall q', In q' h' -> In q' h)).
Proof.
  intros qhull qhull' pts h QH QH' E. pose proof (hull_ring qhull pts h QH E) as HR.
  destruct (C158_corners qhull pts h QH E) as (RC & CQ & AP).
  assert (NS : ~ Straight pts). { intro ST. destruct QH as (Q1 & Q2 & _). unfold hull_array in E. destruct pts as [|x t]; [rewrite Q1 in E; discriminate E|]. rewrite (Q2 (x :: t) ltac:(discriminate) ST) in E. discriminate E. }
  split.
  - intros a b c d e f pts' DET SAME. set (g := affine a b c d e f) in *.
    assert (NS' : ~ Straight pts').
    { intro ST. apply NS, (affine_straight a b c d e f DET). intros x y z X Y Zz. apply ST; apply SAME; assumption. }
    destruct (hull_defined qhull' pts' QH' NS') as [h' E']. exists h'. split; [exact E'|].
    destruct (C158_corners qhull' pts' h' QH' E') as (RC' & CQ' & AP').
    assert (F1 : forall q, In q h -> exists q', In q' h' /\ At q' (g q)).
    { intros q Q0. destruct (CQ q Q0) as [IQ C]. apply (RC' (g q)); [apply SAME, in_map, IQ|]. apply (corner_subset (map g pts)); [intros x X; apply SAME, X|]. apply (affine_corner a b c d e f DET), C. }
    assert (F2 : forall q', In q' h' -> exists q, In q h /\ At q' (g q)).
    { intros q' Q1. destruct (CQ' q' Q1) as [IQ' C']. apply SAME in IQ'. apply in_map_iff in IQ'. destruct IQ' as (x & <- & X).
      assert (CX : Corner pts x).
      { destruct C' as (s & t & H). exists (s * a + t * c), (s * b + t * d). intros y Y. destruct (H (g y)) as [H1 H2]; [apply SAME, in_map, Y|]. unfold g, affine in H1, H2. cbn [fst snd] in H1, H2.
        split; [Lqa.lra|]. intro EQ. apply (affine_at a b c d e f DET). apply H2. Lqa.lra. }
      destruct (proj2 (RC x X) CX) as (q & Q0 & [A1 A2]). exists q. split; [exact Q0|]. unfold g, affine. split; cbn [fst snd]; rewrite A1, A2; reflexivity. }
    split; [|split; assumption]. apply Nat.le_antisymm.
    + (* each vertex of h' is the image of another vertex of h *)
      set (D := a * d - b * c) in *.
      set (g' := affine (d / D) (- b / D) (- c / D) (a / D) ((b * f - d * e) / D) ((c * e - a * f) / D)).
      assert (DET' : ~ d / D * (a / D) - - b / D * (- c / D) == 0).
      { assert (X : d / D * (a / D) - - b / D * (- c / D) == / D) by (unfold D; field; exact DET). rewrite X. intro Y. apply DET. rewrite <- (Qinv_involutive D), Y. reflexivity. }
      apply (fewer h' h g').
      * intros p q H. exact (affine_at _ _ _ _ _ _ DET' p q H).
      * exact AP'.
      * intros q' Q1. destruct (F2 q' Q1) as (q & Q0 & [A1 A2]). exists q. split; [exact Q0|]. unfold g', affine, At. cbn [fst snd]. rewrite A1, A2. unfold g, affine. cbn [fst snd]. split; unfold D; field; exact DET.
    + apply (fewer h h' g); [intros p q H; exact (affine_at a b c d e f DET p q H)|exact AP|exact F1].
  - pose proof (ring_not_straight pts h HR) as NSH. destruct (hull_defined qhull' h QH' NSH) as [h' E']. exists h'. split; [exact E'|].
    destruct (C158_corners qhull' h h' QH' E') as (RC' & CQ' & AP').
    assert (F1 : forall q, In q h -> exists q', In q' h' /\ At q' q).
    { intros q Q0. destruct (CQ q Q0) as [IQ C]. apply (RC' q Q0). apply (corner_subset pts); [intros x X; apply CQ, X|exact C]. }
    assert (F2 : forall q', In q' h' -> In q' h) by (intros q' Q1; apply CQ', Q1).
    split; [|split; assumption]. apply Nat.le_antisymm.
    + apply (fewer h' h (fun p => p)); [auto|exact AP'|]. intros q Q0. exists q. split; [apply F2, Q0|split; reflexivity].
    + apply (fewer h h' (fun p => p)); [auto|exact AP|exact F1].
Qed.
Print Assumptions C158_invariant.

(** The three corners of a triangle are corners, a point on its side is none. *)
Example C158_case : Corner [(0, 0); (1, 1); (4, 4); (0, 3)] (4, 4) /\ ~ Corner [(0, 0); (1, 1); (4, 4); (0, 3)] (1, 1).
Proof.
  split.
  - exists (-1), 0. intros q [<-|[<-|[<-|[<-|[]]]]]; cbn; (split; [Lqa.lra|]); unfold At; cbn; intro H; split; try reflexivity; exfalso; Lqa.lra.
  - intros (s & t & H). pose proof (H (0, 0) ltac:(cbn; auto)) as [A1 A2]. pose proof (H (4, 4) ltac:(cbn; auto)) as [B1 _]. cbn in *.
    assert (E : s + t == 0) by Lqa.lra. destruct A2 as [X _]; [Lqa.lra|]. cbn in X. discriminate X.
Qed.
