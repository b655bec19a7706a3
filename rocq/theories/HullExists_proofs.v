(** Every finite set of points not on one line has a convex hull: a function with the
    properties that Straight_props.v asks of scipy's ConvexHull exists. The hull is
    built by sorting the points around an extreme one and scanning them. *)
From Coq Require Import ZArith QArith List Bool Lia Lqa Arith Sorting.Sorted.
From Verif Require Import Base Pattern_model Pattern_spec Straight_props.
Import ListNotations.
Local Open Scope Q_scope.

Section Around.
(** The extreme point. *)
Variable o : pt.
Definition cr (x y : pt) : Q := orient o x y.
(** Strictly to the right of o, or above it. *)
Definition Pos (p : pt) : Prop := fst o < fst p \/ (fst o == fst p /\ snd o < snd p).
Definition Same (p : pt) : Prop := fst p == fst o /\ snd p == snd o.
(** p lies between o and r. *)
Definition Scaled (c : Q) (p r : pt) : Prop := fst p - fst o == c * (fst r - fst o) /\ snd p - snd o == c * (snd r - snd o).

Lemma cr_trans : forall x y z, Pos x -> Pos y -> Pos z -> 0 < cr x y -> 0 < cr y z -> 0 < cr x z.
Proof.
  intros x y z X Y Zz. unfold cr, orient, Pos in *.
  set (x1 := fst x - fst o). set (x2 := snd x - snd o). set (y1 := fst y - fst o). set (y2 := snd y - snd o). set (z1 := fst z - fst o). set (z2 := snd z - snd o).
  assert (X' : 0 < x1 \/ (x1 == 0 /\ 0 < x2)) by (unfold x1, x2; destruct X as [H|[H K]]; [left|right; split]; Lqa.lra).
  assert (Y' : 0 < y1 \/ (y1 == 0 /\ 0 < y2)) by (unfold y1, y2; destruct Y as [H|[H K]]; [left|right; split]; Lqa.lra).
  assert (Z' : 0 < z1 \/ (z1 == 0 /\ 0 < z2)) by (unfold z1, z2; destruct Zz as [H|[H K]]; [left|right; split]; Lqa.lra).
  clearbody x1 x2 y1 y2 z1 z2. clear X Y Zz. intros A B.
  destruct Y' as [Y1|[Y1 Y2]].
  - assert (E : (x1 * z2 - z1 * x2) * y1 == (x1 * y2 - y1 * x2) * z1 + (y1 * z2 - z1 * y2) * x1) by ring.
    destruct X' as [X1|[X1 X2]].
    + assert (Z0 : 0 <= z1) by (destruct Z' as [H|[H _]]; Lqa.lra). assert (H : 0 < (x1 * z2 - z1 * x2) * y1) by (rewrite E; Lqa.nra).
      apply Qnot_le_lt. intro N. Lqa.nra.
    + exfalso. rewrite X1 in A. Lqa.nra.
  - exfalso. rewrite Y1 in A, B. assert (Z0 : 0 <= z1) by (destruct Z' as [H|[H _]]; Lqa.lra). Lqa.nra.
Qed.
Lemma same_ray : forall p r, Pos p -> Pos r -> cr p r == 0 -> { c | 0 < c /\ Scaled c p r }.
Proof.
  intros p r P R0 C. unfold Pos, cr, orient, Scaled in *.
  destruct (Qlt_le_dec 0 (fst r - fst o)) as [G|G].
  - exists ((fst p - fst o) / (fst r - fst o)).
    assert (P1 : 0 < fst p - fst o). { destruct P as [H|[H K]]; [Lqa.lra|]. exfalso. assert (E : fst p - fst o == 0) by Lqa.lra. rewrite E in C. Lqa.nra. }
    split; [apply Qlt_shift_div_l; Lqa.lra|]. split; [field; Lqa.lra|].
    assert (E : (snd p - snd o) * (fst r - fst o) == (fst p - fst o) * (snd r - snd o)) by Lqa.lra.
    setoid_replace ((fst p - fst o) / (fst r - fst o) * (snd r - snd o)) with ((fst p - fst o) * (snd r - snd o) / (fst r - fst o)) by (field; Lqa.lra).
    rewrite <- E. field. Lqa.lra.
  - exists ((snd p - snd o) / (snd r - snd o)).
    assert (R1 : fst r - fst o == 0 /\ 0 < snd r - snd o) by (destruct R0 as [H|[H K]]; [exfalso; Lqa.lra|split; Lqa.lra]). destruct R1 as [R1 R2].
    assert (P1 : fst p - fst o == 0). { rewrite R1 in C. apply (Qmult_inj_r _ _ (snd r - snd o)); Lqa.lra. }
    assert (P2 : 0 < snd p - snd o) by (destruct P as [H|[H K]]; Lqa.lra).
    split; [apply Qlt_shift_div_l; Lqa.lra|]. split; [rewrite P1, R1; ring|field; Lqa.lra].
Qed.

(** Counter-clockwise order around o, the last one first. *)
Definition Sorted (l : list pt) : Prop := StronglySorted (fun a b => 0 < cr b a) l.
Definition Covered (l : list pt) (p : pt) : Prop := Same p \/ exists r c, In r l /\ 0 <= c /\ c <= 1 /\ Scaled c p r.
Lemma scaled_trans : forall c d p q r, Scaled c p q -> Scaled d q r -> Scaled (c * d) p r.
Proof. intros c d p q r [A B] [C E]. unfold Scaled. rewrite A, B, C, E. split; ring. Qed.
Lemma insert : forall p l, Pos p -> (forall q, In q l -> Pos q) -> Sorted l ->
  { l' | Sorted l' /\ (forall q, In q l' -> q = p \/ In q l) /\ Covered l' p /\ forall q, In q l -> Covered l' q }.
Proof.
  intros p l P. induction l as [|r t IH]; intros A SS.
  - exists [p]. split; [repeat constructor|]. split; [intros q [<-|[]]; auto|]. split; [|intros q []].
    right. exists p, 1. repeat split; cbn; auto; try Lqa.lra; ring.
  - assert (PR : Pos r) by (apply A; left; reflexivity). apply StronglySorted_inv in SS. destruct SS as [ST FR].
    assert (SELF : forall l x, In x l -> Covered l x) by (intros l x X; right; exists x, 1; unfold Scaled; repeat split; auto; try Lqa.lra; ring).
    destruct (Q_dec 0 (cr r p)) as [[G|G]|G].
    + exists (p :: r :: t). split; [|split; [intros q [<-|H]; auto|split; [apply SELF; left; reflexivity|intros q H; apply SELF; right; exact H]]].
      constructor; [constructor; assumption|]. constructor; [exact G|]. rewrite Forall_forall in FR |- *. intros x X. apply (cr_trans x r p); auto. apply A. right. exact X.
    + destruct (IH (fun q H => A q (or_intror H)) ST) as (l' & S' & I' & C' & K'). exists (r :: l'). split; [|split; [|split]].
      * constructor; [exact S'|]. rewrite Forall_forall in FR |- *. intros x X. destruct (I' x X) as [->|H]; [|apply FR, H]. unfold cr, orient in *. Lqa.lra.
      * intros q [<-|H]; [right; left; reflexivity|]. destruct (I' q H) as [->|H']; [auto|right; right; exact H'].
      * destruct C' as [H|(x & c & X & H)]; [left; exact H|right; exists x, c; split; [right; exact X|exact H]].
      * intros q [<-|H]; [apply SELF; left; reflexivity|]. destruct (K' q H) as [H'|(x & c & X & H')]; [left; exact H'|right; exists x, c; split; [right; exact X|exact H']].
    + assert (G' : cr p r == 0) by (unfold cr, orient in *; Lqa.lra).
      destruct (same_ray p r P PR G') as (c & C0 & SC). destruct (Qlt_le_dec 1 c) as [C1|C1].
      * exists (p :: t). split; [|split; [intros q [<-|H]; [auto|right; right; exact H]|split; [apply SELF; left; reflexivity|]]].
        { constructor; [exact ST|]. rewrite Forall_forall in FR |- *. intros x X. specialize (FR x X).
          assert (E : cr x p == c * cr x r).
          { destruct SC as [E1 E2]. unfold cr, orient. rewrite E1, E2. ring. }
          rewrite E. Lqa.nra. }
        intros q [<-|H]; [|apply SELF; right; exact H]. right. exists p, (/ c). split; [left; reflexivity|].
        assert (NZ : ~ c == 0) by Lqa.lra. assert (I0 : 0 < / c) by (apply Qinv_lt_0_compat; exact C0). assert (E : c * / c == 1) by (field; exact NZ).
        split; [Lqa.lra|]. split; [Lqa.nra|]. destruct SC as [E1 E2]. split; [rewrite E1|rewrite E2]; field; exact NZ.
      * exists (r :: t). split; [constructor; assumption|]. split; [intros q H; right; exact H|]. split; [|intros q H; apply SELF, H].
        right. exists r, c. split; [left; reflexivity|]. split; [Lqa.lra|]. split; [exact C1|exact SC].
Qed.
Lemma covered_trans : forall l l' p, Covered l p -> (forall q, In q l -> Covered l' q) -> Covered l' p.
Proof.
  intros l l' p [H|(r & c & R0 & C0 & C1 & SC)] K; [left; exact H|]. destruct (K r R0) as [[E1 E2]|(x & d & X & D0 & D1 & SD)].
  - left. destruct SC as [F1 F2]. split.
    + assert (Z0 : fst r - fst o == 0) by Lqa.lra. rewrite Z0 in F1. Lqa.lra.
    + assert (Z0 : snd r - snd o == 0) by Lqa.lra. rewrite Z0 in F2. Lqa.lra.
  - right. exists x, (c * d). split; [exact X|]. split; [Lqa.nra|]. split; [Lqa.nra|]. exact (scaled_trans _ _ _ _ _ SC SD).
Qed.
Lemma around : forall l, (forall p, In p l -> Pos p \/ Same p) ->
  { r | Sorted r /\ (forall q, In q r -> In q l /\ Pos q) /\ forall p, In p l -> Covered r p }.
Proof.
  induction l as [|p l IH]; intro A.
  - exists []. split; [constructor|]. split; intros q [].
  - destruct (IH (fun q H => A q (or_intror H))) as (r & SR & IR & CR0).
    assert (DEC : { Pos p } + { ~ Pos p }).
    { unfold Pos. destruct (Q_dec (fst o) (fst p)) as [[G|G]|G].
      - left. left. exact G.
      - right. intros [H|[H _]]; Lqa.lra.
      - destruct (Qlt_le_dec (snd o) (snd p)) as [K|K]; [left; right; split; assumption|right; intros [H|[_ H]]; Lqa.lra]. }
    destruct DEC as [P|NP].
    + destruct (insert p r P (fun q H => proj2 (IR q H)) SR) as (r' & S' & I' & C' & K'). exists r'. split; [exact S'|]. split.
      * intros q H. destruct (I' q H) as [->|H']; [split; [left; reflexivity|exact P]|]. destruct (IR q H') as [X Y]. split; [right; exact X|exact Y].
      * intros q [<-|H]; [exact C'|]. apply (covered_trans r); auto.
    + exists r. split; [exact SR|]. split; [intros q H; destruct (IR q H); split; [right|]; assumption|].
      intros q [<-|H]; [|auto]. left. destruct (A p (or_introl eq_refl)) as [H|H]; [contradiction|exact H].
Qed.

(** ** The scan *)
(** All triples turn left; all of ps are left of every edge. The last point comes first. *)
Fixpoint Tri (st : list pt) : Prop :=
  match st with [] => True | a :: t => ForallOrdPairs (fun b c => 0 < orient c b a) t /\ Tri t end.
Fixpoint Left (ps st : list pt) : Prop :=
  match st with
  | b :: t => match t with a :: _ => forall p, In p ps -> 0 <= orient a b p | [] => True end /\ Left ps t
  | [] => True
  end.
Lemma pos_cancel : forall x y, 0 < y -> 0 < x * y -> 0 < x.
Proof. intros x y Y H. apply Qnot_le_lt. intro N. Lqa.nra. Qed.
Lemma nonneg_cancel : forall x y, 0 < y -> 0 <= x * y -> 0 <= x.
Proof. intros x y Y H. apply Qnot_lt_le. intro N. Lqa.nra. Qed.
Lemma four : forall c a b d, 0 < cr c a -> 0 < cr a b -> 0 < cr a d -> 0 < cr b d -> 0 < cr c b -> 0 < orient c a b -> 0 < orient a b d ->
  0 < orient c a d /\ 0 < orient c b d.
Proof.
  intros c a b d CA AB AD BD CB T1 T2. split; apply (pos_cancel _ (cr a b)); try assumption.
  - setoid_replace (orient c a d * cr a b) with (cr c a * orient a b d + cr a d * orient c a b) by (unfold cr, orient; ring). Lqa.nra.
  - setoid_replace (orient c b d * cr a b) with (cr c b * orient a b d + cr b d * orient c a b) by (unfold cr, orient; ring). Lqa.nra.
Qed.
Lemma triples_new : forall l a b d, Sorted (b :: a :: l) -> Tri (b :: a :: l) -> (forall x, In x (b :: a :: l) -> 0 < cr x d) -> 0 < orient a b d ->
  ForallOrdPairs (fun x y => 0 < orient y x d) (b :: a :: l).
Proof.
  induction l as [|c l IH]; intros a b d SS T D H.
  - constructor; [constructor; [exact H|constructor]|repeat constructor].
  - pose proof SS as S0. apply StronglySorted_inv in SS. destruct SS as [SS FB]. pose proof SS as S1. apply StronglySorted_inv in SS. destruct SS as [SS FA].
    destruct T as [TB T]. inversion TB as [|a0 l0 TA TB' E0]; subst.
    rewrite Forall_forall in FB, FA, TA.
    assert (F : forall x, In x (c :: l) -> 0 < orient x a d /\ 0 < orient x b d).
    { intros x X. apply four; [apply FA, X|apply FB; left; reflexivity|apply D; right; left; reflexivity|apply D; left; reflexivity|apply FB; right; exact X|apply TA, X|exact H]. }
    assert (G : ForallOrdPairs (fun x y => 0 < orient y x d) (a :: c :: l)).
    { apply IH; [exact S1|exact T|intros x X; apply D; right; exact X|]. apply F. left. reflexivity. }
    constructor; [|exact G]. rewrite Forall_forall. intros x [<-|X]; [exact H|]. apply F, X.
Qed.
Lemma left_more : forall ps d st, Left ps st -> ForallOrdPairs (fun x y => 0 < orient y x d) st -> Left (d :: ps) st.
Proof.
  intros ps d. induction st as [|b t IH]; intros L F; [exact I|]. destruct L as [L1 L2]. inversion F as [|b0 t0 F1 F2 E0]; subst. split; [|apply IH; assumption].
  destruct t as [|a t]; [exact I|]. intros p [<-|P]; [|apply L1, P]. inversion F1; subst. apply Qlt_le_weak. assumption.
Qed.

Lemma left_consecutive : forall ps st l1 l2 a b, Left ps st -> st = l1 ++ b :: a :: l2 -> forall p, In p ps -> 0 <= orient a b p.
Proof.
  intros ps st l1. revert st. induction l1 as [|x l1 IH]; intros st l2 a b L E p P; subst st; destruct L as [L1 L2]; [apply L1, P|].
  exact (IH _ l2 a b L2 eq_refl p P).
Qed.
Lemma left_weaken : forall ps ps' st, (forall a b, (forall p, In p ps -> 0 <= orient a b p) -> forall p, In p ps' -> 0 <= orient a b p) -> Left ps st -> Left ps' st.
Proof. intros ps ps' st W. induction st as [|b t IH]; intro L; [exact I|]. destruct L as [L1 L2]. split; [|apply IH, L2]. destruct t as [|a t]; [exact I|]. apply W, L1. Qed.
Lemma left_end : forall ps st e, Left ps st -> (forall p, In p ps -> 0 <= orient e (last st o) p) -> Left ps (st ++ [e]).
Proof.
  intros ps st e. induction st as [|b t IH]; intros L H; [repeat split|]. destruct L as [L1 L2]. destruct t as [|a t].
  - cbn. split; [exact H|split; exact I].
  - split; [exact L1|]. apply IH; [exact L2|exact H].
Qed.
Lemma left_origin : forall ps st, Sorted st -> Left ps st -> Left (o :: ps) st.
Proof.
  intros ps st. induction st as [|b t IH]; intros SS L; [exact I|]. apply StronglySorted_inv in SS. destruct SS as [SS F]. destruct L as [L1 L2]. split; [|apply IH; assumption].
  destruct t as [|a t]; [exact I|]. intros p [<-|P]; [|apply L1, P]. inversion F as [|a0 t0 F1 F2 E0]; subst. unfold cr, orient in *. Lqa.lra.
Qed.
Lemma sorted_nth : forall st, Sorted st -> forall i j, (i < j)%nat -> (j < length st)%nat -> 0 < cr (nth j st (0, 0)) (nth i st (0, 0)).
Proof.
  induction st as [|a t IH]; intros SS i j IJ J; cbn [length] in J; [lia|]. apply StronglySorted_inv in SS. destruct SS as [SS F]. rewrite Forall_forall in F.
  destruct j as [|j]; [lia|]. destruct i as [|i]; cbn [nth]; [apply F, nth_In; lia|apply IH; auto; lia].
Qed.
Lemma pairs_nth : forall (P : pt -> pt -> Prop) l, ForallOrdPairs P l -> forall i j, (i < j)%nat -> (j < length l)%nat -> P (nth i l (0, 0)) (nth j l (0, 0)).
Proof.
  intros P. induction l as [|a t IH]; intros F i j IJ J; cbn [length] in J; [lia|]. inversion F as [|a0 t0 F1 F2 E0]; subst. rewrite Forall_forall in F1.
  destruct j as [|j]; [lia|]. destruct i as [|i]; cbn [nth]; [apply F1, nth_In; lia|apply IH; auto; lia].
Qed.
Lemma tri_nth : forall st, Tri st -> forall i j k, (i < j)%nat -> (j < k)%nat -> (k < length st)%nat -> 0 < orient (nth k st (0, 0)) (nth j st (0, 0)) (nth i st (0, 0)).
Proof.
  induction st as [|a t IH]; intros T i j k IJ JK K; cbn [length] in K; [lia|]. destruct T as [T1 T2]. destruct k as [|k]; [lia|]. destruct j as [|j]; [lia|]. cbn [nth].
  destruct i as [|i]; cbn [nth]; [apply (pairs_nth _ _ T1); lia|apply IH; auto; lia].
Qed.

Lemma push : forall st ps d, st <> [] -> Sorted st -> Tri st -> Left ps st -> (forall p, In p st -> In p ps) -> (forall p, In p ps -> 0 < cr p d) ->
  (forall p q, In p ps -> In q ps -> p = q \/ 0 < cr p q \/ 0 < cr q p) ->
  (forall p, In p ps -> p = last st o \/ 0 < cr (last st o) p) ->
  ((forall p, In p ps -> p = hd o st \/ 0 < cr p (hd o st)) \/ (exists v, 0 < cr (hd o st) v /\ orient (hd o st) v d <= 0 /\ forall p, In p ps -> 0 <= orient (hd o st) v p)) ->
  { st' | st' <> [] /\ (forall p, In p st' -> In p st) /\ Sorted st' /\ Tri (d :: st') /\ Left (d :: ps) (d :: st') /\ last st' o = last st o }.
Proof.
  induction st as [|b t IH]; intros ps d NE SS T L IN PD CH BOT TOP; [contradiction|].
  assert (BD : 0 < cr b d) by (apply PD, IN; left; reflexivity).
  (* points after b *)
  assert (AFTER : forall p, In p ps -> 0 < cr b p -> 0 <= orient b d p).
  { intros p P G. cbn [hd] in TOP. destruct TOP as [TOP|(v & V1 & V2 & V3)].
    - destruct (TOP p P) as [->|H]; [unfold cr, orient in *; Lqa.lra|]. unfold cr, orient in *. exfalso. Lqa.lra.
    - apply (nonneg_cancel _ (cr b v) V1). specialize (V3 p P).
      setoid_replace (orient b d p * cr b v) with ((- orient b v d) * cr b p + cr b d * orient b v p) by (unfold cr, orient; ring). Lqa.nra. }
  assert (DONE : Left ps (b :: t) -> ForallOrdPairs (fun x y => 0 < orient y x d) (b :: t) -> (forall p, In p ps -> 0 < cr p b -> 0 <= orient b d p) ->
    Tri (d :: b :: t) /\ Left (d :: ps) (d :: b :: t)).
  { intros L0 F BEFORE. split; [split; assumption|]. split; [|apply left_more; assumption].
    intros p [<-|P]; [unfold orient; Lqa.lra|]. destruct (CH p b P (IN b (or_introl eq_refl))) as [->|[H|H]]; [unfold orient; Lqa.lra|apply BEFORE; assumption|apply AFTER; assumption]. }
  destruct t as [|a l].
  - exists [b]. split; [discriminate|]. split; [auto|]. split; [exact SS|].
    destruct DONE as [D1 D2]; [exact L|repeat constructor| |split; [exact D1|split; [exact D2|reflexivity]]].
    intros p P G. destruct (BOT p P) as [->|H]; cbn in *; [unfold orient; Lqa.lra|]. exfalso. unfold cr, orient in *. Lqa.lra.
  - destruct (Qlt_le_dec 0 (orient a b d)) as [G|G].
    + exists (b :: a :: l). split; [discriminate|]. split; [auto|]. split; [exact SS|].
      assert (AB : 0 < cr a b) by (apply StronglySorted_inv in SS; destruct SS as [_ FB]; inversion FB; assumption).
      destruct DONE as [D1 D2].
      * exact L.
      * apply triples_new; auto.
      * intros p P H. apply (nonneg_cancel _ (cr a b) AB). destruct L as [L1 _]. specialize (L1 p P).
        setoid_replace (orient b d p * cr a b) with (orient a b d * cr p b + cr b d * orient a b p) by (unfold cr, orient; ring). Lqa.nra.
      * split; [exact D1|]. split; [exact D2|reflexivity].
    + apply StronglySorted_inv in SS. destruct SS as [SS FB]. destruct T as [_ T]. destruct L as [L1 L2].
      destruct (IH ps d) as (st' & A1 & A2 & A3 & A4 & A5 & A6); auto.
      * discriminate.
      * intros p P. apply IN. right. exact P.
      * right. exists b. cbn [hd]. inversion FB; subst. repeat split; auto.
      * exists st'. split; [exact A1|]. split; [intros p P; right; apply A2, P|]. repeat split; try assumption; try apply A4; apply A5.
Qed.
Lemma sorted_pairs : forall l, Sorted l -> forall p q, In p l -> In q l -> p = q \/ 0 < cr p q \/ 0 < cr q p.
Proof.
  induction l as [|a l IH]; intros SS p q P Q0; [destruct P|]. apply StronglySorted_inv in SS. destruct SS as [SS F]. rewrite Forall_forall in F.
  destruct P as [<-|P]; destruct Q0 as [<-|Q0]; auto.
Qed.
Lemma sorted_last : forall l, Sorted l -> forall p, In p l -> p = last l o \/ 0 < cr (last l o) p.
Proof.
  induction l as [|a l IH]; intros SS p P; [destruct P|]. apply StronglySorted_inv in SS. destruct SS as [SS F]. rewrite Forall_forall in F.
  destruct l as [|b l]; [destruct P as [<-|[]]; left; reflexivity|]. change (last (a :: b :: l) o) with (last (b :: l) o).
  destruct P as [<-|P]; [|apply IH; assumption]. right. apply F. destruct (exists_last (l := b :: l) ltac:(discriminate)) as (x & y & ->). rewrite last_last. apply in_or_app. right. left. reflexivity.
Qed.
Lemma scan : forall ps, ps <> [] -> Sorted ps ->
  { st | st <> [] /\ hd o st = hd o ps /\ last st o = last ps o /\ (forall p, In p st -> In p ps) /\ Sorted st /\ Tri st /\ Left ps st }.
Proof.
  induction ps as [|d ps IH]; intros NE SS; [contradiction|]. destruct ps as [|p0 ps].
  - exists [d]. repeat split; auto. repeat constructor. 
  - set (l := p0 :: ps) in *. pose proof SS as S0. apply StronglySorted_inv in SS. destruct SS as [SS F]. rewrite Forall_forall in F.
    destruct (IH ltac:(discriminate) SS) as (st & B1 & B2 & B3 & B4 & B5 & B6 & B7).
    destruct (push st l d) as (st' & A1 & A2 & A3 & A4 & A5 & A6); auto.
    + apply sorted_pairs, SS.
    + rewrite B3. apply sorted_last, SS.
    + left. rewrite B2. unfold l. cbn [hd]. intros p [<-|P]; [left; reflexivity|right]. apply StronglySorted_inv in SS. destruct SS as [_ F']. rewrite Forall_forall in F'. apply F', P.
    + exists (d :: st'). split; [discriminate|]. split; [reflexivity|]. split.
      { destruct st' as [|x y]; [contradiction|]. change (last (d :: x :: y) o) with (last (x :: y) o). rewrite A6, B3. reflexivity. }
      split; [intros p [<-|P]; [left; reflexivity|right; auto]|]. split; [|split; [exact A4|exact A5]].
      constructor; [exact A3|]. rewrite Forall_forall. intros x X. apply F; auto.
Qed.

(** The ring of a list of points with extreme point o. *)
Lemma ring_exists : forall pts, In o pts -> (forall p, In p pts -> Pos p \/ Same p) -> ~ Straight pts -> { h | HullRing pts h }.
Proof.
  intros pts IO AP NS. destruct (around pts AP) as (ps & SP & IP & CP).
  assert (N2 : forall r, ~ (forall p, In p ps -> p = r)).
  { intros r H. apply NS. intros a b c A B C.
    assert (K : forall p, In p pts -> exists k, Scaled k p r).
    { intros p P. destruct (CP p P) as [[E1 E2]|(x & k & X & _ & _ & SX)]; [exists 0; split; Lqa.lra|]. rewrite (H x X) in SX. exists k. exact SX. }
    destruct (K a A) as [ka [A1 A2]]. destruct (K b B) as [kb [B1 B2]]. destruct (K c C) as [kc [C1 C2]].
    assert (E : orient a b c == (fst b - fst o - (fst a - fst o)) * (snd c - snd o - (snd a - snd o)) - (fst c - fst o - (fst a - fst o)) * (snd b - snd o - (snd a - snd o))) by (unfold orient; ring).
    rewrite E, A1, A2, B1, B2, C1, C2. ring. }
  assert (NE : ps <> []) by (intros ->; apply (N2 o); intros p []).
  destruct (scan ps NE SP) as (st & B1 & B2 & B3 & B4 & B5 & B6 & B7).
  exists (o :: rev st). split; [|split; [|split]].
  - cbn [length]. rewrite rev_length. destruct st as [|x [|y t]]; [contradiction| |cbn; lia]. exfalso. cbn [hd last] in B2, B3. apply (N2 x). intros p P.
    destruct (sorted_last ps SP p P) as [H|H]; [congruence|]. rewrite <- B3 in H. destruct ps as [|q t]; [contradiction|]. cbn [hd] in B2. subst q.
    destruct P as [<-|P]; [reflexivity|]. apply StronglySorted_inv in SP. destruct SP as [_ F]. rewrite Forall_forall in F. specialize (F p P). unfold cr, orient in *. exfalso. Lqa.lra.
  - intros p [<-|P]; [exact IO|]. apply in_rev in P. apply IP, B4, P.
  - cbn [length]. rewrite rev_length. intros i j k IJ JK K. destruct j as [|j]; [lia|]. destruct k as [|k]; [lia|]. cbn [nth]. rewrite !rev_nth by lia.
    destruct i as [|i]; cbn [nth]; [apply (sorted_nth st B5); lia|]. rewrite !rev_nth by lia. apply (tri_nth st B6); lia.
  - intros p0 t E a b p [l1 [l2 CO]] P. injection E as E0 E1. subst p0.
    assert (L : Left pts (o :: st ++ [o])).
    { apply (left_weaken (o :: ps)).
      - intros x y H q Q0. destruct (CP q Q0) as [[E2 E3]|(r & k & R0 & K0 & K1 & [S1 S2])].
        + assert (E4 : orient x y q == orient x y o) by (unfold orient; rewrite E2, E3; ring). rewrite E4. apply H. left. reflexivity.
        + assert (E4 : orient x y q == k * orient x y r + (1 - k) * orient x y o).
          { assert (Q1 : fst q == fst o + k * (fst r - fst o)) by Lqa.lra. assert (Q2 : snd q == snd o + k * (snd r - snd o)) by Lqa.lra. unfold orient. rewrite Q1, Q2. ring. }
          rewrite E4. pose proof (H r (or_intror R0)) as H1. pose proof (H o (or_introl eq_refl)) as H2. Lqa.nra.
      - split.
        + destruct st as [|x t']; [contradiction|]. cbn [app]. cbn [hd] in B2. intros q [<-|Q0]; [unfold orient; Lqa.lra|].
          assert (G : q = x \/ 0 < cr q x).
          { destruct ps as [|y t'']; [contradiction|]. cbn [hd] in B2. subst y. destruct Q0 as [<-|Q0]; [left; reflexivity|right]. apply StronglySorted_inv in SP. destruct SP as [_ F]. rewrite Forall_forall in F. apply F, Q0. }
          destruct G as [->|G]; unfold cr, orient in *; Lqa.lra.
        + apply left_end; [apply left_origin; assumption|]. rewrite B3. intros q [<-|Q0]; [unfold orient; Lqa.lra|].
          destruct (sorted_last ps SP q Q0) as [H|H]; [rewrite <- H; unfold orient; Lqa.lra|]. unfold cr in H. Lqa.lra. }
    apply (left_consecutive pts (o :: st ++ [o]) (rev l2) (rev l1) a b L); [|exact P].
    apply (f_equal (@rev pt)) in CO. rewrite rev_app_distr in CO. cbn [rev app] in CO. rewrite rev_app_distr in CO. cbn [rev app] in CO. rewrite rev_involutive in CO.
    rewrite CO. rewrite <- !app_assoc. reflexivity.
Qed.
End Around.

(** ** A function with the properties asked of scipy *)
Lemma pivot : forall pts : list pt, pts <> [] -> { o | In o pts /\ forall p, In p pts -> Pos o p \/ Same o p }.
Proof.
  induction pts as [|a t IH]; intro NE; [contradiction|]. destruct t as [|b t].
  - exists a. split; [left; reflexivity|]. intros p [<-|[]]. right. split; reflexivity.
  - destruct (IH ltac:(discriminate)) as (o & IO & AO). set (l := b :: t) in *.
    destruct (Q_dec (fst a) (fst o)) as [[G|G]|G].
    + exists a. split; [left; reflexivity|]. intros p [<-|P]; [right; split; reflexivity|]. left. left. destruct (AO p P) as [[H|[H _]]|[H _]]; Lqa.lra.
    + exists o. split; [right; exact IO|]. intros p [<-|P]; [left; left; exact G|auto].
    + destruct (Qlt_le_dec (snd a) (snd o)) as [K|K].
      * exists a. split; [left; reflexivity|]. intros p [<-|P]; [right; split; reflexivity|]. left. unfold Pos. destruct (AO p P) as [[H|[H H']]|[H H']]; [left; Lqa.lra|right; split; Lqa.lra|right; split; Lqa.lra].
      * exists o. split; [right; exact IO|]. intros p [<-|P]; [|auto]. destruct (Q_dec (snd o) (snd a)) as [[K'|K']|K']; [left; right; split; Lqa.lra|Lqa.lra|right; split; Lqa.lra].
Qed.
Definition straightb (pts : list pt) : bool :=
  forallb (fun a => forallb (fun b => forallb (fun c => Qeq_bool (orient a b c) 0) pts) pts) pts.
Lemma straightb_iff : forall pts, straightb pts = true <-> Straight pts.
Proof.
  intro pts. unfold straightb, Straight. rewrite forallb_forall. split.
  - intros H a b c A B C. specialize (H a A). rewrite forallb_forall in H. specialize (H b B). rewrite forallb_forall in H. apply Qeq_bool_iff, H, C.
  - intros H a A. rewrite forallb_forall. intros b B. rewrite forallb_forall. intros c C. apply Qeq_bool_iff, H; assumption.
Qed.
Lemma pt_eq_dec : forall p q : pt, { p = q } + { p <> q }.
Proof. decide equality; decide equality; apply Pos.eq_dec || apply Z.eq_dec. Qed.
Lemma place : forall (pts : list pt) p, In p pts -> { i | nth i pts (0, 0) = p }.
Proof.
  induction pts as [|a t IH]; intros p P; [destruct P|]. destruct (pt_eq_dec a p) as [E|E]; [exists 0%nat; exact E|].
  destruct (IH p) as [i I]; [destruct P; [contradiction|assumption]|]. exists (S i). exact I.
Qed.
Lemma places : forall (pts h : list pt), (forall p, In p h -> In p pts) -> { v | map (fun i => nth i pts (0, 0)) v = h }.
Proof.
  intros pts. induction h as [|p h IH]; intro H; [exists []; reflexivity|].
  destruct (IH (fun q Q0 => H q (or_intror Q0))) as [v V]. destruct (place pts p (H p (or_introl eq_refl))) as [i I]. exists (i :: v). cbn. rewrite V, I. reflexivity.
Qed.
Lemma hull_exists : forall pts, straightb pts = false -> { v | HullRing pts (map (fun i => nth i pts (0, 0)) v) }.
Proof.
  intros pts H. assert (NS : ~ Straight pts) by (intro X; apply straightb_iff in X; congruence).
  destruct pts as [|a t]; [discriminate H|]. destruct (pivot (a :: t) ltac:(discriminate)) as (o & IO & AO).
  destruct (ring_exists o (a :: t) IO AO NS) as [h HR]. destruct (places (a :: t) h (proj1 (proj2 HR))) as [v V]. exists v. rewrite V. exact HR.
Qed.
Definition some_qhull (pts : list pt) : res (list nat) :=
  match pts with
  | [] => Raise ValueError
  | _ => match bool_dec (straightb pts) false with
         | left E => Ok (proj1_sig (hull_exists pts E))
         | right _ => Raise RuntimeError
         end
  end.
Lemma some_qhull_ok : Qhull some_qhull.
Proof.
  split; [reflexivity|]. split.
  - intros pts NE ST. unfold some_qhull. destruct pts as [|a t]; [contradiction|]. destruct (bool_dec (straightb (a :: t)) false) as [E|E]; [|reflexivity].
    apply straightb_iff in ST. congruence.
  - intros pts NS. unfold some_qhull. destruct pts as [|a t]; [exfalso; apply NS; intros x y z []|].
    destruct (bool_dec (straightb (a :: t)) false) as [E|E]; [|exfalso; apply NS, straightb_iff; destruct (straightb (a :: t)); [reflexivity|contradiction]].
    exists (proj1_sig (hull_exists (a :: t) E)). split; [reflexivity|]. exact (proj2_sig (hull_exists (a :: t) E)).
Qed.
