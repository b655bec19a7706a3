(** Further theorems about the simulators: which random numbers decide what. *)
From Coq Require Import ZArith QArith Qround Qabs Qminmax Qpower List Bool Lia Lqa.
From Verif Require Import Base BaseLemmas Spec Quadrat_model Geometry_model Random_model Random_spec Random_proofs
  Strauss_proofs Cluster_proofs Random_props.
Import ListNotations.
Local Open Scope Q_scope.

(** ** C31: poisson keeps the first acceptable candidates *)
(** Consecutive, disjoint pairs of the stream. *)
Fixpoint pairs (us : list Q) : list (Q * Q) :=
  match us with
  | u :: v :: us' => (u, v) :: pairs us'
  | _ => []
  end.
(** The point of the box at the given fractions of width and height. *)
Definition place (b : box) (uv : Q * Q) : pt :=
  (bxmin b + (bxmax b - bxmin b) * fst uv, bymin b + (bymax b - bymin b) * snd uv).

Lemma reject_exact : forall mk ok us need l rest, reject mk ok us need = Val l rest ->
  forall more, firstn (need + more) (filter ok (map (fun uv => mk (fst uv) (snd uv)) (pairs us))) =
               l ++ firstn more (filter ok (map (fun uv => mk (fst uv) (snd uv)) (pairs rest))).
Proof.
  intros mk ok. fix IH 1. intros [|u [|v us]] need l rest H more.
  - destruct need; simpl in H; [inversion H; subst; reflexivity|discriminate].
  - destruct need; simpl in H; [inversion H; subst; reflexivity|discriminate].
  - destruct need as [|m]; [simpl in H; inversion H; subst; reflexivity|].
    cbn [reject] in H. cbn [pairs map filter fst snd]. destruct (ok (mk u v)).
    + apply rbind_val in H. destruct H as [l' [us1 [H1 H2]]]. inversion H2; subst.
      cbn [plus firstn app]. f_equal. apply IH. exact H1.
    + apply IH. exact H.
Qed.
Lemma replicate_exact : forall mk ok n s us d rest,
  replicate (fun us => reject mk ok us n) s us = Val d rest ->
  forall more, firstn (s * n + more) (filter ok (map (fun uv => mk (fst uv) (snd uv)) (pairs us))) =
    concat d ++ firstn more (filter ok (map (fun uv => mk (fst uv) (snd uv)) (pairs rest))).
Proof.
  induction s; intros us d rest H more.
  - simpl in H. inversion H; subst. reflexivity.
  - cbn [replicate] in H. apply rbind_val in H. destruct H as [l [us1 [H1 H2]]].
    apply rbind_val in H2. destruct H2 as [ls [us2 [H2 H3]]]. inversion H3; subst.
    replace (S s * n + more)%nat with (n + (s * n + more))%nat by lia.
    rewrite (reject_exact mk ok us n l us1 H1). rewrite (IHs _ _ _ H2). cbn [concat]. rewrite app_assoc. reflexivity.
Qed.
Theorem C31_poisson_exact : forall h i sz us a rest, poisson h i sz us = Val a rest ->
  exists n s it, parse_size_and_intensity h i sz = Ok (n, s, it) /\
    arr_points a = firstn (Z.to_nat s * Z.to_nat n) (filter (h_contains h) (map (place (h_bbox h)) (pairs us))).
Proof.
  intros h i sz us a rest H. destruct (poisson_inv _ _ _ _ _ _ H) as [n [s [it [d [P [A [B [R ->]]]]]]]].
  exists n, s, it. split; auto.
  pose proof (replicate_exact _ _ _ _ _ _ _ R 0) as E. rewrite Nat.add_0_r in E. cbn [firstn] in E. rewrite app_nil_r in E.
  apply (replicate_sound (fun l => List.length l = Z.to_nat n)) in R.
  - destruct R as [L F]. destruct (squeeze_points _ _ _ L F) as [-> _]. symmetry. exact E.
  - intros us' l r X. apply reject_sound in X. apply X.
Qed.
Print Assumptions C31_poisson_exact.
Example C31_exact_case : exists a rest, poisson tri None (SInt 2) [3#4; 3#4; 1#4; 1#2; 0; 1#8] = Val a rest /\
  arr_points a = [place (h_bbox tri) (1#4, 1#2); place (h_bbox tri) (0, 1#8)].
Proof. do 2 eexists. split; vm_compute; reflexivity. Qed.

(** ** C33: the covariance argument is validated *)
Theorem C33_covariance_checked : forall h mk c sz us n s it,
  parse_size_and_intensity h None sz = Ok (n, s, it) ->
  (forall a b, c = CArr [a; b] -> (a, b) <> (2%Z, 2%Z) -> normal h mk c sz us = Exc AssertionError) /\
  (forall k a b, c = CArr [k; a; b] -> (k, a, b) <> (s, 2%Z, 2%Z) -> normal h mk c sz us = Exc AssertionError) /\
  (c = COther -> normal h mk c sz us = Exc ValueError) /\
  (0 <= n -> 0 <= s -> c = CNone \/ (exists q, c = CScalar q) \/ c = CArr [2; 2] \/ c = CArr [s; 2; 2] ->
   forall e, normal h mk c sz us <> Exc e)%Z.
Proof.
  intros h mk c sz us n s it P. unfold normal. rewrite P. simpl.
  split; [|split; [|split]].
  - intros a b -> N. simpl. destruct (a =? 2)%Z eqn:A; destruct (b =? 2)%Z eqn:B; qb; try reflexivity. congruence.
  - intros k a b -> N. simpl. destruct (a =? 2)%Z eqn:A; destruct (b =? 2)%Z eqn:B; destruct (k =? s)%Z eqn:K; qb; try reflexivity. congruence.
  - intros ->. reflexivity.
  - intros Hn Hs C e.
    assert (OK : check_cov c s = Ok tt).
    { destruct C as [-> |[[q ->]|[-> | ->]]]; simpl; auto. rewrite Z.eqb_refl. reflexivity. }
    rewrite OK. simpl. unfold alloc. destruct (n <? 0)%Z eqn:E1; qb; [lia|]. destruct (s <? 0)%Z eqn:E2; qb; [lia|]. simpl.
    assert (R : forall i us need e, reject (mk i) (h_contains h) us need <> Exc e).
    { intro i. fix IH 1. intros [|u [|v us']] need e'.
      - destruct need; discriminate.
      - destruct need; discriminate.
      - destruct need as [|m]; [discriminate|]. cbn [reject]. destruct (h_contains h (mk i u v)); [|apply IH].
        destruct (reject (mk i) (h_contains h) us' m) eqn:E; simpl; try discriminate. intro X. inversion X; subst. eapply IH; eauto. }
    assert (RI : forall s' i us e, replicate_i (fun i us => reject (mk i) (h_contains h) us (Z.to_nat n)) i s' us <> Exc e).
    { induction s' as [|s' IH]; intros i us' e'; [discriminate|]. cbn [replicate_i].
      destruct (reject (mk i) (h_contains h) us' (Z.to_nat n)) eqn:E; simpl; try discriminate.
      - destruct (replicate_i _ (S i) s' rest) eqn:E'; simpl; try discriminate. intro X. inversion X; subst. eapply IH; eauto.
      - intro X. inversion X; subst. eapply R; eauto. }
    destruct (replicate_i _ 0 (Z.to_nat s) us) eqn:E; simpl; try discriminate. intro X. inversion X; subst. eapply RI; eauto.
Qed.
Print Assumptions C33_covariance_checked.
Example C33_cov_case : normal unit_square (fun _ u v => (u, v)) (CArr [2; 3]%Z) (SInt 2) [] = Exc AssertionError /\
  normal unit_square (fun _ u v => (u, v)) (CArr [3; 2; 2]%Z) (STuple [1; 2]%Z) [] = Exc AssertionError.
Proof. split; reflexivity. Qed.

(** ** C36: the default covariance of cluster_normal is computed once *)
Theorem C36_default_covariance : forall h mk meansq sz k streams a covs rest, (2 <= k)%Z ->
  cluster_normal h mk meansq CNone sz k streams = Val (a, covs) rest ->
  forall c1 c2, In c1 covs -> In c2 covs -> c1 = c2.
Proof. exact cluster_normal_default_cov. Qed.
Print Assumptions C36_default_covariance.
(** Two replications with different seeds: the second one uses the covariance
    of the first ([meansq] returns the x coordinate of the first seed here). *)
Example C36_default_cov_case : exists a covs rest,
  cluster_normal unit_square (fun _ c u v => (fst c + u, snd c + v)) (fun l => fst (hd (0, 0) l)) CNone (STuple [2; 2]%Z) 2
    [([1#4; 1#4; 1#2; 1#4], [[1#8; 1#9]; [1#7; 1#3]]); ([1#3; 1#4; 1#2; 1#4], [[1#8; 1#9]; [1#7; 1#3]])]
    = Val (a, covs) rest /\ covs = [CScalar (1#4); CScalar (1#4)].
Proof. do 3 eexists. split; vm_compute; reflexivity. Qed.

(** ** C87: acceptance of birth and death moves in the Strauss chain *)
(** [t] points of [l] lie within distance [r] of [p]. *)
Definition Neighbours (r : Q) (p : pt) (l : list pt) (t : nat) : Prop :=
  Counts (fun q => 0 <= r /\
    (fst q - fst p) * (fst q - fst p) + (snd q - snd p) * (snd q - snd p) <= r * r) l t.

Lemma d2_sym : forall p q, d2 p q == d2 q p.
Proof. intros [a b] [c d]. unfold d2. simpl. ring. Qed.
Lemma close_sym : forall r p q, close r p q = close r q p.
Proof.
  intros. unfold close. f_equal. rewrite d2_sym. reflexivity.
Qed.
Lemma count_app : forall A (f : A -> bool) l1 l2, count f (l1 ++ l2) = (count f l1 + count f l2)%nat.
Proof. intros. unfold count. rewrite filter_app, app_length. reflexivity. Qed.
Lemma count_ext : forall A (f g : A -> bool) l, (forall x, f x = g x) -> count f l = count g l.
Proof. intros A f g l H. unfold count. f_equal. apply filter_ext. exact H. Qed.
Lemma pair_count_mid : forall r l1 p l2,
  pair_count r (l1 ++ p :: l2) = (pair_count r (l1 ++ l2) + Z.of_nat (count (close r p) (l1 ++ l2)))%Z.
Proof.
  induction l1 as [|a l1 IH]; intros p l2.
  - simpl. lia.
  - cbn [app pair_count]. rewrite IH. rewrite !count_app.
    change (p :: l2) with ([p] ++ l2). change (a :: l1 ++ l2) with ([a] ++ (l1 ++ l2)). rewrite !count_app.
    assert (E : count (close r a) [p] = count (close r p) [a]).
    { unfold count. simpl. rewrite (close_sym r a p). destruct (close r p a); reflexivity. }
    rewrite E. lia.
Qed.
Lemma neighbours_count : forall r p l t, Neighbours r p l t -> t = count (close r p) l.
Proof.
  intros r p l t H.
  assert (X : Counts (fun q => 0 <= r /\
    (fst q - fst p) * (fst q - fst p) + (snd q - snd p) * (snd q - snd p) <= r * r) l (count (close r p) l)).
  { unfold count. apply Counts_filter. intros q Hq. rewrite close_sym. unfold close, d2.
    rewrite andb_true_iff, !Qle_bool_iff. tauto. }
  eapply Counts_unique; eauto.
Qed.
Lemma delete_nth_split : forall A (l : list A) i p, nth_error l i = Some p ->
  exists l1 l2, l = l1 ++ p :: l2 /\ delete_nth i l = l1 ++ l2.
Proof.
  induction l as [|a l IH]; intros [|i] p H; simpl in H; try discriminate.
  - inversion H; subst. exists [], l. auto.
  - destruct (IH _ _ H) as [l1 [l2 [E1 E2]]]. exists (a :: l1), l2. simpl. rewrite E1, E2 at 1. split; auto.
Qed.

Lemma accept_iff : forall u x d, 0 < d -> (Qltb u (Qmin1 (x / d)) = true <-> u < 1 /\ u * d < x).
Proof.
  intros u x d D. unfold Qmin1. rewrite Qltb_lt.
  assert (E : (x / d) * d == x) by (field; lra).
  pose proof (Q.min_glb_lt_iff 1 (x / d) u) as M. rewrite M. split; intros [A B]; split; auto.
  - rewrite <- E. apply Qmult_lt_compat_r; auto.
  - apply Qlt_shift_div_l; auto.
Qed.
Lemma inject_pos : forall n, (0 < n)%Z -> 0 < inject_Z n.
Proof. intros n H. unfold Qlt. simpl. lia. Qed.

Theorem C87_birth : forall h n gamma r pts us pts' rest p us1 t,
  poisson h (Some 1) SNone us = Val (Arr1 p) us1 -> Neighbours r p pts t ->
  birth h n gamma r pts us = Val pts' rest ->
  exists u, us1 = u :: rest /\
    (u < 1 /\ u * (Qlen pts + 1) < inject_Z n * Qpower gamma (Z.of_nat t) -> pts' = pts ++ [p]) /\
    (~ (u < 1 /\ u * (Qlen pts + 1) < inject_Z n * Qpower gamma (Z.of_nat t)) -> pts' = pts).
Proof.
  intros h n gamma r pts us pts' rest p us1 t P N H. unfold birth in H. rewrite P in H. cbn [rbind vstack_rows] in H.
  destruct us1 as [|u us1]; [discriminate|]. cbn [draw1 rbind] in H. injection H as E1 E2.
  exists u. split; [subst; reflexivity|].
  apply neighbours_count in N.
  pose proof (pair_count_mid r pts p []) as C. rewrite app_nil_r in C.
  assert (K : (pair_count r (pts ++ [p]) - pair_count r pts = Z.of_nat t)%Z) by (rewrite C, N; lia).
  rewrite K in E1. rewrite <- E1.
  assert (L : 0 < Qlen pts + 1) by (pose proof (Qlen_nonneg _ pts); lra).
  pose proof (accept_iff u (inject_Z n * Qpower gamma (Z.of_nat t)) _ L) as A.
  clear E1. destruct (Qltb u _); split; intros X; auto.
  - exfalso. apply X. apply A. reflexivity.
  - apply A in X. discriminate.
Qed.
Print Assumptions C87_birth.

Theorem C87_death : forall n gamma r pts us l1 p l2 w u rest t, 0 <= gamma ->
  (0 < n < Z.of_nat (List.length pts))%Z ->
  us = w :: u :: rest -> Z.of_nat (List.length l1) = Qfloor (w * Qlen pts) -> pts = l1 ++ p :: l2 ->
  Neighbours r p (l1 ++ l2) t ->
  (inject_Z n * Qpower gamma (Z.of_nat t) == 0 -> death n gamma r pts us = Exc RuntimeError) /\
  (0 < inject_Z n * Qpower gamma (Z.of_nat t) ->
     (u < 1 /\ u * (inject_Z n * Qpower gamma (Z.of_nat t)) < Qlen pts -> death n gamma r pts us = Val (l1 ++ l2) rest) /\
     (~ (u < 1 /\ u * (inject_Z n * Qpower gamma (Z.of_nat t)) < Qlen pts) -> death n gamma r pts us = Val pts rest)).
Proof.
  intros n gamma r pts us l1 p l2 w u rest t G N -> I E Nb.
  apply neighbours_count in Nb.
  assert (D : delete_nth (Z.to_nat (Qfloor (w * Qlen pts))) pts = l1 ++ l2).
  { rewrite <- I, Nat2Z.id. rewrite E. clear. induction l1; simpl; auto. rewrite IHl1. reflexivity. }
  assert (K : (pair_count r pts - pair_count r (l1 ++ l2) = Z.of_nat t)%Z).
  { rewrite E, pair_count_mid, Nb. lia. }
  unfold death. destruct (n <? Z.of_nat (List.length pts))%Z eqn:B; qb; [|lia].
  cbn [draw1 rbind]. rewrite D, K. cbv zeta. split.
  - intro Z0. rewrite (proj2 (Qeq_bool_iff _ _) Z0). reflexivity.
  - intro P. destruct (Qeq_bool _ 0) eqn:Z0; [apply Qeq_bool_iff in Z0; lra|].
    pose proof (accept_iff u (Qlen pts) _ P) as A.
    destruct (Qltb u _); split; intros X; auto.
    + exfalso. apply X. apply A. reflexivity.
    + apply A in X. discriminate.
Qed.
Print Assumptions C87_death.

(** The birth of [p] and the death that undoes it are accepted with
    probabilities min(1,a) and min(1,1/a). *)
Theorem C87_reversible : forall h n gamma r l1 p l2 t, 0 < gamma -> (0 < n)%Z ->
  Neighbours r p (l1 ++ l2) t ->
  exists a, 0 < a /\
    (forall us us1 u pts' rest, poisson h (Some 1) SNone us = Val (Arr1 p) us1 -> us1 = u :: rest ->
       birth h n gamma r (l1 ++ l2) us = Val pts' rest -> (pts' = (l1 ++ l2) ++ [p] <-> u < 1 /\ u < a)) /\
    (forall w u rest, (n <= Z.of_nat (List.length (l1 ++ l2)))%Z ->
       Z.of_nat (List.length l1) = Qfloor (w * (Qlen (l1 ++ l2) + 1)) ->
       (death n gamma r (l1 ++ p :: l2) (w :: u :: rest) = Val (l1 ++ l2) rest <-> u < 1 /\ u < / a)).
Proof.
  intros h n gamma r l1 p l2 t G N Nb.
  assert (Pw : 0 < Qpower gamma (Z.of_nat t)) by (apply Qpower_0_lt; exact G).
  assert (P : 0 < inject_Z n * Qpower gamma (Z.of_nat t)).
  { apply Qmult_lt_0_compat; [apply inject_pos; exact N|exact Pw]. }
  set (c := inject_Z n * Qpower gamma (Z.of_nat t)) in *.
  assert (L : 0 < Qlen (l1 ++ l2) + 1) by (pose proof (Qlen_nonneg _ (l1 ++ l2)); lra).
  assert (Len : Qlen (l1 ++ p :: l2) == Qlen (l1 ++ l2) + 1).
  { unfold Qlen. rewrite !app_length. simpl. rewrite <- plus_n_Sm. rewrite Nat2Z.inj_succ. unfold Z.succ. rewrite inject_Z_plus. reflexivity. }
  exists (c / (Qlen (l1 ++ l2) + 1)). split; [|split].
  - apply Qlt_shift_div_l; lra.
  - intros us us1 u pts' rest P1 -> B.
    destruct (C87_birth _ _ _ _ _ _ _ _ _ _ _ P1 Nb B) as [u' [E [X Y]]]. inversion E; subst u'.
    fold c in X, Y.
    assert (Eq : u < c / (Qlen (l1 ++ l2) + 1) <-> u * (Qlen (l1 ++ l2) + 1) < c).
    { split; intro H.
      - assert (Ed : c / (Qlen (l1 ++ l2) + 1) * (Qlen (l1 ++ l2) + 1) == c) by (field; lra).
        rewrite <- Ed. apply Qmult_lt_compat_r; auto.
      - apply Qlt_shift_div_l; auto. }
    rewrite Eq. split; [|exact X]. intro F. destruct (Qlt_le_dec u 1) as [A|A].
    + destruct (Qlt_le_dec (u * (Qlen (l1 ++ l2) + 1)) c) as [A'|A']; [auto|].
      rewrite Y in F; [|intros [_ Z0]; lra]. exfalso. apply (f_equal (@List.length pt)) in F. rewrite !app_length in F. simpl in F. lia.
    + rewrite Y in F; [|intros [Z0 _]; lra]. exfalso. apply (f_equal (@List.length pt)) in F. rewrite !app_length in F. simpl in F. lia.
  - intros w u rest Hn I.
    destruct (C87_death n gamma r (l1 ++ p :: l2) (w :: u :: rest) l1 p l2 w u rest t) as [_ H]; auto; try lra.
    { rewrite app_length in *. simpl. lia. }
    { rewrite I. apply Qfloor_comp. rewrite Len. reflexivity. }
    destruct (H P) as [X Y]. fold c in X, Y.
    assert (Eq : u < / (c / (Qlen (l1 ++ l2) + 1)) <-> u * c < Qlen (l1 ++ p :: l2)).
    { rewrite Len. assert (E : / (c / (Qlen (l1 ++ l2) + 1)) == (Qlen (l1 ++ l2) + 1) / c) by (field; lra).
      rewrite E. split; intro H0.
      - assert (Ed : (Qlen (l1 ++ l2) + 1) / c * c == Qlen (l1 ++ l2) + 1) by (field; lra).
        rewrite <- Ed. apply Qmult_lt_compat_r; auto.
      - apply Qlt_shift_div_l; auto. }
    rewrite Eq. split; [|exact X]. intro F. destruct (Qlt_le_dec u 1) as [A|A].
    + destruct (Qlt_le_dec (u * c) (Qlen (l1 ++ p :: l2))) as [A'|A']; [auto|].
      rewrite Y in F; [|intros [_ Z0]; lra]. exfalso. inversion F as [F1]. apply (f_equal (@List.length pt)) in F1. rewrite !app_length in F1. simpl in F1. lia.
    + rewrite Y in F; [|intros [Z0 _]; lra]. exfalso. inversion F as [F1]. apply (f_equal (@List.length pt)) in F1. rewrite !app_length in F1. simpl in F1. lia.
Qed.
Print Assumptions C87_reversible.

(** A birth proposes trunc(area) points, not one. *)
Theorem C87_birth_size : forall h n gamma r pts us pts' rest,
  birth h n gamma r pts us = Val pts' rest ->
  pts' = pts \/ exists l, pts' = pts ++ l /\ Z.of_nat (List.length l) = Qtrunc (h_area h).
Proof.
  intros h n gamma r pts us pts' rest H. unfold birth in H.
  apply rbind_val in H. destruct H as [newp [us1 [H1 H2]]].
  apply rbind_val in H2. destruct H2 as [u [us2 [H2 H3]]]. inversion H3; subst. clear H3.
  destruct (Qltb _ _); [|auto]. right.
  apply poisson_intensity in H1. cbv zeta in H1.
  assert (E : Qtrunc (h_area h * 1) = Qtrunc (h_area h)).
  { unfold Qtrunc. rewrite (Qfloor_comp (h_area h * 1) (h_area h)), (Qceiling_comp (h_area h * 1) (h_area h)) by ring.
    replace (Qle_bool 0 (h_area h * 1)) with (Qle_bool 0 (h_area h)); [reflexivity|].
    apply eq_true_iff_eq. rewrite !Qle_bool_iff. split; intro; lra. }
  rewrite E in H1. destruct H1 as [M [[Z1 [p [-> _]]]|[_ [l [-> [L _]]]]]].
  - exists [p]. simpl. auto.
  - exists l. split; auto. rewrite L. lia.
Qed.
Print Assumptions C87_birth_size.
Theorem C87_single_birth_refuted :
  exists pts' rest, birth wide 5 1 (1#10) [(1, 1)] (repeat (1#2) 16 ++ [0]) = Val pts' rest /\ List.length pts' = 9%nat.
Proof. do 2 eexists. split; vm_compute; reflexivity. Qed.
Print Assumptions C87_single_birth_refuted.

(** gamma = 1/2, three points, the new one has two neighbours: the birth ratio is
    4*(1/4)/4 = 1/4 and the ratio of the reverse death 4/(4*(1/4)) = 4. *)
Definition three : list pt := [(1#2, 1#2); (1#2, 9#16); (1#8, 1#8)].
Example C87_case :
  Neighbours (1#4) (1#2, 7#16) three 2 /\
  poisson unit_square (Some 1) SNone [1#2; 7#16; 3#16] = Val (Arr1 (1#2, 7#16)) [3#16] /\
  (exists r1 r2, birth unit_square 4 (1#2) (1#4) three [1#2; 7#16; 3#16] = Val r1 [] /\ List.length r1 = 4%nat /\
                 birth unit_square 4 (1#2) (1#4) three [1#2; 7#16; 5#16] = Val r2 [] /\ r2 = three) /\
  death 3 (1#2) (1#4) (three ++ [(1#2, 7#16)]) [7#8; 15#16] = Val three [].
Proof.
  split; [|split; [vm_compute; reflexivity|split; [|vm_compute; reflexivity]]].
  - unfold three. apply Counts_yes; [split; vm_compute; congruence|].
    apply Counts_yes; [split; vm_compute; congruence|]. apply Counts_no; [|apply Counts_nil].
    intros [_ X]. vm_compute in X. congruence.
  - do 2 eexists. split; [vm_compute; reflexivity|]. split; [reflexivity|]. split; vm_compute; reflexivity.
Qed.
