(** Theorems on centres in other coordinates: mean centre, weighted mean centre, Manhattan
    median. *)
From Coq Require Import ZArith QArith List Bool Arith Lia Lqa Permutation.
From Verif Require Import Base BaseLemmas Spec Center_model Center_spec Center_proofs Center_props CenterSymQ_spec.
Import ListNotations.
Local Open Scope Q_scope.

(** ** C122 *)
Lemma lin_sum : forall A (f g : A -> Q) a b c l, Qsum (map (fun x => a * f x + b * g x + c) l) == a * Qsum (map f l) + b * Qsum (map g l) + c * Qlen l.
Proof.
  intros A f g a b c l. rewrite (Qsum_map_plus A (fun x => a * f x + b * g x) (fun _ => c)).
  rewrite (Qsum_map_plus A (fun x => a * f x) (fun x => b * g x)), !Qsum_map_scale, Qsum_map_const. reflexivity.
Qed.

Lemma lin_div : forall a b c u v q, ~ q == 0 -> (a * u + b * v + c * q) / q == a * (u / q) + b * (v / q) + c.
Proof. intros a b c u v q H. field. exact H. Qed.

Lemma wlin_div : forall k a b c u v q, ~ k == 0 -> ~ q == 0 -> k * (a * u + b * v + c * q) / (k * q) == a * (u / q) + b * (v / q) + c.
Proof. intros k a b c u v q K H. field. split; assumption. Qed.

(** The mean centre follows every linear change of coordinates, and the order of the points
    does not matter. *)
Theorem C122_mean_center : forall m pts pts', pts <> [] -> Permutation (map (linear m) pts) pts' ->
  exists c c', mean_center pts = (Fin (fst c), Fin (snd c)) /\ mean_center pts' = (Fin (fst c'), Fin (snd c')) /\ pt_same c' (linear m c).
Proof.
  intros m pts pts' N P. pose proof (Qlen_pos _ pts N) as L.
  assert (N' : pts' <> []) by (intro X; subst; apply Permutation_sym, Permutation_nil in P; destruct pts; [congruence|discriminate]).
  rewrite !mean_center_value by assumption.
  exists (Qsum (map fst pts) / Qlen pts, Qsum (map snd pts) / Qlen pts), (Qsum (map fst pts') / Qlen pts', Qsum (map snd pts') / Qlen pts').
  split; [reflexivity|]. split; [reflexivity|].
  assert (LE : Qlen pts' = Qlen pts) by (unfold Qlen; rewrite <- (Permutation_length P), map_length; reflexivity).
  unfold pt_same. rewrite LE. cbn [fst snd]. rewrite <- (Qsum_perm _ _ (Permutation_map fst P)), <- (Qsum_perm _ _ (Permutation_map snd P)), !map_map.
  unfold linear. cbn [fst snd]. rewrite (lin_sum _ fst snd (m11 m) (m12 m) (dx m) pts), (lin_sum _ fst snd (m21 m) (m22 m) (dy m) pts). split; apply lin_div; lra.
Qed.
Print Assumptions C122_mean_center.

(** The weighted mean centre too, with weights in any unit. *)
Theorem C122_weighted : forall m k pts weights pts' weights', List.length weights = List.length pts -> List.length weights' = List.length pts' ->
  ~ k == 0 -> ~ Qsum weights == 0 ->
  Permutation (map (fun wp => (k * fst wp, linear m (snd wp))) (combine weights pts)) (combine weights' pts') ->
  exists c c', weighted_mean_center pts weights = Ok (Some c) /\ weighted_mean_center pts' weights' = Ok (Some c') /\ pt_same c' (linear m c).
Proof.
  intros m k pts weights pts' weights' L L' K S P.
  assert (F : forall (w : list Q) (l : list pt), List.length w = List.length l -> Qsum w == Qsum (map fst (combine w l))).
  { induction w as [|a w IH]; intros [|p l] E; try discriminate E; [reflexivity|]. change (a + Qsum w == a + Qsum (map fst (combine w l))).
    rewrite <- (IH l) by (cbn in E; lia). reflexivity. }
  assert (S' : Qsum weights' == k * Qsum weights).
  { rewrite (F _ _ L'), <- (Qsum_perm _ _ (Permutation_map fst P)), map_map. cbn [fst]. rewrite Qsum_map_scale, <- (F _ _ L). reflexivity. }
  assert (NZ : ~ Qsum weights' == 0) by (rewrite S'; intro X; apply Qmult_integral in X; tauto).
  unfold weighted_mean_center. rewrite L, L', !Nat.eqb_refl.
  destruct (Qeq_bool (Qsum weights) 0) eqn:E1; [apply Qeq_bool_iff in E1; contradiction|].
  destruct (Qeq_bool (Qsum weights') 0) eqn:E2; [apply Qeq_bool_iff in E2; contradiction|].
  do 2 eexists. split; [reflexivity|]. split; [reflexivity|]. unfold pt_same, linear. cbn [fst snd].
  rewrite !(weighted_sum fst), !(weighted_sum snd) by assumption.
  assert (X : forall g (a b c : Q), (forall p, g (linear m p) == a * fst p + b * snd p + c) ->
    Qsum (map (fun wp => fst wp * g (snd wp)) (combine weights' pts')) ==
    k * (a * Qsum (map (fun wp => fst wp * fst (snd wp)) (combine weights pts)) + b * Qsum (map (fun wp => fst wp * snd (snd wp)) (combine weights pts)) + c * Qsum weights)).
  { intros g a b c G. rewrite <- (Qsum_perm _ _ (Permutation_map (fun wp => fst wp * g (snd wp)) P)), map_map. cbn [fst snd].
    rewrite (F _ _ L). clear - G. induction (combine weights pts) as [|[w p] l IH]; cbn [map Qsum fold_right fst snd] in *; [ring|].
    unfold Qsum in *. cbn [fold_right]. rewrite IH, G. ring. }
  rewrite (X fst (m11 m) (m12 m) (dx m)), (X snd (m21 m) (m22 m) (dy m)), S' by (intro p; reflexivity). split; apply wlin_div; assumption.
Qed.
Print Assumptions C122_weighted.

Lemma count_compl : forall A (f g : A -> bool) l, (forall x, In x l -> g x = negb (f x)) -> (count f l + count g l = List.length l)%nat.
Proof.
  intros A f g l. unfold count. induction l as [|a l IH]; intros H; [reflexivity|]. cbn [filter List.length].
  rewrite (H a) by (left; reflexivity). specialize (IH ltac:(intros; apply H; right; assumption)). destruct (f a); cbn [negb List.length]; lia.
Qed.
Lemma rank_affine : forall c a l k v, 0 < c -> rankb l k v -> rankb (map (fun x => c * x + a) l) k (c * v + a).
Proof.
  intros c a l k v C H. unfold rankb in *. rewrite !count_map.
  rewrite (count_ext _ _ (fun x => Qltb x v)), (count_ext _ (fun x => Qle_bool (c * x + a) (c * v + a)) (fun x => Qle_bool x v)); [exact H| |].
  - intros x _. apply eq_true_iff_eq. rewrite !Qle_bool_iff. split; intro; nra.
  - intros x _. apply eq_true_iff_eq. rewrite !Qltb_iff. split; intro; nra.
Qed.
Lemma rank_reverse : forall c a l k v, c < 0 -> rankb l k v -> rankb (map (fun x => c * x + a) l) (List.length l - 1 - k) (c * v + a).
Proof.
  intros c a l k v C H. unfold rankb in *. rewrite !count_map.
  pose proof (count_compl _ (fun x => Qle_bool x v) (fun x => Qltb (c * x + a) (c * v + a)) l) as A.
  pose proof (count_compl _ (fun x => Qltb x v) (fun x => Qle_bool (c * x + a) (c * v + a)) l) as B.
  assert (A' : (count (fun x => Qle_bool x v) l + count (fun x => Qltb (c * x + a) (c * v + a)) l = List.length l)%nat).
  { apply A. intros x _. apply eq_true_iff_eq. rewrite Qltb_iff, negb_true_iff. split; intro X.
    - destruct (Qle_bool x v) eqn:E; [|reflexivity]. apply Qle_bool_iff in E. exfalso. nra.
    - assert (v < x). { destruct (Qlt_le_dec v x); [assumption|]. apply Qle_bool_iff in q. congruence. } nra. }
  assert (B' : (count (fun x => Qltb x v) l + count (fun x => Qle_bool (c * x + a) (c * v + a)) l = List.length l)%nat).
  { apply B. intros x _. apply eq_true_iff_eq. rewrite Qle_bool_iff, negb_true_iff. split; intro X.
    - destruct (Qltb x v) eqn:E; [|reflexivity]. apply Qltb_iff in E. exfalso. nra.
    - assert (v <= x). { destruct (Qlt_le_dec x v); [|assumption]. apply Qltb_iff in q. congruence. } nra. }
  lia.
Qed.
Lemma half_odd : forall n, Nat.Odd n -> (n - 1 - n / 2 = n / 2)%nat.
Proof. intros n [k ->]. replace (2 * k + 1)%nat with (1 + k * 2)%nat by lia. rewrite Nat.div_add by lia. change (1 / 2)%nat with 0%nat. lia. Qed.
Lemma half_even : forall n, Nat.Even n -> n <> 0%nat -> (n - 1 - n / 2 = n / 2 - 1)%nat /\ (n - 1 - (n / 2 - 1) = n / 2)%nat.
Proof. intros n [k ->] Z. rewrite (Nat.mul_comm 2 k), Nat.div_mul by lia. lia. Qed.
Lemma median_affine : forall c a l m, ~ c == 0 -> l <> [] -> is_median l m -> is_median (map (fun x => c * x + a) l) (c * m + a).
Proof.
  intros c a l m C N H. unfold is_median in *. rewrite map_length. destruct (Qlt_le_dec 0 c) as [P|P].
  - destruct H as [[O H]|[E (x & y & X & Y & M)]]; [left|right]; (split; [assumption|]).
    + apply ranked_iff. apply rank_affine; [exact P|]. apply ranked_iff. exact H.
    + exists (c * x + a), (c * y + a). split; [|split].
      * apply ranked_iff. apply rank_affine; [exact P|]. apply ranked_iff. exact X.
      * apply ranked_iff. apply rank_affine; [exact P|]. apply ranked_iff. exact Y.
      * rewrite M. field.
  - assert (Q0 : c < 0) by lra. assert (NL : List.length l <> 0%nat) by (destruct l; [congruence|discriminate]).
    destruct H as [[O H]|[E (x & y & X & Y & M)]]; [left|right]; (split; [assumption|]).
    + apply ranked_iff. rewrite <- (half_odd _ O). apply rank_reverse; [exact Q0|]. apply ranked_iff. exact H.
    + destruct (half_even _ E NL) as [H1 H2]. exists (c * y + a), (c * x + a). split; [|split].
      * apply ranked_iff. rewrite <- H1. apply rank_reverse; [exact Q0|]. apply ranked_iff. exact Y.
      * apply ranked_iff. rewrite <- H2. apply rank_reverse; [exact Q0|]. apply ranked_iff. exact X.
      * rewrite M. field.
Qed.

(** The Manhattan median follows changes of unit, origin and direction of each axis, and
    the exchange of the axes. *)
Theorem C122_manhattan : forall cx cy a b pts pts' m m', pts <> [] -> ~ cx == 0 -> ~ cy == 0 ->
  snd (manhattan_median pts) = (Fin (fst m), Fin (snd m)) -> snd (manhattan_median pts') = (Fin (fst m'), Fin (snd m')) ->
  (Permutation (map (linear (mklin cx 0 0 cy a b)) pts) pts' -> pt_same m' (linear (mklin cx 0 0 cy a b) m)) /\
  (Permutation (map (linear (mklin 0 cx cy 0 a b)) pts) pts' -> pt_same m' (linear (mklin 0 cx cy 0 a b) m)).
Proof.
  intros cx cy a b pts pts' m m' N CX CY H H'.
  assert (MED : forall l k, l <> [] -> np_median l = Fin k -> is_median l k).
  { intros l k NL E. destruct (np_median_is_median l NL) as [k' [E' M]]. congruence. }
  assert (ONE : forall (f g : pt -> Q) (h : pt -> pt) c d u v, ~ c == 0 -> (forall p, g (h p) == c * f p + d) -> Permutation (map h pts) pts' ->
    np_median (map f pts) = Fin u -> np_median (map g pts') = Fin v -> v == c * u + d).
  { intros f g h c d u v C G P U V.
    assert (N' : pts' <> []) by (intro X; subst; apply Permutation_sym, Permutation_nil in P; destruct pts; [congruence|discriminate]).
    assert (M1 : is_median (map (fun x => c * x + d) (map f pts)) (c * u + d)).
    { apply median_affine; [exact C|destruct pts; [congruence|discriminate]|]. apply MED; [destruct pts; [congruence|discriminate]|exact U]. }
    assert (M2 : is_median (map g pts') v) by (apply MED; [destruct pts'; [congruence|discriminate]|exact V]).
    assert (M3 : is_median (map g (map h pts)) (c * u + d)).
    { assert (EX : forall l l', Forall2 Qeq l l' -> forall k, is_median l k -> is_median l' k).
      { intros l l' F k M. assert (LL : List.length l' = List.length l) by (clear - F; induction F; cbn; auto).
        assert (RR : forall j x, ranked l j x -> ranked l' j x).
        { intros j x. rewrite !ranked_iff. unfold rankb.
          assert (C1 : count (fun y => Qltb y x) l' = count (fun y => Qltb y x) l).
          { clear - F. unfold count. induction F as [|y z l l' YZ F IH]; [reflexivity|]. cbn [filter]. 
            assert (E : Qltb z x = Qltb y x) by (apply eq_true_iff_eq; rewrite !Qltb_iff, YZ; reflexivity). rewrite E. destruct (Qltb y x); cbn; rewrite IH; reflexivity. }
          assert (C2 : count (fun y => Qle_bool y x) l' = count (fun y => Qle_bool y x) l).
          { clear - F. unfold count. induction F as [|y z l l' YZ F IH]; [reflexivity|]. cbn [filter]. 
            assert (E : Qle_bool z x = Qle_bool y x) by (apply eq_true_iff_eq; rewrite !Qle_bool_iff, YZ; reflexivity). rewrite E. destruct (Qle_bool y x); cbn; rewrite IH; reflexivity. }
          rewrite C1, C2. auto. }
        unfold is_median in *. rewrite LL. destruct M as [[O M]|[O (x & y & X & Y & Z)]]; [left; auto|right]. split; [exact O|]. exists x, y. auto. }
      apply (EX (map (fun x => c * x + d) (map f pts))); [|exact M1]. rewrite !map_map. clear - G. induction pts as [|p l IH]; cbn [map]; constructor; auto.
      symmetry. apply G. }
    symmetry. apply (is_median_unique (map g (map h pts)) (map g pts')); [apply Permutation_map; exact P|exact M3|exact M2]. }
  unfold manhattan_median in H, H'. cbn [snd] in H, H'. injection H as H1 H2. injection H' as H1' H2'. unfold pt_same, linear. cbn [fst snd m11 m12 m21 m22 dx dy].
  split; intro P.
  - split.
    + rewrite (ONE fst fst (linear (mklin cx 0 0 cy a b)) cx a (fst m) (fst m')); auto; [ring|]. intro p. unfold linear. cbn [fst snd m11 m12 m21 m22 dx dy]. ring.
    + rewrite (ONE snd snd (linear (mklin cx 0 0 cy a b)) cy b (snd m) (snd m')); auto; [ring|]. intro p. unfold linear. cbn [fst snd m11 m12 m21 m22 dx dy]. ring.
  - split.
    + rewrite (ONE snd fst (linear (mklin 0 cx cy 0 a b)) cx a (snd m) (fst m')); auto; [ring|]. intro p. unfold linear. cbn [fst snd m11 m12 m21 m22 dx dy]. ring.
    + rewrite (ONE fst snd (linear (mklin 0 cx cy 0 a b)) cy b (fst m) (snd m')); auto; [ring|]. intro p. unfold linear. cbn [fst snd m11 m12 m21 m22 dx dy]. ring.
Qed.
Print Assumptions C122_manhattan.

(** It does not follow rotations: the turn with cosine 3/5 and sine 4/5. *)
Theorem C122_manhattan_rotation_refuted : exists pts m m', let turn := mklin (3 # 5) (- (4 # 5)) (4 # 5) (3 # 5) 0 0 in
  snd (manhattan_median pts) = (Fin (fst m), Fin (snd m)) /\ snd (manhattan_median (map (linear turn) pts)) = (Fin (fst m'), Fin (snd m')) /\
  ~ pt_same m' (linear turn m).
Proof.
  exists [(0, 0); (5, 0); (0, 5)], (0, 0), (0 # 25, 75 # 25). cbv zeta. split; [vm_compute; reflexivity|]. split; [vm_compute; reflexivity|].
  intros [X Y]. vm_compute in Y. discriminate Y.
Qed.
Print Assumptions C122_manhattan_rotation_refuted.

(** Reversing both axes, and turning by the angle with cosine 3/5. *)
Example C122_caseQ :
  (exists m m', snd (manhattan_median [(0, 0); (1, 5); (4, 2); (6, 6)]) = (Fin (fst m), Fin (snd m)) /\
     snd (manhattan_median (map (linear (mklin (-2) 0 0 (-1) 3 0)) [(0, 0); (1, 5); (4, 2); (6, 6)])) = (Fin (fst m'), Fin (snd m')) /\
     fst m == 5 # 2 /\ snd m == 7 # 2 /\ fst m' == -2 /\ snd m' == - (7 # 2)) /\
  (exists c, mean_center (map (linear (mklin (3 # 5) (- (4 # 5)) (4 # 5) (3 # 5) 0 0)) [(0, 0); (5, 0); (10, 15)]) = (Fin (fst c), Fin (snd c)) /\
     fst c == -1 /\ snd c == 7).
Proof.
  split.
  - exists (5 # 2, 7 # 2), (-4 # 2, -7 # 2). split; [vm_compute; reflexivity|]. split; [vm_compute; reflexivity|]. repeat split; vm_compute; reflexivity.
  - exists (-46875 # 46875, 328125 # 46875). split; [vm_compute; reflexivity|]. split; vm_compute; reflexivity.
Qed.
