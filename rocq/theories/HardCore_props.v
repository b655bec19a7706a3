(** ** C140: strauss with gamma = 0 *)
From Coq Require Import ZArith QArith Qround Qpower Qminmax List Bool Arith Lia Lqa.
From Verif Require Import Base BaseLemmas Spec Quadrat_model Geometry_model Random_model Random_spec Random_proofs Random_props Strauss_proofs StraussExact_props RandomLaw_props.
Import ListNotations.
Local Open Scope Q_scope.

(** [k] pairs of points of [l] lie within distance [r]. *)
Inductive ClosePairs (r : Q) : list pt -> nat -> Prop :=
| pairs_nil : ClosePairs r [] 0
| pairs_cons : forall p l t k, Neighbours r p l t -> ClosePairs r l k -> ClosePairs r (p :: l) (t + k).
(** [us'] is what is left of the stream [us]. *)
Definition Left (us' us : list Q) : Prop := exists pre, us = pre ++ us'.

Lemma pairs_count : forall r l k, ClosePairs r l k -> pair_count r l = Z.of_nat k.
Proof. induction 1 as [|p l t k N _ IH]; [reflexivity|]. cbn [pair_count]. apply neighbours_count in N. subst t. lia. Qed.
Lemma neighbours_exist : forall r p l, Neighbours r p l (count (close r p) l).
Proof.
  intros r p l. unfold Neighbours, count. apply Counts_filter. intros q _. unfold close. rewrite andb_true_iff, !Qle_bool_iff.
  assert (E : (fst q - fst p) * (fst q - fst p) + (snd q - snd p) * (snd q - snd p) == d2 p q) by (unfold d2; ring). rewrite E. reflexivity.
Qed.
Lemma pairs_exist : forall r l, exists k, ClosePairs r l k.
Proof. induction l as [|p l [k K]]; [eexists; constructor|]. eexists. constructor; [apply neighbours_exist|exact K]. Qed.

Lemma left_refl : forall us, Left us us.
Proof. intro us. exists []. reflexivity. Qed.
Lemma left_trans : forall a b c, Left a b -> Left b c -> Left a c.
Proof. intros a b c [x ->] [y ->]. exists (y ++ x). rewrite app_assoc. reflexivity. Qed.
Lemma left_unit : forall us' us, Left us' us -> unit_stream us -> unit_stream us'.
Proof. intros us' us [x ->] H. apply Forall_app in H. apply H. Qed.
Lemma left_draw : forall us u us', draw1 us = Val u us' -> us = u :: us'.
Proof. intros [|v us] u us' H; inversion H; reflexivity. Qed.
Lemma left_reject : forall mk ok b us l us', reject mk ok us b = Val l us' -> Left us' us.
Proof.
  intros mk ok b us. remember (List.length us) as k eqn:K. revert b us K. induction k as [k IH] using (well_founded_induction lt_wf). intros b us K l us' H.
  destruct b as [|b].
  - destruct us as [|u [|v us]]; inversion H; subst; apply left_refl.
  - destruct us as [|u [|v us]]; try discriminate. cbn [reject] in H. assert (X : Left us (u :: v :: us)) by (exists [u; v]; reflexivity).
    destruct (ok (mk u v)).
    + destruct (reject mk ok us b) as [q us2|e|] eqn:E; try discriminate. injection H as _ <-. eapply left_trans; [|exact X]. eapply IH; [|reflexivity|exact E]. cbn in K. lia.
    + eapply left_trans; [|exact X]. eapply IH; [|reflexivity|exact H]. cbn in K. lia.
Qed.
Lemma left_poisson : forall h i us a us', poisson h (Some i) SNone us = Val a us' -> Left us' us.
Proof.
  intros h i us a us' H. destruct (poisson_inv _ _ _ _ _ _ H) as [n [s [it [d [P1 [A [B [P2 ->]]]]]]]]. cbn in P1. injection P1 as <- <- _.
  change (Z.to_nat 1) with 1%nat in P2. cbn [replicate] in P2. apply rbind_val in P2. destruct P2 as [l [us1 [P2 P3]]]. injection P3 as _ <-. eapply left_reject, P2.
Qed.

Lemma count_firstn : forall A (f : A -> bool) k l, (count f (firstn k l) <= count f l)%nat.
Proof. intros A f k l. rewrite <- (firstn_skipn k l) at 2. rewrite count_app. lia. Qed.
Lemma pairs_more : forall r l x, (pair_count r l <= pair_count r (l ++ x))%Z.
Proof.
  induction l as [|p l IH]; intro x.
  - cbn [app]. change (pair_count r []) with 0%Z. induction x; cbn [pair_count]; lia.
  - cbn [app pair_count]. rewrite count_app. specialize (IH x). lia.
Qed.
Lemma pairs_firstn : forall r k l, (pair_count r (firstn k l) <= pair_count r l)%Z.
Proof. intros r k l. rewrite <- (firstn_skipn k l) at 2. apply pairs_more. Qed.
Lemma pairs_first_more : forall r k l x, (pair_count r (firstn k l) <= pair_count r (firstn k (l ++ x)))%Z.
Proof. intros r k l x. rewrite firstn_app. apply pairs_more. Qed.
Lemma pairs_first_delete : forall r k l1 p l2, count (close r p) (l1 ++ l2) = 0%nat ->
  (pair_count r (firstn k (l1 ++ p :: l2)) <= pair_count r (firstn k (l1 ++ l2)))%Z.
Proof.
  intros r k l1 p l2 C. rewrite !firstn_app. destruct (k - List.length l1)%nat as [|j] eqn:K; [cbn [firstn]; lia|].
  rewrite !(firstn_all2 l1) by lia. rewrite firstn_cons, pair_count_mid. rewrite count_app in *.
  pose proof (count_firstn _ (close r p) j l2). replace (count (close r p) l1 + count (close r p) (firstn j l2))%nat with 0%nat by lia.
  rewrite Z.add_0_r. replace (firstn (S j) l2) with (firstn j l2 ++ firstn 1 (skipn j l2)).
  - rewrite app_assoc. apply pairs_more.
  - replace (S j) with (j + 1)%nat by lia. clear. revert l2. induction j as [|j IH]; intros [|x l2]; cbn; try reflexivity. f_equal. apply IH.
Qed.

Lemma delete_beyond : forall i (l : list pt), (List.length l <= i)%nat -> delete_nth i l = l.
Proof. induction i as [|i IH]; intros [|x l] H; cbn in *; auto; [lia|]. rewrite IH by lia. reflexivity. Qed.

Section Zero.
Variables (h : hull) (n : nat) (gamma r : Q).
Hypothesis zero : gamma == 0.
Lemma zero_power : forall z, (0 < z)%Z -> Qpower gamma z == 0.
Proof using zero. intros z H. rewrite zero. apply Qpower_0. lia. Qed.
(** No close pair appears, disappears, or leaves the first [n] points. *)
Definition stays (a b : list pt) : Prop := pair_count r b = pair_count r a /\ (pair_count r (firstn n a) <= pair_count r (firstn n b))%Z.
Lemma stays_refl : forall a, stays a a.
Proof. intro a. split; lia. Qed.
Lemma stays_trans : forall a b c, stays a b -> stays b c -> stays a c.
Proof. intros a b c [A1 A2] [B1 B2]. split; lia. Qed.
Lemma birth_zero : forall pts us pts' us', unit_stream us -> birth h (Z.of_nat n) gamma r pts us = Val pts' us' -> stays pts pts' /\ Left us' us.
Proof using zero.
  intros pts us pts' us' U H. unfold birth in H. apply rbind_val in H. destruct H as [a [us1 [H1 H2]]]. apply left_poisson in H1.
  apply rbind_val in H2. destruct H2 as [u [us2 [H2 H3]]]. apply left_draw in H2. injection H3 as H3 <-.
  split; [|eapply left_trans; [|exact H1]; exists [u]; exact H2].
  assert (V : exists l, vstack_rows pts a = pts ++ l) by (destruct a as [p|l|]; [exists [p]|exists l|exists []]; cbn; rewrite ?app_nil_r; reflexivity).
  destruct V as [l V]. rewrite V in H3. destruct (Qltb u _) eqn:L; [|subst; apply stays_refl]. rewrite <- H3. clear pts' H3.
  pose proof (pairs_more r pts l) as M. assert (E : pair_count r (pts ++ l) = pair_count r pts).
  { destruct (Z.eq_dec (pair_count r (pts ++ l)) (pair_count r pts)) as [E|NE]; [exact E|exfalso].
    apply (left_unit _ _ H1) in U. rewrite H2 in U. inversion U as [|? ? [U0 _] _]; subst. apply Qltb_lt in L.
    pose proof (zero_power (pair_count r (pts ++ l) - pair_count r pts) ltac:(lia)) as ZP. unfold Qmin1 in L.
    assert (E : inject_Z (Z.of_nat n) * gamma ^ (pair_count r (pts ++ l) - pair_count r pts) / (Qlen pts + 1) == 0) by (rewrite ZP; unfold Qdiv; ring).
    rewrite E in L. rewrite Q.min_r in L by lra. lra. }
  split; [exact E|apply pairs_first_more].
Qed.
Lemma death_zero : forall pts us pts' us', death (Z.of_nat n) gamma r pts us = Val pts' us' -> stays pts pts' /\ Left us' us.
Proof using zero.
  intros pts us pts' us' H. unfold death in H. destruct (_ <? _)%Z; [|injection H as <- <-; split; [apply stays_refl|apply left_refl]].
  apply rbind_val in H. destruct H as [v [us1 [H1 H]]]. apply left_draw in H1. set (i := Z.to_nat _) in H. destruct (Qeq_bool _ 0) eqn:Z0; [discriminate|].
  apply rbind_val in H. destruct H as [u [us2 [H2 H]]]. apply left_draw in H2. injection H as H <-. split; [|exists [v; u]; subst; reflexivity].
  destruct (Qltb u _); [|subst; apply stays_refl]. rewrite <- H. clear pts' H.
  destruct (nth_error pts i) as [p|] eqn:P.
  - destruct (delete_nth_split _ _ _ _ P) as [l1 [l2 [E1 E2]]]. rewrite E2 in *.
    assert (C : count (close r p) (l1 ++ l2) = 0%nat).
    { destruct (count (close r p) (l1 ++ l2)) as [|c] eqn:C; [reflexivity|exfalso]. apply Qeq_bool_neq in Z0. apply Z0. rewrite E1, pair_count_mid, C. rewrite (zero_power (pair_count r (l1 ++ l2) + Z.of_nat (S c) - pair_count r (l1 ++ l2))) by lia. ring. }
    rewrite E1. split; [rewrite pair_count_mid, C; lia|apply pairs_first_delete, C].
  - apply nth_error_None in P. replace (delete_nth i pts) with pts; [apply stays_refl|]. symmetry. apply delete_beyond, P.
Qed.
Lemma loop_zero : forall iters pts us pts' us', unit_stream us -> mh_loop h (Z.of_nat n) gamma r iters pts us = Val pts' us' -> stays pts pts' /\ Left us' us.
Proof using zero.
  induction iters as [|k IH]; intros pts us pts' us' U H; cbn [mh_loop] in H; [injection H as <- <-; split; [apply stays_refl|apply left_refl]|].
  apply rbind_val in H. destruct H as [p1 [us1 [H1 H2]]].
  assert (X : stays pts p1 /\ Left us1 us).
  { destruct (_ <? _)%Z; [eapply birth_zero; eauto|]. apply rbind_val in H1. destruct H1 as [u [us0 [D H1]]]. apply left_draw in D. subst us.
    assert (T : Left us0 (u :: us0)) by (exists [u]; reflexivity). pose proof (left_unit _ _ T U) as U0.
    destruct (Qltb u _); [apply (birth_zero _ _ _ _ U0) in H1|apply death_zero in H1]; destruct H1 as [A B]; split; auto; eapply left_trans; eauto. }
  destruct X as [X1 X2]. destruct (IH _ _ _ _ (left_unit _ _ X2 U) H2) as [Y1 Y2]. split; [eapply stays_trans|eapply left_trans]; eauto.
Qed.
(** Without a close pair nothing is refused. *)
Lemma loop_free : forall iters pts us e, (1 <= n)%nat -> 0 <= h_area h -> unit_stream us -> pair_count r pts = 0%Z -> mh_loop h (Z.of_nat n) gamma r iters pts us <> Exc e.
Proof using zero.
  induction iters as [|k IH]; intros pts us e N A U C H; cbn [mh_loop] in H; [discriminate|].
  assert (B : forall us e, birth h (Z.of_nat n) gamma r pts us <> Exc e).
  { intros us0 e0 X. unfold birth in X. destruct (poisson h (Some 1) SNone us0) as [a us1|e1|] eqn:P; cbn [rbind] in X; try discriminate.
    - destruct us1; discriminate.
    - unfold poisson, parse_size_and_intensity, alloc in P. cbn [lift rbind] in P.
      assert (T : (0 <= Qtrunc (h_area h * 1))%Z) by (rewrite Qtrunc_nonneg by lra; apply Qfloor_nonneg; lra).
      destruct (Z.ltb_spec (Qtrunc (h_area h * 1)) 0); [lia|]. cbn [orb Z.ltb Z.compare lift rbind] in P.
      destruct (replicate _ _ us0) as [d u|e2|] eqn:Q; cbn [rbind] in P; try discriminate. revert Q. change (Z.to_nat 1) with 1%nat. cbn [replicate].
      destruct (reject _ _ us0 _) as [l u|e3|] eqn:R; try discriminate. intros _. clear - R. revert R. generalize (Z.to_nat (Qtrunc (h_area h * 1))) as b. intro b.
      remember (List.length us0) as m eqn:K. revert b us0 K. induction m as [m IH] using (well_founded_induction lt_wf). intros b us0 K R.
      destruct b as [|b]; [destruct us0 as [|? [|? ?]]; discriminate|]. destruct us0 as [|u [|v us0]]; try discriminate. cbn [reject] in R. destruct (h_contains h _).
      + destruct (reject _ _ us0 b) as [| |] eqn:E; try discriminate. eapply (IH (List.length us0)); [|reflexivity|rewrite E; exact R]. cbn in K. lia.
      + eapply (IH (List.length us0)); [|reflexivity|exact R]. cbn in K. lia. }
  assert (D : forall us e, death (Z.of_nat n) gamma r pts us <> Exc e).
  { intros us0 e0 X. unfold death in X. destruct (Z.of_nat n <? Z.of_nat (List.length pts))%Z; [|discriminate X]. destruct us0 as [|v us0]; [discriminate X|]. cbn [draw1 rbind] in X.
    set (i := Z.to_nat _) in X. assert (S0 : (pair_count r (delete_nth i pts) = 0)%Z).
    { destruct (nth_error pts i) as [p|] eqn:P.
      - destruct (delete_nth_split _ _ _ _ P) as [l1 [l2 [E1 E2]]]. rewrite E2. rewrite E1, pair_count_mid in C. pose proof (pairs_more r [] (l1 ++ l2)) as M. cbn [app] in M. change (pair_count r []) with 0%Z in M. lia.
      - apply nth_error_None in P. replace (delete_nth i pts) with pts; [exact C|]. symmetry. apply delete_beyond, P. }
    rewrite C, S0 in X. change (0 - 0)%Z with 0%Z in X. destruct (Qeq_bool _ 0) eqn:Q.
    - apply Qeq_bool_iff in Q. change (Qpower gamma 0) with 1 in Q. assert (P : 0 < inject_Z (Z.of_nat n)) by (apply inject_pos; lia). lra.
    - destruct us0; discriminate X. }
  set (step := if (_ <? _)%Z then _ else _) in H.
  assert (SE : forall e, step <> Exc e).
  { intros e0 X. unfold step in X. destruct (_ <? _)%Z; [exact (B _ _ X)|]. destruct us as [|u us]; [discriminate|]. cbn [draw1 rbind] in X. destruct (Qltb u _); [exact (B _ _ X)|exact (D _ _ X)]. }
  destruct step as [p1 us1|e1|] eqn:E; cbn [rbind] in H; [|exact (SE e1 eq_refl)|discriminate].
  assert (X : stays pts p1 /\ Left us1 us).
  { apply (loop_zero 1 pts us p1 us1 U). cbn [mh_loop]. fold step. rewrite E. reflexivity. }
  destruct X as [[X1 _] X2]. refine (IH p1 us1 e N A (left_unit _ _ X2 U) _ H). rewrite X1. exact C.
Qed.
End Zero.

(** ** The results *)
(** What [pat] owes to the points [ini] drawn at the start. *)
Definition Owes (r : Q) (n : nat) (ini pat : list pt) : Prop := forall k0 k k1,
  ClosePairs r (firstn n ini) k0 -> ClosePairs r pat k -> ClosePairs r ini k1 -> (k0 <= k <= k1)%nat.
Definition Started (h : hull) (r : Q) (n : nat) (us : list Q) (pat : list pt) : Prop :=
  exists us1 ini us2, Left us1 us /\ poisson h (Some (inject_Z (Z.of_nat (3 * n / 2)))) SNone us1 = Val (Arr2 ini) us2 /\ Owes r n ini pat.
Lemma owes_stays : forall r n ini pts, stays n r ini pts -> Owes r n ini (firstn n pts).
Proof.
  intros r n ini pts [A B] k0 k k1 K0 K K1. apply pairs_count in K0, K, K1. pose proof (pairs_firstn r n pts). lia.
Qed.
Lemma attempt_zero : forall h n gamma r n_iter us o rest, gamma == 0 -> unit_stream us -> Qtrunc (h_area h * inject_Z (Z.of_nat (3 * n / 2))) <> 1%Z ->
  attempt h n gamma r n_iter us = Val o rest -> Left rest us /\ exists ini us2, poisson h (Some (inject_Z (Z.of_nat (3 * n / 2)))) SNone us = Val (Arr2 ini) us2 /\
    forall pat, o = Some pat -> List.length pat = n /\ Owes r n ini pat.
Proof.
  intros h n gamma r n_iter us o rest Z0 U ST H. unfold attempt in H. apply rbind_val in H. destruct H as [a [us1 [H1 H2]]].
  pose proof (left_poisson _ _ _ _ _ H1) as L1. pose proof H1 as P1. apply poisson_intensity in P1. cbv zeta in P1. destruct P1 as [_ [[B _]|[_ [ini [-> _]]]]]; [contradiction|].
  apply rbind_val in H2. destruct H2 as [pts [us2 [H2 H3]]]. injection H3 as H3 <-. destruct (loop_zero h n gamma r Z0 _ _ _ _ _ (left_unit _ _ L1 U) H2) as [S1 L2].
  split; [eapply left_trans; eauto|]. exists ini, us1. split; [exact H1|]. intros pat E. subst o. destruct (Nat.leb_spec n (List.length pts)); [|discriminate].
  injection E as <-. split; [rewrite firstn_length; lia|apply owes_stays, S1].
Qed.
Lemma attempts_zero : forall h n gamma r n_iter tries us pat rest, gamma == 0 -> unit_stream us -> Qtrunc (h_area h * inject_Z (Z.of_nat (3 * n / 2))) <> 1%Z ->
  attempts h n gamma r n_iter tries us = Val pat rest -> Left rest us /\ List.length pat = n /\ Started h r n us pat.
Proof.
  intros h n gamma r n_iter tries. induction tries as [|k IH]; intros us pat rest Z0 U ST H; [discriminate|]. cbn [attempts] in H.
  apply rbind_val in H. destruct H as [o [us1 [H1 H2]]]. destruct (attempt_zero _ _ _ _ _ _ _ _ Z0 U ST H1) as [L1 [ini [us2 [P O]]]]. destruct o as [l|].
  - injection H2 as -> <-. destruct (O pat eq_refl) as [O1 O2]. split; [exact L1|]. split; [exact O1|]. exists us, ini, us2. split; [apply left_refl|auto].
  - destruct (IH _ _ _ Z0 (left_unit _ _ L1 U) ST H2) as [L2 [N [us3 [ini' [us4 [L3 [P' O']]]]]]]. split; [eapply left_trans; eauto|]. split; [exact N|].
    exists us3, ini', us4. split; [eapply left_trans; eauto|auto].
Qed.

(** Every pattern returned has at least the close pairs of the first [n] points drawn at the start of its attempt. *)
Theorem C140_kept : forall h i sz gamma r n_iter max_iter us a rest n s it, gamma == 0 -> unit_stream us ->
  parse_size_and_intensity h i sz = Ok (n, s, it) -> (0 <= n)%Z -> (0 <= s)%Z -> Qtrunc (h_area h * inject_Z (3 * n / 2)) <> 1%Z ->
  strauss h i sz gamma r n_iter max_iter us = Val a rest ->
  exists d, holds_replications a d (Z.to_nat n) (Z.to_nat s) /\ Forall (Started h r (Z.to_nat n) us) d.
Proof.
  intros h i sz gamma r n_iter max_iter us a rest n s it Z0 U P N S0 ST H.
  assert (ST' : Qtrunc (h_area h * inject_Z (Z.of_nat (3 * Z.to_nat n / 2))) <> 1%Z).
  { rewrite Nat2Z.inj_div, Nat2Z.inj_mul, Z2Nat.id by exact N. exact ST. }
  unfold strauss in H. rewrite P in H. cbn [lift rbind] in H. unfold alloc in H. destruct (Z.ltb_spec n 0) as [X|_]; [lia|]. destruct (Z.ltb_spec s 0) as [X|_]; [lia|]. cbn [orb lift rbind] in H.
  apply rbind_val in H. destruct H as [d [us1 [H1 H2]]]. injection H2 as <- _. exists d.
  assert (X : forall k us0 d us1, unit_stream us0 -> replicate (attempts h (Z.to_nat n) gamma r n_iter max_iter) k us0 = Val d us1 ->
    List.length d = k /\ Forall (fun l => List.length l = Z.to_nat n) d /\ Forall (Started h r (Z.to_nat n) us0) d).
  { induction k as [|k IH]; intros us0 d0 us2 U0 E; cbn [replicate] in E; [injection E as <- _; auto|].
    apply rbind_val in E. destruct E as [l [us3 [E1 E]]]. apply rbind_val in E. destruct E as [ls [us4 [E2 E]]]. injection E as <- _.
    destruct (attempts_zero _ _ _ _ _ _ _ _ _ Z0 U0 ST' E1) as [L [A B]]. destruct (IH _ _ _ (left_unit _ _ L U0) E2) as [I1 [I2 I3]].
    split; [cbn; lia|]. split; constructor; auto. eapply Forall_impl; [|exact I3]. intros l' [u1 [ini [u2 [M1 M2]]]]. exists u1, ini, u2. split; [eapply left_trans; eauto|exact M2]. }
  destruct (X _ _ _ _ U H1) as [X1 [X2 X3]]. split; [|exact X3]. split; [exact X1|]. split; [exact X2|]. apply squeeze_points; auto.
Qed.
Print Assumptions C140_kept.

Lemma strauss_one : forall h i sz gamma r n_iter max_iter us n it ini us1, parse_size_and_intensity h i sz = Ok (n, 1%Z, it) -> (0 <= n)%Z -> (1 <= max_iter)%nat ->
  poisson h (Some (inject_Z (3 * n / 2))) SNone us = Val (Arr2 ini) us1 -> (Z.to_nat n <= List.length ini)%nat ->
  all_in h ini ->
  rbind (strauss h i sz gamma r n_iter max_iter us) (fun a us => Val (arr_points a) us) = rbind (mh_loop h n gamma r n_iter ini us1) (fun pts us => Val (firstn (Z.to_nat n) pts) us).
Proof.
  intros h i sz gamma r n_iter max_iter us n it ini us1 P N M I L AI. unfold strauss. rewrite P. cbn [lift rbind]. unfold alloc. destruct (Z.ltb_spec n 0); [lia|].
  cbn [orb Z.ltb Z.compare lift rbind]. change (Z.to_nat 1) with 1%nat. cbn [replicate]. destruct max_iter as [|k]; [lia|]. cbn [attempts]. unfold attempt.
  rewrite Nat2Z.inj_div, Nat2Z.inj_mul, Z2Nat.id by exact N. change (Z.of_nat 3 * n / Z.of_nat 2)%Z with (3 * n / 2)%Z. rewrite I. cbn [rbind].
  destruct (mh_loop h n gamma r n_iter ini us1) as [pts us2|e|] eqn:E; cbn [rbind]; try reflexivity.
  destruct (mh_loop_sound _ _ _ _ _ _ _ _ _ AI E) as [_ Q]. destruct (Nat.leb_spec (Z.to_nat n) (List.length pts)); [|lia]. cbn [rbind].
  f_equal. destruct (squeeze_points 1 (Z.to_nat n) [firstn (Z.to_nat n) pts]) as [-> _]; [reflexivity| |cbn; apply app_nil_r].
  constructor; [rewrite firstn_length; lia|constructor].
Qed.
(** One replication: the points drawn first decide. *)
Theorem C140_first : forall h i sz gamma r n_iter max_iter us a rest n it ini us1, gamma == 0 -> unit_stream us ->
  parse_size_and_intensity h i sz = Ok (n, 1%Z, it) -> (0 <= n)%Z -> (1 <= max_iter)%nat ->
  poisson h (Some (inject_Z (3 * n / 2))) SNone us = Val (Arr2 ini) us1 -> (Z.to_nat n <= List.length ini)%nat ->
  strauss h i sz gamma r n_iter max_iter us = Val a rest -> Owes r (Z.to_nat n) ini (arr_points a).
Proof.
  intros h i sz gamma r n_iter max_iter us a rest n it ini us1 Z0 U P N M I L H.
  assert (AI : all_in h ini).
  { pose proof (poisson_intensity _ _ _ _ _ I) as Q. cbv zeta in Q. destruct Q as [_ [[_ [p [Q _]]]|[_ [l [Q [_ A]]]]]]; [discriminate|injection Q as ->; exact A]. }
  pose proof (strauss_one h i sz gamma r n_iter max_iter us n it ini us1 P N M I L AI) as E. rewrite H in E. cbn [rbind] in E. symmetry in E.
  apply rbind_val in E. destruct E as [pts [us2 [E1 E2]]]. injection E2 as <- _. rewrite <- (Z2Nat.id n) in E1 by exact N.
  apply owes_stays. refine (proj1 (loop_zero h (Z.to_nat n) gamma r Z0 _ _ _ _ _ (left_unit _ _ (left_poisson _ _ _ _ _ I) U) E1)).
Qed.
Print Assumptions C140_first.
(** Without a close pair at the start the call cannot fail, and there is none in the end. *)
Theorem C140_free : forall h i sz gamma r n_iter max_iter us n it ini us1, gamma == 0 -> unit_stream us -> 0 <= h_area h ->
  parse_size_and_intensity h i sz = Ok (n, 1%Z, it) -> (1 <= n)%Z -> (1 <= max_iter)%nat ->
  poisson h (Some (inject_Z (3 * n / 2))) SNone us = Val (Arr2 ini) us1 -> (Z.to_nat n <= List.length ini)%nat -> ClosePairs r ini 0 ->
  (forall e, strauss h i sz gamma r n_iter max_iter us <> Exc e) /\
  (forall a rest, strauss h i sz gamma r n_iter max_iter us = Val a rest -> ClosePairs r (arr_points a) 0).
Proof.
  intros h i sz gamma r n_iter max_iter us n it ini us1 Z0 U A P N M I L C. split.
  - intros e H. assert (AI : all_in h ini).
    { pose proof (poisson_intensity _ _ _ _ _ I) as Q. cbv zeta in Q. destruct Q as [_ [[_ [p [Q _]]]|[_ [l [Q [_ AA]]]]]]; [discriminate|injection Q as ->; exact AA]. }
    pose proof (strauss_one h i sz gamma r n_iter max_iter us n it ini us1 P ltac:(lia) M I L AI) as E. rewrite H in E. cbn [rbind] in E. symmetry in E.
    destruct (mh_loop h n gamma r n_iter ini us1) as [pts us2|e'|] eqn:E1; try discriminate E. rewrite <- (Z2Nat.id n) in E1 by lia.
    refine (loop_free h (Z.to_nat n) gamma r Z0 _ _ _ _ ltac:(lia) A (left_unit _ _ (left_poisson _ _ _ _ _ I) U) _ E1). apply (pairs_count _ _ _ C).
  - intros a rest H. destruct (pairs_exist r (arr_points a)) as [k K]. destruct (pairs_exist r (firstn (Z.to_nat n) ini)) as [k0 K0].
    pose proof (C140_first h i sz gamma r n_iter max_iter us a rest n it ini us1 Z0 U P ltac:(lia) M I L H _ _ _ K0 K C) as O. replace k with 0%nat in K by lia. exact K.
Qed.
Print Assumptions C140_free.

(** However many moves are made, two points at the same place may be returned. *)
Lemma zero_steps : forall k, mh_loop unit_square 2 0 (1#2) k [(0, 0); (0, 0); (0, 0)] (repeat 0 (4 * k)) = Val [(0, 0); (0, 0); (0, 0)] [].
Proof.
  induction k as [|k IH]; [reflexivity|]. replace (4 * S k)%nat with (4 + 4 * k)%nat by lia. rewrite repeat_app. generalize dependent (repeat 0 (4 * k)). intros us IH.
  cbn [mh_loop]. change (repeat 0 4) with [0; 0; 0; 0]. cbn [app].
  change (rbind (Val [(0, 0); (0, 0); (0, 0)] us) (fun pts us => mh_loop unit_square 2 0 (1 # 2) k pts us) = Val [(0, 0); (0, 0); (0, 0)] []).
  exact IH.
Qed.
Theorem C140_hard_core_refuted : forall n_iter, exists us a rest, unit_stream us /\
  strauss unit_square None (SInt 2) 0 (1#2) n_iter 10 us = Val a rest /\ List.length (arr_points a) = 2%nat /\ ClosePairs (1#2) (arr_points a) 1.
Proof.
  intro k. exists (repeat 0 6 ++ repeat 0 (4 * k)).
  assert (P : poisson unit_square (Some (inject_Z (3 * 2 / 2))) SNone (repeat 0 6 ++ repeat 0 (4 * k)) = Val (Arr2 [(0, 0); (0, 0); (0, 0)]) (repeat 0 (4 * k))).
  { generalize (repeat 0 (4 * k)). intros [|u us]; vm_compute; reflexivity. }
  assert (AI : all_in unit_square [(0, 0); (0, 0); (0, 0)]).
  { pose proof (poisson_intensity _ _ _ _ _ P) as Q. cbv zeta in Q. destruct Q as [_ [[_ [p [Q _]]]|[_ [l [Q [_ AA]]]]]]; [discriminate|injection Q as <-; exact AA]. }
  pose proof (strauss_one unit_square None (SInt 2) 0 (1#2) k 10 _ 2 (Fin 2) _ _ ltac:(vm_compute; reflexivity) ltac:(lia) ltac:(lia) P ltac:(cbn; lia) AI) as E.
  rewrite zero_steps in E. cbn [rbind] in E. apply rbind_val in E. destruct E as [a [rest [E1 E2]]]. injection E2 as E2 _. exists a, rest. split; [|split; [exact E1|]].
  - apply Forall_app. split; apply Forall_forall; intros x X; apply repeat_spec in X; subst; split; lra.
  - rewrite E2. change (firstn (Z.to_nat 2) [(0, 0); (0, 0); (0, 0)]) with [(0, 0); (0, 0)]. split; [reflexivity|]. apply (pairs_cons _ _ _ 1 0).
    + apply (Counts_yes _ _ _ 0); [cbn; split; lra|constructor].
    + apply (pairs_cons _ _ _ 0 0); constructor.
Qed.
Print Assumptions C140_hard_core_refuted.

(** Three points at the start, the first two close; a birth is refused, then the third point dies. *)
Definition crowd : list Q := [0; 0; 0; 1#8; 3#4; 3#4;  1#4; 1#8; 1#8; 0;  3#4; 7#8; 1#2].
Example C140_case : unit_stream crowd /\ poisson unit_square (Some 3) SNone crowd = Val (Arr2 [(0, 0); (0, 1#8); (3#4, 3#4)]) [1#4; 1#8; 1#8; 0; 3#4; 7#8; 1#2] /\
  ClosePairs (1#4) [(0, 0); (0, 1#8); (3#4, 3#4)] 1 /\
  strauss unit_square None (SInt 2) 0 (1#4) 2 10 crowd = Val (Arr2 [(0, 0); (0, 1#8)]) [] /\
  strauss unit_square None (SInt 2) 0 (1#4) 1 10 [0; 0; 0; 1#8; 3#4; 3#4; 3#4; 0; 0] = Exc RuntimeError.
Proof.
  split; [repeat constructor; discriminate|]. split; [vm_compute; reflexivity|]. split; [|split; vm_compute; reflexivity].
  apply (pairs_cons _ _ _ 1 0); [|apply (pairs_cons _ _ _ 0 0); [|apply (pairs_cons _ _ _ 0 0); constructor]].
  - apply Counts_yes; [cbn; split; lra|]. apply Counts_no; [cbn; lra|constructor].
  - apply Counts_no; [cbn; lra|constructor].
Qed.
