(** Proofs about parse_size_and_intensity, poisson, normal and the disc sampler. *)
From Coq Require Import ZArith QArith Qround Qabs Qminmax List Bool Lia Lqa Setoid Morphisms.
From Verif Require Import Base BaseLemmas Quadrat_model Geometry_model Random_model Random_spec.
Import ListNotations.
Local Open Scope Q_scope.

Lemma rbind_val : forall A B (r : run A) (f : A -> list Q -> run B) b us,
  rbind r f = Val b us -> exists a us', r = Val a us' /\ f a us' = Val b us.
Proof. intros A B [a us'|e|] f b us H; simpl in H; try discriminate. eauto. Qed.

Lemma lift_val : forall A (r : res A) us a us', lift r us = Val a us' -> r = Ok a /\ us' = us.
Proof. intros A [x|e] us a us' H; simpl in H; inversion H; auto. Qed.

(** ** Truncation *)
Lemma Qtrunc_truncates : forall q, truncates (Qtrunc q) q.
Proof.
  intros. unfold truncates, Qtrunc.
  destruct (Qfloor_bounds q) as [F1 F2]. destruct (Qceiling_bounds q) as [C1 C2].
  destruct (Qle_bool 0 q) eqn:E; qb; split; intros; try lra.
  - assert (q == 0) by lra.
    assert (Qfloor q = 0%Z).
    { apply Qfloor_spec. change (inject_Z 0) with 0. lra. }
    rewrite H1. change (inject_Z 0) with 0. lra.
Qed.

(** ** The rejection loop *)
Section Reject.
Variables (mk : Q -> Q -> pt) (ok : pt -> bool).

Lemma reject_sound : forall us need l rest,
  reject mk ok us need = Val l rest ->
  List.length l = need /\
  Forall (fun p => ok p = true /\ exists u v, In u us /\ In v us /\ p = mk u v) l /\
  exists used, us = used ++ rest.
Proof.
  fix IH 1. intros [|u [|v us]] need l rest H.
  - destruct need; simpl in H; inversion H; subst. repeat split; auto. exists []; auto.
  - destruct need; simpl in H; inversion H; subst. repeat split; auto. exists []; auto.
  - destruct need as [|m].
    + simpl in H. inversion H; subst. repeat split; auto. exists []; auto.
    + simpl in H. destruct (ok (mk u v)) eqn:E.
      * apply rbind_val in H. destruct H as [l' [us' [H1 H2]]]. inversion H2; subst.
        destruct (IH us m l' rest H1) as [A [B [used C]]].
        split; [simpl; congruence|]. split.
        -- constructor.
           ++ split; auto. exists u, v. simpl; auto.
           ++ eapply Forall_impl; [|exact B]. intros p [P1 [a [b [P2 [P3 P4]]]]].
              split; auto. exists a, b. simpl; auto.
        -- exists (u :: v :: used). rewrite C at 1. reflexivity.
      * destruct (IH us (S m) l rest H) as [A [B [used C]]].
        split; auto. split.
        -- eapply Forall_impl; [|exact B]. intros p [P1 [a [b [P2 [P3 P4]]]]].
           split; auto. exists a, b. simpl; auto.
        -- exists (u :: v :: used). rewrite C at 1. reflexivity.
Qed.

(** Candidate points in the order in which the generator yields them. *)
Fixpoint candidates (us : list Q) : list pt :=
  match us with
  | u :: v :: us' => mk u v :: candidates us'
  | _ => []
  end.

(** The loop ends exactly when the stream holds enough acceptable candidates. *)
Lemma reject_terminates : forall us need,
  (exists l rest, reject mk ok us need = Val l rest) <-> (need <= count ok (candidates us))%nat.
Proof.
  fix IH 1. intros [|u [|v us]] need.
  - destruct need; simpl; unfold count; simpl; split; intros; try lia; eauto.
    destruct H as [? [? H]]; discriminate.
  - destruct need; simpl; unfold count; simpl; split; intros; try lia; eauto.
    destruct H as [? [? H]]; discriminate.
  - destruct need as [|m].
    + simpl. split; intros; [lia|eauto].
    + simpl candidates. rewrite count_cons. simpl reject. destruct (ok (mk u v)) eqn:E.
      * split.
        -- intros [l [rest H]]. apply rbind_val in H. destruct H as [l' [us' [H1 H2]]].
           assert (m <= count ok (candidates us))%nat by (apply IH; eauto). lia.
        -- intros. destruct (proj2 (IH us m)) as [l [rest H1]]; [lia|].
           rewrite H1. simpl. eauto.
      * rewrite Nat.add_0_l. apply IH.
Qed.

Lemma reject_never_raises : forall us need e, reject mk ok us need <> Exc e.
Proof.
  fix IH 1. intros [|u [|v us]] need e.
  - destruct need; simpl; discriminate.
  - destruct need; simpl; discriminate.
  - destruct need as [|m]; simpl; [discriminate|]. destruct (ok (mk u v)).
    + specialize (IH us m). destruct (reject mk ok us m); simpl; try discriminate.
      intro X; inversion X; subst. eapply IH; reflexivity.
    + apply IH.
Qed.

(** When everything is accepted, exactly two numbers per point are used. *)
Lemma reject_accept_all : forall us need,
  (forall u v, In u us -> In v us -> ok (mk u v) = true) ->
  (2 * need <= List.length us)%nat ->
  reject mk ok us need = Val (firstn need (candidates us)) (skipn (2 * need) us).
Proof.
  fix IH 1. intros [|u [|v us]] need H L.
  - destruct need; simpl in L; [|lia]. simpl. reflexivity.
  - destruct need; simpl in L; [|lia]. simpl. reflexivity.
  - destruct need as [|m]; [reflexivity|].
    replace (2 * S m)%nat with (S (S (2 * m))) by lia.
    simpl. rewrite H by (simpl; auto).
    replace (m + (m + 0))%nat with (2 * m)%nat by lia.
    rewrite IH; [reflexivity| |simpl in L; lia].
    intros; apply H; simpl; auto.
Qed.
End Reject.

Lemma replicate_sound : forall (P : list pt -> Prop) f s us d rest,
  (forall us l rest, f us = Val l rest -> P l) ->
  replicate f s us = Val d rest -> List.length d = s /\ Forall P d.
Proof.
  induction s; intros us d rest Hf H; simpl in H.
  - inversion H; subst. auto.
  - apply rbind_val in H. destruct H as [l [us1 [H1 H2]]].
    apply rbind_val in H2. destruct H2 as [ls [us2 [H2 H3]]]. inversion H3; subst.
    destruct (IHs _ _ _ Hf H2) as [A B]. split; simpl; eauto.
Qed.

(** Version in which the streams handed to [f] are suffixes of the whole. *)
Lemma replicate_suffix : forall (P : list pt -> Prop) f s us d rest,
  (forall us' l rest, (exists pre, us = pre ++ us') -> f us' = Val l rest ->
     P l /\ exists used, us' = used ++ rest) ->
  replicate f s us = Val d rest ->
  List.length d = s /\ Forall P d /\ exists used, us = used ++ rest.
Proof.
  induction s; intros us d rest Hf H; simpl in H.
  - inversion H; subst. repeat split; auto. exists []; auto.
  - apply rbind_val in H. destruct H as [l [us1 [H1 H2]]].
    apply rbind_val in H2. destruct H2 as [ls [us2 [H2 H3]]]. inversion H3; subst.
    destruct (Hf us l us1) as [A [used B]]; [exists []; auto|auto|].
    destruct (IHs us1 ls rest) as [C [D [used2 E]]]; [|auto|].
    + intros us' l' rest' [pre Hpre] Hr. apply (Hf us' l' rest'); auto.
      exists (used ++ pre). subst. rewrite <- app_assoc. reflexivity.
    + repeat split; simpl; auto. exists (used ++ used2). subst. rewrite <- app_assoc. reflexivity.
Qed.

Lemma unit_stream_app : forall a b, unit_stream (a ++ b) <-> unit_stream a /\ unit_stream b.
Proof. intros. unfold unit_stream. apply Forall_app. Qed.

Lemma unit_stream_in : forall us u, unit_stream us -> In u us -> 0 <= u < 1.
Proof. intros us u H Hu. unfold unit_stream in H. rewrite Forall_forall in H. apply (H u Hu). Qed.

Lemma uniform_range : forall a b u, a <= b -> 0 <= u < 1 -> a <= uniform a b u <= b.
Proof. intros. unfold uniform. split; nra. Qed.

Lemma box_candidate_in : forall b u v, sane_box b -> 0 <= u < 1 -> 0 <= v < 1 ->
  in_box b (box_candidate b u v).
Proof.
  intros b u v [H1 H2] Hu Hv. unfold in_box, box_candidate. simpl.
  split; apply uniform_range; auto.
Qed.

(** ** squeeze *)
Lemma squeeze_points : forall s n d, List.length d = s -> Forall (fun l => List.length l = n) d ->
  arr_points (squeeze s n d) = concat d /\
  (arr_shape (squeeze s n d) = doc_shape n s <-> n <> 1%nat).
Proof.
  intros s n d Hd Hn. unfold squeeze, doc_shape.
  destruct (Nat.eqb_spec s 1) as [->|Hs].
  - destruct d as [|l [|l' d]]; try discriminate. inversion Hn; subst.
    destruct (Nat.eqb_spec (List.length l) 1) as [E|E].
    + destruct l as [|p [|q l]]; try discriminate. simpl. split; auto.
      split; [discriminate|congruence].
    + split. { destruct l as [|p [|q l]]; simpl; rewrite ?app_nil_r; auto. }
      simpl. split; auto.
  - destruct (Nat.eqb_spec n 1) as [->|E].
    + split; [reflexivity|]. simpl. split; [discriminate|congruence].
    + split; [reflexivity|]. simpl. split; auto.
Qed.

Lemma squeeze_holds : forall s n d, List.length d = s -> Forall (fun l => List.length l = n) d ->
  holds_replications (squeeze s n d) d n s.
Proof. intros. split; auto. split; auto. apply squeeze_points; auto. Qed.

Lemma alloc_ok : forall n s n' s', alloc n s = Ok (n', s') ->
  (0 <= n)%Z /\ (0 <= s)%Z /\ n' = Z.to_nat n /\ s' = Z.to_nat s.
Proof.
  unfold alloc. intros. destruct ((n <? 0)%Z || (s <? 0)%Z) eqn:E; [discriminate|].
  inversion H; subst. qb. auto.
Qed.

(** ** poisson *)
Lemma poisson_inv : forall h i sz us a rest, poisson h i sz us = Val a rest ->
  exists n s it d, parse_size_and_intensity h i sz = Ok (n, s, it) /\ (0 <= n)%Z /\ (0 <= s)%Z /\
    replicate (fun us => reject (box_candidate (h_bbox h)) (h_contains h) us (Z.to_nat n))
              (Z.to_nat s) us = Val d rest /\
    a = squeeze (Z.to_nat s) (Z.to_nat n) d.
Proof.
  intros h i sz us a rest H. unfold poisson in H.
  apply rbind_val in H. destruct H as [[[n s] it] [us1 [H1 H2]]]. apply lift_val in H1. destruct H1 as [H1 ->].
  apply rbind_val in H2. destruct H2 as [[n' s'] [us2 [H2 H3]]]. apply lift_val in H2. destruct H2 as [H2 ->].
  apply alloc_ok in H2. destruct H2 as [A [B [-> ->]]].
  apply rbind_val in H3. destruct H3 as [d [us3 [H3 H4]]]. inversion H4; subst.
  exists n, s, it, d. auto.
Qed.

Lemma poisson_sound : forall h i sz us a rest,
  unit_stream us -> sane_box (h_bbox h) ->
  poisson h i sz us = Val a rest ->
  exists n s it d, parse_size_and_intensity h i sz = Ok (n, s, it) /\ (0 <= n)%Z /\ (0 <= s)%Z /\
    holds_replications a d (Z.to_nat n) (Z.to_nat s) /\
    (arr_shape a = doc_shape (Z.to_nat n) (Z.to_nat s) <-> n <> 1%Z) /\
    (forall p, In p (arr_points a) -> h_contains h p = true /\ in_box (h_bbox h) p) /\
    exists used, us = used ++ rest.
Proof.
  intros h i sz us a rest Hu Hb H.
  destruct (poisson_inv _ _ _ _ _ _ H) as [n [s [it [d [H1 [A [B [H3 ->]]]]]]]].
  exists n, s, it, d. split; auto. split; auto. split; auto.
  apply (replicate_suffix (fun l => List.length l = Z.to_nat n /\
           Forall (fun p => h_contains h p = true /\ in_box (h_bbox h) p) l)) in H3.
  - destruct H3 as [L [F X]]. assert (F1 : Forall (fun l => List.length l = Z.to_nat n) d).
    { eapply Forall_impl; [|exact F]. simpl. tauto. }
    destruct (squeeze_points _ _ _ L F1) as [P S].
    split; [apply squeeze_holds; auto|]. split.
    { rewrite S. split; intros; lia. }
    split; [|exact X]. intros p Hp. rewrite P in Hp. apply in_concat in Hp. destruct Hp as [l [Hl Hp]].
    rewrite Forall_forall in F. destruct (F l Hl) as [_ F2]. rewrite Forall_forall in F2. auto.
  - intros us' l r [pre E] Hr. apply reject_sound in Hr. destruct Hr as [R1 [R2 R3]].
    split; auto. split; auto. eapply Forall_impl; [|exact R2].
    intros p [P1 [u [v [Hu1 [Hv1 ->]]]]]. split; auto.
    subst us. apply unit_stream_app in Hu. destruct Hu as [_ Hu].
    apply box_candidate_in; auto; eapply unit_stream_in; eauto.
Qed.

(** Termination of [poisson] on a stream with enough acceptable candidates. *)
Lemma reject_split : forall mk ok us a b,
  reject mk ok us (a + b) =
  rbind (reject mk ok us a) (fun l us => rbind (reject mk ok us b) (fun l' us => Val (l ++ l') us)).
Proof.
  intros mk ok. fix IH 1. intros [|u [|v us]] a b.
  - destruct a; simpl; [|reflexivity]. destruct b; reflexivity.
  - destruct a; simpl; [|reflexivity]. destruct b; reflexivity.
  - destruct a as [|a].
    + change (reject mk ok (u :: v :: us) (0 + b)) with (reject mk ok (u :: v :: us) b).
      change (reject mk ok (u :: v :: us) 0) with (Val (@nil pt) (u :: v :: us)).
      cbv beta iota delta [rbind]. destruct (reject mk ok (u :: v :: us) b); reflexivity.
    + simpl. destruct (ok (mk u v)).
      * rewrite IH. destruct (reject mk ok us a) as [l us'| |]; simpl; try reflexivity.
        destruct (reject mk ok us' b); reflexivity.
      * rewrite <- (IH us (S a) b). reflexivity.
Qed.

Lemma replicate_reject : forall mk ok n s us,
  (exists d rest, replicate (fun us => reject mk ok us n) s us = Val d rest) <->
  (exists l rest, reject mk ok us (s * n) = Val l rest).
Proof.
  induction s; intros us.
  - simpl. split; intros _; [destruct us as [|? [|? ?]]; simpl; eauto|eauto].
  - simpl replicate. replace (S s * n)%nat with (n + s * n)%nat by lia. rewrite reject_split.
    destruct (reject mk ok us n) as [l us'|e|]; simpl; [|split; intros [? [? X]]; discriminate..].
    specialize (IHs us').
    destruct (replicate (fun us0 => reject mk ok us0 n) s us') as [d r|e|] eqn:E1;
    destruct (reject mk ok us' (s * n)) as [l2 r2|e2|] eqn:E2; simpl.
    all: try (split; intros; eauto; fail).
    all: try (split; intros [? [? X]]; discriminate).
    all: try (exfalso; destruct IHs as [I1 I2];
              try (destruct I1 as [? [? X]]; eauto; discriminate);
              try (destruct I2 as [? [? X]]; eauto; discriminate)).
Qed.

Lemma poisson_terminates : forall h i sz us n s it,
  parse_size_and_intensity h i sz = Ok (n, s, it) -> (0 <= n)%Z -> (0 <= s)%Z ->
  ((exists a rest, poisson h i sz us = Val a rest) <->
   (Z.to_nat s * Z.to_nat n <= count (h_contains h) (candidates (box_candidate (h_bbox h)) us))%nat).
Proof.
  intros h i sz us n s it H Hn Hs. rewrite <- reject_terminates, <- replicate_reject.
  unfold poisson. rewrite H. simpl. unfold alloc.
  destruct (n <? 0)%Z eqn:E1; qb; [lia|]. destruct (s <? 0)%Z eqn:E2; qb; [lia|]. simpl.
  destruct (replicate _ _ us) as [d r|e|]; simpl; split; intros [? [? X]]; eauto; discriminate.
Qed.

Lemma candidates_length : forall mk us, (2 * List.length (candidates mk us) <= List.length us
   /\ List.length us <= 2 * List.length (candidates mk us) + 1)%nat.
Proof.
  intros mk. fix IH 1. intros [|u [|v us]]; simpl; try lia. specialize (IH us). lia.
Qed.
Lemma candidates_in : forall mk us p, In p (candidates mk us) ->
  exists u v, In u us /\ In v us /\ p = mk u v.
Proof.
  intros mk. fix IH 1. intros [|u [|v us]] p; simpl; try tauto. intros [<-|H].
  - exists u, v. auto.
  - destruct (IH us p H) as [a [b [A [B C]]]]. exists a, b. auto.
Qed.

Lemma box_contains_iff : forall b p, box_contains b p = true <-> in_box b p.
Proof.
  intros. unfold box_contains, in_box. rewrite !andb_true_iff, !Qleb_le. tauto.
Qed.

(** For a bounding-box hull every candidate is accepted. *)
Lemma poisson_box_terminates : forall b i sz us n s it,
  sane_box b -> unit_stream us ->
  parse_size_and_intensity (bbox_hull b) i sz = Ok (n, s, it) -> (0 <= n)%Z -> (0 <= s)%Z ->
  (2 * (Z.to_nat s * Z.to_nat n) <= List.length us)%nat ->
  exists a rest, poisson (bbox_hull b) i sz us = Val a rest.
Proof.
  intros b i sz us n s it Hb Hu Hp Hn Hs L.
  apply (poisson_terminates _ _ _ _ _ _ _ Hp Hn Hs). simpl.
  rewrite count_all.
  - pose proof (candidates_length (box_candidate b) us). lia.
  - intros p H. apply candidates_in in H. destruct H as [u [v [U [V ->]]]].
    apply box_contains_iff, box_candidate_in; auto; eapply unit_stream_in; eauto.
Qed.

(** ** normal *)
Lemma replicate_i_sound : forall (P : list pt -> Prop) f s i us d rest,
  (forall i us l rest, f i us = Val l rest -> P l) ->
  replicate_i f i s us = Val d rest -> List.length d = s /\ Forall P d.
Proof.
  induction s; intros i us d rest Hf H; simpl in H.
  - inversion H; subst. auto.
  - apply rbind_val in H. destruct H as [l [us1 [H1 H2]]].
    apply rbind_val in H2. destruct H2 as [ls [us2 [H2 H3]]]. inversion H3; subst.
    destruct (IHs _ _ _ _ Hf H2) as [A B]. split; simpl; eauto.
Qed.

Lemma normal_sound : forall h mk c sz us a rest, normal h mk c sz us = Val a rest ->
  exists n s it d, parse_size_and_intensity h None sz = Ok (n, s, it) /\ (0 <= n)%Z /\ (0 <= s)%Z /\
    holds_replications a d (Z.to_nat n) (Z.to_nat s) /\
    (arr_shape a = doc_shape (Z.to_nat n) (Z.to_nat s) <-> n <> 1%Z) /\
    (forall p, In p (arr_points a) -> h_contains h p = true).
Proof.
  intros h mk c sz us a rest H. unfold normal in H.
  apply rbind_val in H. destruct H as [[[n s] it] [us1 [H1 H2]]]. apply lift_val in H1. destruct H1 as [H1 ->].
  apply rbind_val in H2. destruct H2 as [[] [us2 [H2 H3]]]. apply lift_val in H2. destruct H2 as [_ ->].
  apply rbind_val in H3. destruct H3 as [[n' s'] [us3 [H3 H4]]]. apply lift_val in H3. destruct H3 as [H3 ->].
  apply alloc_ok in H3. destruct H3 as [A [B [-> ->]]].
  apply rbind_val in H4. destruct H4 as [d [us4 [H4 H5]]]. inversion H5; subst.
  exists n, s, it, d. split; auto. split; auto. split; auto.
  apply (replicate_i_sound (fun l => List.length l = Z.to_nat n /\
           Forall (fun p => h_contains h p = true) l)) in H4.
  - destruct H4 as [L F]. assert (F1 : Forall (fun l => List.length l = Z.to_nat n) d).
    { eapply Forall_impl; [|exact F]. simpl. tauto. }
    destruct (squeeze_points _ _ _ L F1) as [P S].
    split; [apply squeeze_holds; auto|]. split.
    { rewrite S. split; intros; lia. }
    intros p Hp. rewrite P in Hp. apply in_concat in Hp. destruct Hp as [l [Hl Hp]].
    rewrite Forall_forall in F. destruct (F l Hl) as [_ F2]. rewrite Forall_forall in F2. auto.
  - intros i us' l r Hr. apply reject_sound in Hr. destruct Hr as [R1 [R2 _]].
    split; auto. eapply Forall_impl; [|exact R2]. simpl. tauto.
Qed.

(** ** The disc sampler *)
Lemma circle_candidates_ok : forall r c f xs ys,
  Forall (fun p => fst p * fst p + snd p * snd p <= r * r /\ f (fst p + fst c, snd p + snd c) = true)
         (circle_candidates r c f xs ys).
Proof.
  intros. unfold circle_candidates. apply Forall_forall. intros p H. apply filter_In in H.
  destruct H as [_ H]. qb. auto.
Qed.

Lemma circle_loop_sound : forall (Pd : pt -> Prop) fuel burn n r c f good us l rest,
  (forall xs ys, Forall Pd (circle_candidates r c f xs ys)) ->
  Forall Pd good -> (List.length good <= n)%nat ->
  circle_loop fuel burn n r c f good us = Val l rest ->
  Forall Pd l /\ List.length l = n /\ exists used, us = used ++ rest.
Proof.
  assert (DB : forall k us l rest, draw_block k us = Val l rest -> exists used, us = used ++ rest).
  { induction k; intros us l rest H; simpl in H. inversion H; subst. exists []; auto.
    destruct us; [discriminate|]. apply rbind_val in H. destruct H as [l' [us' [H1 H2]]].
    inversion H2; subst. apply IHk in H1. destruct H1 as [used ->]. exists (q :: used). auto. }
  induction fuel; intros burn n r c f good us l rest HP HG HL H; simpl in H.
  - destruct (Nat.ltb_spec (List.length good) n); [discriminate|]. inversion H; subst.
    split; auto. split; [lia|]. exists []; auto.
  - destruct (Nat.ltb_spec (List.length good) n).
    2:{ inversion H; subst. split; auto. split; [lia|]. exists []; auto. }
    apply rbind_val in H. destruct H as [ux [us1 [H1 H2]]].
    apply rbind_val in H2. destruct H2 as [uy [us2 [H2 H3]]].
    apply DB in H1. apply DB in H2. destruct H1 as [u1 ->]. destruct H2 as [u2 ->].
    set (cand := circle_candidates _ _ _ _ _) in *.
    destruct (Nat.ltb_spec (n - List.length good) (List.length cand)).
    + inversion H3; subst. split; [|split].
      * apply Forall_app. split; auto.
        specialize (HP (map (uniform (- r) r) ux) (map (uniform (- r) r) uy)). fold cand in HP.
        rewrite <- (firstn_skipn (n - List.length good) cand) in HP. apply Forall_app in HP. apply HP.
      * rewrite app_length, firstn_length. lia.
      * exists (u1 ++ u2). rewrite <- app_assoc. reflexivity.
    + apply IHfuel in H3; auto.
      * destruct H3 as [A [B [u3 ->]]]. split; auto. split; auto.
        exists (u1 ++ u2 ++ u3). rewrite <- !app_assoc. reflexivity.
      * apply Forall_app. split; auto. apply HP.
      * rewrite app_length. lia.
Qed.

Lemma uniform_circle_sound : forall n r c burn h us l rest,
  uniform_circle n r c burn h us = Val l rest ->
  List.length l = n /\
  (forall p, In p l -> in_disc r c p /\
     match h with Some h => h_contains h p = true | None => True end) /\
  exists used, us = used ++ rest.
Proof.
  intros n r c burn h us l rest H. unfold uniform_circle in H.
  apply rbind_val in H. destruct H as [good [us' [H1 H2]]]. inversion H2; subst.
  set (f := match h with Some h0 => h_contains h0 | None => fun _ => true end) in *.
  apply (circle_loop_sound (fun p => fst p * fst p + snd p * snd p <= r * r /\
            f (fst p + fst c, snd p + snd c) = true)) in H1.
  - destruct H1 as [A [B C]]. split; [rewrite map_length; auto|]. split; auto.
    intros p Hp. apply in_map_iff in Hp. destruct Hp as [q [<- Hq]].
    rewrite Forall_forall in A. destruct (A q Hq) as [A1 A2]. split.
    + unfold in_disc. simpl.
      assert (E1 : fst q + fst c - fst c == fst q) by ring.
      assert (E2 : snd q + snd c - snd c == snd q) by ring. rewrite E1, E2. exact A1.
    + destruct h; auto.
  - intros. apply circle_candidates_ok.
  - constructor.
  - simpl. lia.
Qed.
