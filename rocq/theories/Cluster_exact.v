(** Exact success conditions of [cluster_poisson] (random.py 287-387). *)
From Coq Require Import List QArith ZArith Bool Lia Lqa.
From Verif Require Import Base BaseLemmas Spec Quadrat_model Geometry_model Random_model Random_spec Random_proofs Cluster_proofs Strauss_proofs.
Import ListNotations.
Local Open Scope Q_scope.

Lemma draw_block_no_exc : forall k us e, draw_block k us <> Exc e.
Proof.
  induction k; intros us e; simpl; [discriminate|]. destruct us as [|u us]; [discriminate|].
  specialize (IHk us). destruct (draw_block k us); simpl; try discriminate.
  intro X; inversion X; subst. eapply IHk; reflexivity.
Qed.

Lemma circle_loop_no_exc : forall fuel burn n r c ok good us e, circle_loop fuel burn n r c ok good us <> Exc e.
Proof.
  induction fuel; intros burn n r c ok good us e; simpl; destruct (Nat.ltb (length good) n); try discriminate.
  destruct (draw_block (burn * n) us) as [ux us1|e1|] eqn:E1; simpl; try discriminate.
  2:{ intro. eapply draw_block_no_exc; eauto. }
  destruct (draw_block (burn * n) us1) as [uy us2|e2|] eqn:E2; simpl; try discriminate.
  2:{ intro. eapply draw_block_no_exc; eauto. }
  destruct (Nat.ltb _ _); [discriminate|]. apply IHfuel.
Qed.

Lemma uniform_circle_no_exc : forall n r c burn h us e, uniform_circle n r c burn h us <> Exc e.
Proof.
  intros n r c burn h us e. unfold uniform_circle.
  destruct (circle_loop _ _ _ _ _ _ _ _) eqn:E; simpl; try discriminate.
  intro X. eapply circle_loop_no_exc; eauto.
Qed.

Lemma fill_no_exc : forall h l us e, (forall x, In x l -> (1 <= snd x)%nat) -> fill_clusters h l us <> Exc e.
Proof.
  induction l as [|[[sd r] m] l IH]; intros us e H; simpl; [discriminate|].
  assert (Hm : (1 <= m)%nat) by (apply (H (sd, r, m)); left; reflexivity).
  assert (IH' : forall us e, fill_clusters h l us <> Exc e) by (intros; apply IH; intros; apply H; right; auto).
  destruct m as [|[|m]]; [lia| |].
  - simpl. destruct (fill_clusters h l us) eqn:E; simpl; try discriminate. intro; eapply IH'; eauto.
  - destruct (uniform_circle (S m) r sd 2 (Some h) us) as [cand us1|e1|] eqn:E1; simpl; try discriminate.
    + destruct (fill_clusters h l us1) eqn:E; simpl; try discriminate. intro; eapply IH'; eauto.
    + intro. eapply uniform_circle_no_exc; eauto.
Qed.

Lemma split_sizes_pos : forall n k m, (1 <= k <= n)%nat -> In m (split_sizes n k) -> (1 <= m)%nat.
Proof.
  intros n k m H I. unfold split_sizes in I.
  assert (1 <= n / k)%nat by (apply Nat.div_le_lower_bound; lia).
  apply in_app_iff in I. destruct I as [I|I]; apply repeat_spec in I; lia.
Qed.

Lemma zip3_in : forall A B C (a : list A) (b : list B) (c : list C) x, In x (zip3 a b c) -> In (snd x) c.
Proof.
  induction a as [|p a IH]; intros [|q b] [|r c] x; simpl; try tauto. intros [<-|I]; [left; reflexivity|].
  right. eapply IH; eauto.
Qed.

Lemma poisson_seeds_no_exc : forall h k us e, ~ h_area h == 0 -> (0 <= k)%Z -> poisson h None (SInt k) us <> Exc e.
Proof.
  intros h k us e A K. unfold poisson. simpl. unfold div_area.
  destruct (Qeq_bool (h_area h) 0) eqn:E; [apply Qeq_bool_iff in E; contradiction|]. simpl. unfold alloc.
  destruct (k <? 0)%Z eqn:E1; qb; [lia|]. change ((1 <? 0)%Z) with false. simpl.
  destruct (reject _ _ us _) as [l us'|e'|] eqn:R; simpl; try discriminate.
  exfalso. eapply reject_never_raises; eauto.
Qed.

Lemma cluster_loop_no_exc : forall h halfmin ro k n s sss us e, ~ h_area h == 0 -> (2 <= k)%Z -> (Z.to_nat k <= n)%nat ->
  cluster_loop h halfmin ro k n s sss us <> Exc e.
Proof.
  intros h halfmin ro k n s. induction s as [|s IH]; intros sss us e A K N; simpl; [discriminate|].
  destruct sss as [|ss sss]; [discriminate|].
  destruct (poisson h None (SInt k) ss) as [seeds r0|e0|] eqn:P; try discriminate.
  2:{ intro. eapply poisson_seeds_no_exc; [exact A| |exact P]. lia. }
  destruct (k <=? 0)%Z eqn:E0; qb; [lia|].
  destruct (poisson_seeds _ _ _ _ _ K P) as [sd [-> [L _]]]. simpl.
  destruct (fill_clusters h _ us) as [cls us1|e1|] eqn:F; simpl; try discriminate.
  - destruct (cluster_loop h halfmin ro k n s sss us1) eqn:E; simpl; try discriminate. intro. eapply IH; eauto.
  - exfalso. eapply fill_no_exc; [|exact F]. intros x I. apply zip3_in in I. eapply split_sizes_pos; [|exact I]. lia.
Qed.

(** With at least as many observations as seeds and acceptable radii nothing is raised. *)
Theorem C35_enough : forall h halfmin i sz k rad ro sss us n s it,
  (2 <= k)%Z -> parse_size_and_intensity h i sz = Ok (n, s, it) -> (0 <= s)%Z -> (k <= n)%Z ->
  ~ h_area h == 0 -> fixed_radii rad k = Ok ro ->
  forall e, cluster_poisson h halfmin i sz k rad sss us <> Exc e.
Proof.
  intros h halfmin i sz k rad ro sss us n s it K P S N A R e.
  unfold cluster_poisson. rewrite R. simpl. rewrite P. simpl. unfold alloc.
  destruct (n <? 0)%Z eqn:E1; qb; [lia|]. destruct (s <? 0)%Z eqn:E2; qb; [lia|]. simpl.
  destruct (cluster_loop _ _ _ _ _ _ _ _) eqn:E; simpl; try discriminate.
  intro. eapply cluster_loop_no_exc; [exact A|exact K| |exact E]. lia.
Qed.
Print Assumptions C35_enough.

(** ** Some streams let the call return *)

Section REACH.
Variable h : hull.
Variables u v : Q.
Hypothesis Hp : h_contains h (box_candidate (h_bbox h) u v) = true.
Hypothesis Hext : forall p q, fst p == fst q -> snd p == snd q -> h_contains h p = h_contains h q.
Let p0 := box_candidate (h_bbox h) u v.

Fixpoint uvs (n : nat) : list Q := match n with O => [] | S n => u :: v :: uvs n end.

Lemma reject_uvs : forall n rest, reject (box_candidate (h_bbox h)) (h_contains h) (uvs n ++ rest) n = Val (repeat p0 n) rest.
Proof.
  induction n; intros rest.
  - simpl. destruct rest; reflexivity.
  - simpl. rewrite Hp, IHn. reflexivity.
Qed.

Lemma poisson_uvs : forall k, ~ h_area h == 0 -> (2 <= k)%Z ->
  poisson h None (SInt k) (uvs (Z.to_nat k)) = Val (Arr2 (repeat p0 (Z.to_nat k))) [].
Proof.
  intros k A K. unfold poisson. simpl. unfold div_area.
  destruct (Qeq_bool (h_area h) 0) eqn:E; [apply Qeq_bool_iff in E; contradiction|]. simpl. unfold alloc.
  destruct (k <? 0)%Z eqn:E1; qb; [lia|]. change ((1 <? 0)%Z) with false. simpl.
  pose proof (reject_uvs (Z.to_nat k) []) as R. rewrite app_nil_r in R. rewrite R. simpl.
  unfold squeeze. simpl. destruct (Nat.eqb_spec (Z.to_nat k) 1); [lia|]. reflexivity.
Qed.

Lemma draw_block_repeat : forall k x rest, draw_block k (repeat x k ++ rest) = Val (repeat x k) rest.
Proof. induction k; intros; simpl; [reflexivity|]. rewrite IHk. reflexivity. Qed.

Lemma map_rep : forall A B (f : A -> B) a n, map f (repeat a n) = repeat (f a) n.
Proof. induction n; simpl; congruence. Qed.

Lemma combine_repeat : forall A B (a : A) (b : B) n, combine (repeat a n) (repeat b n) = repeat (a, b) n.
Proof. induction n; simpl; congruence. Qed.

Lemma filter_repeat_true : forall A (f : A -> bool) a n, f a = true -> filter f (repeat a n) = repeat a n.
Proof. intros A f a n H. induction n; simpl; [reflexivity|]. rewrite H, IHn. reflexivity. Qed.

Lemma firstn_repeat : forall A (a : A) m n, (m <= n)%nat -> firstn m (repeat a n) = repeat a m.
Proof. induction m; intros [|n] H; simpl; try reflexivity; try lia. rewrite IHm by lia. reflexivity. Qed.

Lemma circle_half : forall m r rest, exists l,
  uniform_circle m r p0 2 (Some h) (repeat (1#2) (2 * (2 * m)) ++ rest) = Val l rest.
Proof.
  intros m r rest. unfold uniform_circle.
  destruct m as [|m].
  - simpl. eauto.
  - remember (S m) as M eqn:EM. assert (HM : (1 <= M)%nat) by lia. clear EM m.
    remember (2 * M)%nat as B eqn:HB.
    assert (EB : forall X, repeat (1#2) (2 * B) ++ X = repeat (1#2) B ++ (repeat (1#2) B ++ X)).
    { intro X. replace (2 * B)%nat with (B + B)%nat by lia. rewrite repeat_app, <- app_assoc. reflexivity. }
    rewrite EB. generalize (List.length (repeat (1#2) B ++ (repeat (1#2) B ++ rest))). intro fuel.
    cbn [circle_loop List.length]. destruct (Nat.ltb_spec 0 M) as [_|]; [|lia].
    rewrite <- HB. rewrite draw_block_repeat. cbn [rbind]. rewrite draw_block_repeat. cbn [rbind].
    rewrite !map_rep. unfold circle_candidates. rewrite combine_repeat, filter_repeat_true.
    + rewrite repeat_length. replace (M - 0)%nat with M by lia.
      destruct (Nat.ltb_spec M B) as [_|]; [|lia]. simpl. eauto.
    + unfold uniform. apply andb_true_intro. split.
      * apply Qle_bool_iff. cbn [fst snd].
        assert (E : - r + (r - - r) * (1 # 2) == 0) by ring. rewrite E. nra.
      * rewrite <- Hp. assert (E : - r + (r - - r) * (1 # 2) == 0) by ring.
        apply Hext; cbn [fst snd]; rewrite E; apply Qplus_0_l.
Qed.

Lemma fill_reach : forall l, (forall x, In x l -> fst (fst x) = p0 /\ (1 <= snd x)%nat) ->
  exists us, unit_stream us /\ forall rest, exists cls, fill_clusters h l (us ++ rest) = Val cls rest.
Proof.
  induction l as [|[[sd r] m] l IH]; intros H.
  - exists []. split; [constructor|]. intro rest. simpl. eauto.
  - destruct IH as [us [U F]]; [intros; apply H; right; auto|].
    destruct (H (sd, r, m)) as [E Hm]; [left; reflexivity|]. simpl in E, Hm. subst sd.
    destruct m as [|[|m]]; [lia| |].
    + exists us. split; auto. intro rest. simpl. destruct (F rest) as [cls ->]. simpl. eauto.
    + exists (repeat (1#2) (2 * (2 * S m)) ++ us). split.
      * apply Forall_app. split; [|exact U]. apply Forall_forall. intros x I. apply repeat_spec in I. subst.
        split; [discriminate|reflexivity].
      * intro rest. rewrite <- app_assoc. destruct (circle_half (S m) r (us ++ rest)) as [l' E].
        cbn [fill_clusters]. rewrite E. cbn [rbind]. destruct (F rest) as [cls ->]. cbn [rbind]. eauto.
Qed.

Lemma loop_reach : forall halfmin ro k n s, ~ h_area h == 0 -> (2 <= k)%Z -> (Z.to_nat k <= n)%nat ->
  exists us, unit_stream us /\ forall rest, exists d,
    cluster_loop h halfmin ro k n s (repeat (uvs (Z.to_nat k)) s) (us ++ rest) = Val d rest.
Proof.
  intros halfmin ro k n s A K N. induction s as [|s [us [U F]]].
  - exists []. split; [constructor|]. intro. simpl. eauto.
  - set (rs := match ro with Some r => r | None => repeat (halfmin (repeat p0 (Z.to_nat k))) (Z.to_nat k) end).
    destruct (fill_reach (zip3 (repeat p0 (Z.to_nat k)) rs (split_sizes n (Z.to_nat k)))) as [us0 [U0 F0]].
    { intros x I. split.
      - assert (Z : forall X Y W (a : list X) (b : list Y) (c : list W) x, In x (zip3 a b c) -> In (fst (fst x)) a).
        { clear. induction a as [|p a IH]; intros [|q b] [|r c] x; simpl; try tauto. intros [<-|I]; [left; reflexivity|].
          right. eapply IH; eauto. }
        apply Z in I. apply repeat_spec in I. exact I.
      - apply zip3_in in I. eapply split_sizes_pos; [|exact I]. lia. }
    exists (us0 ++ us). split; [apply Forall_app; auto|].
    intro rest. rewrite <- app_assoc. simpl. rewrite poisson_uvs by assumption.
    destruct (k <=? 0)%Z eqn:E0; qb; [lia|]. simpl. fold rs.
    destruct (F0 (us ++ rest)) as [cls ->]. simpl. destruct (F rest) as [d ->]. simpl. eauto.
Qed.
End REACH.

(** Such a request can succeed as soon as one point of the hull can be drawn. *)
Theorem C35_reachable : forall h halfmin i sz k rad ro n s it u v,
  (2 <= k)%Z -> parse_size_and_intensity h i sz = Ok (n, s, it) -> (0 <= s)%Z -> (k <= n)%Z ->
  ~ h_area h == 0 -> fixed_radii rad k = Ok ro ->
  (forall p q, fst p == fst q -> snd p == snd q -> h_contains h p = h_contains h q) ->
  0 <= u < 1 -> 0 <= v < 1 -> h_contains h (box_candidate (h_bbox h) u v) = true ->
  exists sss us a, Forall unit_stream sss /\ unit_stream us /\
    cluster_poisson h halfmin i sz k rad sss us = Val a [].
Proof.
  intros h halfmin i sz k rad ro n s it u v K P S N A R X U V C.
  destruct (loop_reach h u v C X halfmin ro k (Z.to_nat n) (Z.to_nat s)) as [us [Us F]]; auto; [lia|].
  destruct (F []) as [d D]. rewrite app_nil_r in D.
  exists (repeat (uvs u v (Z.to_nat k)) (Z.to_nat s)), us, (squeeze (Z.to_nat s) (Z.to_nat n) d).
  split; [|split; [exact Us|]].
  - apply Forall_forall. intros x I. apply repeat_spec in I. subst x. clear - U V.
    induction (Z.to_nat k); simpl; constructor; auto.
  - unfold cluster_poisson. rewrite R. simpl. rewrite P. simpl. unfold alloc.
    destruct (n <? 0)%Z eqn:E1; qb; [lia|]. destruct (s <? 0)%Z eqn:E2; qb; [lia|]. simpl.
    rewrite D. reflexivity.
Qed.
Print Assumptions C35_reachable.

Example C35_exact_case :
  (forall us, cluster_poisson (bbox_hull (mkbox 0 0 2 2)) (fun _ => 1) None (SInt 3) 2 RadNone [[0;0;1#2;1#2]] us <> Exc PlainException) /\
  (exists a, cluster_poisson (bbox_hull (mkbox 0 0 2 2)) (fun _ => 1) None (SInt 3) 2 RadNone [[0;0;1#2;1#2]] [1#2;1#2;1#2;1#2] = Val a []).
Proof.
  split.
  - intro us. eapply C35_enough; try reflexivity; try lia. simpl. discriminate.
  - eexists. vm_compute. reflexivity.
Qed.
