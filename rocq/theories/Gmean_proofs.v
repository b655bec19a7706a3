(** Proofs on the means of G and F. *)
From Coq Require Import Reals Qreals ZArith QArith Qround Qminmax List Bool Arith Lia Lra Psatz String.
From Verif Require Import Base BaseLemmas Spec Quadrat_model Geometry_model Random_model Random_spec DistStats_model DistStats_spec DistStats_proofs DistStats_props Ripley_model Ripley_spec Ripley_proofs Symmetry_proofs
  Size_proofs Joint_spec Joint_proofs Joint_props Blocks_spec Null_spec Null_proofs Chimean_spec Chimean_proofs Kmean_spec Kmean_proofs Gmean_spec.
Import ListNotations.
Local Open Scope R_scope.

(** ** Choosing one point *)
Lemma picks_len : forall A (l : list A), List.length (picks l) = List.length l.
Proof. intros A l. induction l as [|x l IH]; [reflexivity|]. cbn [picks List.length]. rewrite map_length, IH. reflexivity. Qed.
Lemma picks_nth : forall A (l : list A) i d e, (i < List.length l)%nat ->
  fst (nth i (picks l) e) = nth i l d /\
  forall q, In q (snd (nth i (picks l) e)) <-> exists k, (k < List.length l)%nat /\ k <> i /\ q = nth k l d.
Proof.
  intros A l. induction l as [|x l IH]; intros i d e LT; [inversion LT|]. cbn [picks List.length] in *. destruct i as [|i].
  - cbn [nth fst snd]. split; [reflexivity|]. intro q. split.
    + intro I. apply (In_nth _ _ d) in I. destruct I as [k [K1 K2]]. exists (S k). split; [lia|]. split; [lia|]. cbn. symmetry; exact K2.
    + intros [k [K1 [K2 ->]]]. destruct k as [|k]; [lia|]. cbn. apply nth_In. lia.
  - cbn [nth]. assert (LT' : (i < List.length l)%nat) by lia. set (g := fun p : A * list A => (fst p, x :: snd p)).
    rewrite (nth_indep _ e (g e)) by (rewrite map_length, picks_len; exact LT'). rewrite (map_nth g). unfold g. cbn [fst snd].
    destruct (IH i d e LT') as [F1 F2]. split; [exact F1|]. intro q. split.
    + intros [<-|I]; [exists 0%nat; split; [lia|]; split; [lia|]; reflexivity|]. apply F2 in I. destruct I as [k [K1 [K2 ->]]]. exists (S k). split; [lia|]. split; [lia|]. reflexivity.
    + intros [k [K1 [K2 ->]]]. destruct k as [|k]; [left; reflexivity|]. right. apply F2. exists k. split; [lia|]. split; [lia|]. reflexivity.
Qed.
Lemma lone_true : forall near x l, lone near x l = true <-> forall q, In q l -> near x q = false.
Proof.
  intros near x l. unfold lone. rewrite forallb_forall. split; intros H q I; specialize (H q I); [apply negb_true_iff in H; exact H|rewrite H; reflexivity].
Qed.
(** Counting by position. *)
Lemma count_by : forall A B (f : A -> bool) (g : B -> bool) a b da db, List.length a = List.length b ->
  (forall i, (i < List.length a)%nat -> f (nth i a da) = negb (g (nth i b db))) -> INR (count f a) = INR (List.length b) - rsum b (fun x => yes (g x)).
Proof.
  intros A B f g a. induction a as [|x a IH]; intros [|y b] da db E H; try discriminate E; [unfold rsum; cbn; lra|].
  rewrite rsum_cons. cbn [List.length]. rewrite S_INR, count_cons, plus_INR. rewrite (IH b da db); [|cbn in E; lia|intros i I; apply (H (S i)); cbn; lia].
  pose proof (H 0%nat ltac:(cbn; lia)) as H0. cbn [nth] in H0. rewrite H0. destruct (g y); cbn; lra.
Qed.

(** ** Means *)
Section Means.
Variables (G : list Q) (w : Q -> R) (ok : pt -> bool) (mk : Q -> Q -> pt) (near : pt -> pt -> bool).
Notation kept := (Joint_spec.kept G w mk ok).
Notation all n := (kept_all G w ok (repeat mk n)).
Notation share := (Blocks_spec.share G w mk ok).
Notation empty := (empty_prob G w mk ok near).
Hypothesis A : kept always <> 0.
Lemma share_kept : forall f, kept f = share f * kept always.
Proof using A. intro f. unfold Blocks_spec.share. field. exact A. Qed.
Lemma lone_mean : forall x n, all n (fun l => yes (lone near x l)) = (1 - share (indicator (near x))) ^ n * kept always ^ n.
Proof using A.
  intros x n. induction n as [|n IH]; [cbn; lra|]. cbn [repeat Null_spec.kept_all].
  rewrite (kept_ext G w ok mk _ (fun q => ((1 - share (indicator (near x))) ^ n * kept always ^ n) * always q + (- ((1 - share (indicator (near x))) ^ n * kept always ^ n)) * indicator (near x) q)).
  - rewrite kept_lin, (share_kept (indicator (near x))). cbn [pow]. ring.
  - intros q _. rewrite <- IH. unfold indicator, always. rewrite (all_ext G w ok _ _ (fun l => (if near x q then 0 else 1) * yes (lone near x l))).
    + rewrite all_scale. destruct (near x q); ring.
    + intros l _. unfold lone. cbn [forallb]. destruct (near x q); cbn [negb andb yes]; ring.
Qed.
Lemma power_kept : forall n c, kept (fun x => (1 - share (indicator (near x))) ^ n * c) = empty n * kept always * c.
Proof using A.
  intros n c. rewrite (kept_ext G w ok mk _ (fun x => c * (1 - share (indicator (near x))) ^ n)) by (intros; ring). rewrite kept_scale, share_kept. unfold empty_prob. ring.
Qed.
Lemma all_iter : forall n F, all n F = iter kept n F.
Proof using. clear A. induction n as [|n IH]; intro F; [reflexivity|]. cbn [repeat Null_spec.kept_all iter]. apply kept_ext. intros p _. apply IH. Qed.
(** The lonely points of a pattern. *)
Lemma picks_mean : forall n, all (S n) (fun l => rsum (picks l) (fun p => yes (lone near (fst p) (snd p)))) = INR (S n) * empty n * kept always ^ S n.
Proof using A.
  intro n. rewrite all_iter.
  rewrite <- (iter_symmetry kept (fun p => ok p = true) (kept_ext G w ok mk) (kept_lin G w ok mk) (fun f => kept_swap G w ok mk mk f) n (fun x l => yes (lone near x l))).
  rewrite (kept_ext G w ok mk _ (fun x => (1 - share (indicator (near x))) ^ n * kept always ^ n)).
  - rewrite power_kept. cbn [pow]. ring.
  - intros x _. rewrite <- all_iter. apply lone_mean.
Qed.
Lemma sum_mean : forall N f, all N (fun l => sum_over l f) = INR N * share f * kept always ^ N.
Proof using A.
  intros N f. induction N as [|N IH]; [unfold sum_over; cbn; ring|]. cbn [repeat Null_spec.kept_all].
  rewrite (kept_ext G w ok mk _ (fun x => (kept always ^ N) * f x + (INR N * share f * kept always ^ N) * always x)).
  - rewrite kept_lin, (share_kept f), S_INR. cbn [pow]. ring.
  - intros x _. rewrite (all_ext G w ok _ _ (fun l => f x * 1 + 1 * sum_over l f)) by (intros l _; rewrite so_cons; ring).
    rewrite (all_lin G w ok _ (f x) 1 (fun _ => 1) (fun l => sum_over l f)), all_power, IH. unfold always. ring.
Qed.
(** The lonely ones among further points. *)
Lemma probes_mean : forall n N, all n (fun l => all N (fun r => sum_over r (fun x => yes (lone near x l)))) = INR N * empty n * kept always ^ (n + N).
Proof using A.
  intros n N. rewrite all_swap.
  rewrite (all_ext G w ok _ _ (fun r => sum_over r (fun x => (1 - share (indicator (near x))) ^ n * kept always ^ n))).
  - rewrite sum_mean. unfold Blocks_spec.share at 1. rewrite power_kept, pow_add. field. exact A.
  - intros r _. rewrite (all_sum G w ok _ pt r (fun x l => yes (lone near x l))). apply so_ext. intros x _. apply lone_mean.
Qed.
Lemma near_range : is_law G w -> forall p, 0 <= share (indicator (near p)) <= 1.
Proof using A. intros LW p. apply share_range; assumption. Qed.
Lemma share_le : is_law G w -> forall f g, (forall p, ok p = true -> f p <= g p) -> share f <= share g.
Proof using A.
  intros LW f g H. destruct (kept_range G w LW mk ok) as [K0 _]. unfold Blocks_spec.share, Rdiv. apply Rmult_le_compat_r; [left; apply Rinv_0_lt_compat; lra|]. apply kept_le; assumption.
Qed.
Lemma share_const : forall c, share (fun _ => c) = c.
Proof using A.
  intro c. unfold Blocks_spec.share. rewrite (kept_ext G w ok mk _ (fun x => c * always x)) by (intros; unfold always; ring). rewrite kept_scale. field. exact A.
Qed.
Lemma share_scale : forall c f, share (fun x => c * f x) = c * share f.
Proof using A. intros c f. unfold Blocks_spec.share. rewrite kept_scale. field. exact A. Qed.
End Means.

(** ** Runs that are functions of the drawn points *)
Lemma staged_mean : forall G w ok, is_law G w -> forall B mks (test : list Q -> run B) (val : B -> R) (stat : list pt -> R) L,
  (forall us l rest, staged ok us mks = Val l rest -> exists x, test us = Val x rest /\ val x = stat l) ->
  (forall us x rest, test us = Val x rest -> exists l, staged ok us mks = Val l rest) ->
  mean G w (2 * L) (fun us => of_run (test us) val) * kept_all G w ok mks (fun _ => 1) = kept_all G w ok mks stat * mean G w (2 * L) (fun us => of_run (test us) always) /\
  mean G w (2 * L) (fun us => of_run (test us) always) = mean G w (2 * L) (fun us => of_run (staged ok us mks) always).
Proof.
  intros G w ok LW B mks test val stat L H1 H2.
  assert (END : mean G w (2 * L) (fun us => of_run (test us) always) = mean G w (2 * L) (fun us => of_run (staged ok us mks) always)).
  { apply mean_ext. intro us. destruct (staged ok us mks) as [l rest|e|] eqn:S1.
    - destruct (H1 us l rest S1) as [x [-> _]]. reflexivity.
    - destruct (test us) as [x rest|e'|] eqn:T1; try reflexivity. destruct (H2 us x rest T1) as [l S2]. congruence.
    - destruct (test us) as [x rest|e'|] eqn:T1; try reflexivity. destruct (H2 us x rest T1) as [l S2]. congruence. }
  split; [|exact END]. rewrite END, (mean_ext G w (2 * L) _ (fun us => of_run (staged ok us mks) stat)).
  - exact (law_joint G w ok LW L mks stat).
  - intro us. destruct (staged ok us mks) as [l rest|e|] eqn:S1.
    + destruct (H1 us l rest S1) as [x [-> X]]. exact X.
    + destruct (test us) as [x rest|e'|] eqn:T1; try reflexivity. destruct (H2 us x rest T1) as [l S2]. congruence.
    + destruct (test us) as [x rest|e'|] eqn:T1; try reflexivity. destruct (H2 us x rest T1) as [l S2]. congruence.
Qed.

(** ** The values of G and F *)
Section Values.
Variables (query : metric -> list pt -> pt -> nat -> row) (dist : metric -> pt -> pt -> Q) (mt : metric) (sup : list Q) (j : nat).
Hypothesis tree_ok : good_tree query dist.
Hypothesis usable : match mt with MName x => x <> "precomputed"%string | MOther _ => False | _ => True end.
Hypothesis sorted : nondecreasing sup.
Hypothesis J : (1 <= j < List.length sup - 1)%nat.
Notation s := (nth j sup 0%Q).
Notation near := (fun p q => Qltb (dist mt p q) s).
(** The support reaches from the smallest to the largest distance. *)
Definition reached (p q : pt) : Prop := (nth 0 sup 0 <= dist mt p q /\ dist mt p q <= nth (List.length sup - 1) sup 0)%Q.
Lemma prepare_sup : forall coords hu r, prepare_hull coords hu = Ok r -> prepare coords (SupArr sup) DNone mt hu false (nnd query coords) = Ok (sup, mt, r).
Proof using usable.
  intros coords hu r H. unfold prepare. rewrite H. cbn [bind is_none andb].
  destruct mt as [x|x|x]; [|reflexivity|destruct usable]. apply String.eqb_neq in usable. rewrite usable. reflexivity.
Qed.
Lemma cdf_share : forall d, d <> [] -> (forall x, In x d -> (nth 0 sup 0 <= x /\ x <= nth (List.length sup - 1) sup 0)%Q) ->
  exists v, cdf d sup = Ok v /\ real_of (nth j v NaN) = INR (count (fun x => Qltb x s) d) / INR (List.length d).
Proof using sorted J.
  intros d D0 R. destruct (cdf_ok d sup sorted) as [v V]. exists v. split; [exact V|].
  destruct (C52_ecdf d sup v D0 ltac:(lia) V R j (count (fun x => Qltb x s) d) J) as [q [Q1 Q2]].
  { apply Counts_filter. intros x _. apply Qltb_lt. }
  rewrite Q1. cbn [real_of]. apply Qeq_eqR in Q2. rewrite Q2R_mult, !Q2R_inject, <- !INR_IZR_INZ in Q2.
  assert (N0 : 0 < INR (List.length d)) by (apply lt_0_INR; destruct d; [congruence|cbn; lia]). rewrite <- Q2. field. lra.
Qed.
Lemma closest_reached : forall (ok : nat -> nat -> Prop) pts qs l, closest (dist mt) ok pts qs l -> (forall p q, In p qs -> In q pts -> reached p q) ->
  forall x, In x l -> (nth 0 sup 0 <= x /\ x <= nth (List.length sup - 1) sup 0)%Q.
Proof using.
  intros ok pts qs l [L C] R x I. apply (In_nth _ _ 0%Q) in I. destruct I as [i [I1 I2]]. rewrite L in I1. destruct (C i I1) as [k [K1 [_ [K2 _]]]].
  rewrite <- I2, K2. apply R; apply nth_In; assumption.
Qed.
(** G: the share of points with another point near. *)
Lemma g_value : forall l, (2 <= List.length l)%nat -> (forall p q, In p l -> In q l -> reached p q) ->
  exists v, g_fun query l (SupArr sup) DNone mt false = Ok (sup, v) /\
    real_of (nth j v NaN) = 1 - rsum (picks l) (fun p => yes (lone near (fst p) (snd p))) / INR (List.length l).
Proof using tree_ok usable sorted J.
  intros l N R. assert (B : exists b, compute_mbb l = Ok b) by (destruct l; [cbn in N; lia|eexists; reflexivity]). destruct B as [b B].
  unfold g_fun. rewrite (prepare_sup l HNone (RBox b)) by (unfold prepare_hull; rewrite B; reflexivity). cbn [bind].
  destruct (other_ok query dist tree_ok mt l l N) as [d D1]. pose proof (other_closest query dist mt l l d tree_ok D1) as C.
  destruct C as [L C].
  destruct (cdf_share d) as [v [V1 V2]].
  { intro X. rewrite X in L. cbn in L. lia. }
  { apply (closest_reached other_number l l d); [split; assumption|exact R]. }
  exists v. split; [unfold g_stat, g_distances, nnd; rewrite D1; cbn [bind]; rewrite V1; reflexivity|]. rewrite V2.
  assert (N0 : 0 < INR (List.length l)) by (apply lt_0_INR; lia). rewrite L.
  rewrite (count_by Q (pt * list pt) (fun x => Qltb x s) (fun p => lone near (fst p) (snd p)) d (picks l) 0%Q ((0%Q, 0%Q), [])); [rewrite picks_len; field; lra|rewrite picks_len; exact L|].
  intros i I. rewrite L in I. destruct (picks_nth pt l i (0%Q, 0%Q) ((0%Q, 0%Q), []) I) as [P1 P2]. rewrite P1. destruct (C i I) as [k [K1 [K2 [K3 K4]]]].
  set (rest := snd (nth i (picks l) _)) in *. destruct (lone near (nth i l (0%Q, 0%Q)) rest) eqn:LO; cbn [negb].
  - rewrite lone_true in LO. specialize (LO (nth k l (0%Q, 0%Q)) (proj2 (P2 _) (ex_intro _ k (conj K1 (conj K2 eq_refl))))). cbv beta in LO. apply Qltb_ge in LO. apply Qltb_ge. rewrite K3. exact LO.
  - apply not_false_is_true. intro F. assert (T : lone near (nth i l (0%Q, 0%Q)) rest = true); [|congruence]. apply lone_true. intros q I2. apply P2 in I2. destruct I2 as [m [M1 [M2 ->]]].
    apply Qltb_ge in F. apply Qltb_ge. rewrite K3 in F. eapply Qle_trans; [exact F|]. apply K4; assumption.
Qed.
(** F: the share of probes with a point near. *)
Lemma f_value : forall l r, l <> [] -> r <> [] -> (forall p q, In p r -> In q l -> reached p q) ->
  exists e v, nearest_distances query mt l r = Ok e /\ f_stat (List.length l) sup DNone e = Ok v /\
    real_of (nth j v NaN) = 1 - sum_over r (fun x => yes (lone near x l)) / INR (List.length r).
Proof using tree_ok sorted J.
  intros l r L0 R0 R. assert (D1 : exists e, nearest_distances query mt l r = Ok e) by (unfold nearest_distances; destruct l; [congruence|eexists; reflexivity]). destruct D1 as [d D1].
  pose proof (nearest_closest query dist mt l r d tree_ok D1) as C. destruct C as [L C].
  destruct (cdf_share d) as [v [V1 V2]].
  { intro X. rewrite X in L. destruct r; [congruence|discriminate L]. }
  { apply (closest_reached any_point l r d); [split; assumption|exact R]. }
  exists d, v. split; [exact D1|]. split; [unfold f_stat, f_distances; cbn [bind]; exact V1|]. rewrite V2.
  assert (N0 : 0 < INR (List.length r)) by (apply lt_0_INR; destruct r; [congruence|cbn; lia]). rewrite L.
  rewrite (count_by Q pt (fun x => Qltb x s) (fun p => lone near p l) d r 0%Q (0%Q, 0%Q)); [unfold rsum, sum_over; field; lra|exact L|].
  intros i I. rewrite L in I. destruct (C i I) as [k [K1 [_ [K3 K4]]]].
  destruct (lone near (nth i r (0%Q, 0%Q)) l) eqn:LO; cbn [negb].
  - rewrite lone_true in LO. specialize (LO (nth k l (0%Q, 0%Q)) (nth_In _ _ K1)). cbv beta in LO. apply Qltb_ge in LO. apply Qltb_ge. rewrite K3. exact LO.
  - apply not_false_is_true. intro F. assert (T : lone near (nth i r (0%Q, 0%Q)) l = true); [|congruence]. apply lone_true. intros q I2. apply (In_nth _ _ (0%Q, 0%Q)) in I2. destruct I2 as [m [M1 <-]].
    apply Qltb_ge in F. apply Qltb_ge. rewrite K3 in F. eapply Qle_trans; [exact F|]. apply K4; [assumption|exact Logic.I].
Qed.
End Values.
