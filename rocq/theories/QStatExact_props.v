(** When QStatistic with two or more realizations returns. *)
From Coq Require Import ZArith QArith Qround List Bool Lia Lqa.
From Verif Require Import Base BaseLemmas Spec Quadrat_model Quadrat_spec Quadrat_proofs Geometry_model
  Random_model Random_spec Random_proofs QStat_model QStat_proofs Hexagon_proofs Hexagon_grid Hexagon_exact.
Import ListNotations.
Local Open Scope Q_scope.

(** The pattern has an extent in both directions. *)
Definition Extended (pts : list pt) : Prop := spread fst pts /\ spread snd pts.
(** No point of the pattern lies where the hexagon count has no cell. *)
Definition HexInside (l s : Q) (pts : list pt) : Prop :=
  exists h, hex_init pts l s = Ok h /\
    ~ exists p cx cy, In p pts /\ Owns h cx cy p /\
       (((0 <= cx < hx_cols h)%Z /\ cy = rows_of h cx) \/ (cx = hx_cols h /\ (hx_even h <= cy + 1)%Z)).

Lemma Extended_dec : forall pts, Extended pts \/ ~ Extended pts.
Proof.
  assert (D : forall f (l : list pt), spread f l \/ ~ spread f l).
  { intros f l. unfold spread.
    assert (B : forall q l', (exists p, In p l' /\ f p < f q) \/ ~ (exists p, In p l' /\ f p < f q)).
    { intros q l'. induction l' as [|a l' IH]; [right; intros [p [[] _]]|].
      destruct (Qlt_le_dec (f a) (f q)) as [X|X]; [left; exists a; split; [left|]; auto|].
      destruct IH as [[p [P1 P2]]|N]; [left; exists p; split; [right|]; auto|].
      right. intros [p [[<-|P1] P2]]; [lra|]. apply N. eauto. }
    assert (C : forall l', (exists p q, In p l /\ In q l' /\ f p < f q) \/ ~ (exists p q, In p l /\ In q l' /\ f p < f q)).
    { induction l' as [|a l' IH]; [right; intros [p [q [_ [[] _]]]]|].
      destruct (B a l) as [[p [P1 P2]]|N]; [left; exists p, a; split; auto; split; [left|]; auto|].
      destruct IH as [[p [q [P1 [P2 P3]]]]|N']; [left; exists p, q; split; auto; split; [right|]; auto|].
      right. intros [p [q [P1 [[<-|P2] P3]]]]; [apply N; eauto|apply N'; eauto 6]. }
    apply C. }
  intro pts. unfold Extended. destruct (D fst pts), (D snd pts); tauto.
Qed.
Lemma spread_nonempty : forall f l, spread f l -> l <> [].
Proof. intros f l [p [_ [P _]]] ->. destruct P. Qed.

Lemma rect_iff : forall pts cc cr rw rh, valid_grid cc cr rw rh ->
  (exists r d, rect_init pts cc cr rw rh = Ok r /\ rect_location_sta r = Ok d /\ (1 <= rm_cols r)%Z /\ (1 <= rm_rows r)%Z) /\ Extended pts \/
  ~ Extended pts /\ forall r d, rect_init pts cc cr rw rh = Ok r -> rect_location_sta r <> Ok d.
Proof.
  intros pts cc cr rw rh V. destruct (Extended_dec pts) as [E|E].
  - left. split; auto. destruct E as [Sx Sy]. destruct (rect_init_fits pts cc cr rw rh Sx Sy V)
      as [r [cw [ch [H1 [H2 [H3 [H4 [H5 [H6 [H7 [H8 [H9 [H10 _]]]]]]]]]]]]].
    destruct (rect_count_main r cw ch) as [d [Hd _]]; auto; try (rewrite H2; auto).
    exists r, d. split; auto. split; auto. destruct H9 as [X _]. destruct H10 as [Y _]. auto.
  - right. split; auto. intros r d Hr Hd. destruct pts as [|p pts]; [discriminate|].
    destruct (rect_degenerate (p :: pts) cc cr rw rh ltac:(discriminate) V E) as [r' [e [H1 [H2 _]]]].
    congruence.
Qed.
Lemma hex_iff : forall pts l s, 0 < l -> 0 < s ->
  (exists h d, hex_init pts l s = Ok h /\ hex_location_sta h = Ok d) <-> HexInside l s pts.
Proof.
  intros pts l s Hl Hs. split.
  - intros [h [d [H D]]]. exists h. split; auto. intro B. destruct (C46_exact pts l s h H Hl Hs) as [E _]. apply E in B. congruence.
  - intros [h [H N]]. destruct (C46_exact pts l s h H Hl Hs) as [E F]. destruct F as [d [D _]]; [rewrite E; auto|]. eauto.
Qed.

Lemma extended_two : forall pts, Extended pts -> (2 <= List.length pts)%nat.
Proof.
  intros pts [[p [q [P [Q L]]]] _]. destruct pts as [|a [|b l]]; [destruct P| |simpl; lia].
  destruct P as [<-|[]]. destruct Q as [<-|[]]. lra.
Qed.

Section Draw.
Variables (pts : list pt) (R : Z) (w : hull) (us rest : list Q) (reals : arr).
Hypothesis HR : (2 <= R)%Z.
Hypothesis HA : ~ h_area w == 0.
Hypothesis HP : poisson w (Some (Qlen pts / h_area w)) (SInt R) us = Val reals rest.

Lemma drawn_size : Qtrunc (Qlen pts / h_area w * h_area w) = Z.of_nat (List.length pts).
Proof.
  assert (E : Qlen pts / h_area w * h_area w == Qlen pts) by (field; auto).
  rewrite Qtrunc_nonneg.
  - rewrite (Qfloor_comp _ _ E). unfold Qlen. apply Qfloor_Z.
  - rewrite E. unfold Qlen. apply inject_Z_nonneg. lia.
Qed.
Lemma draw_shape : exists d, holds_replications reals d (List.length pts) (Z.to_nat R) /\
  ((2 <= List.length pts)%nat -> forall i, (i < Z.to_nat R)%nat -> exists l, nth_error d i = Some l /\ sub_pattern reals i = Ok l).
Proof.
  destruct (poisson_inv _ _ _ _ _ _ HP) as [n [s [it [dd [P1 [A [B [P2 P3]]]]]]]].
  simpl in P1. inversion P1; subst n s it. clear P1. rewrite drawn_size, Nat2Z.id in P2, P3.
  apply (replicate_sound (fun l => List.length l = List.length pts)) in P2.
  2:{ intros us0 l0 rest0 X. apply reject_sound in X. tauto. }
  destruct P2 as [L F1]. exists dd. rewrite P3. split; [apply squeeze_holds; auto|].
  intros L2 i Hi. unfold squeeze. destruct (Nat.eqb_spec (Z.to_nat R) 1); [lia|].
  destruct (Nat.eqb_spec (List.length pts) 1); [lia|]. cbn [sub_pattern].
  destruct (nth_error dd i) as [l|] eqn:NE; [|apply nth_error_None in NE; lia].
  exists l. split; auto. pose proof (nth_error_Forall _ _ _ _ _ F1 NE) as Ll. cbn beta in Ll. destruct l; [simpl in Ll; lia|reflexivity].
Qed.

(** The loop over the realizations. *)
Lemma sims_ok : forall (m : manager) (good : list pt -> Prop) d, (2 <= List.length pts)%nat ->
  holds_replications reals d (List.length pts) (Z.to_nat R) ->
  (forall i, (i < Z.to_nat R)%nat -> exists l, nth_error d i = Some l /\ sub_pattern reals i = Ok l) ->
  (forall l, List.length l = List.length pts -> (good l <-> exists m' dd, sim_manager m l = Ok m' /\ manager_sta m' = Ok dd)) ->
  ((exists sims, mapM (sim_chi2 m reals) (seq 0 (Z.to_nat R)) = Ok sims) <-> forall l, In l d -> good l).
Proof.
  intros m good d L2 [HR1 [HR2 _]] Hsub Hg. rewrite Forall_forall in HR2. split.
  - intros [sims M] l Hl. apply In_nth_error in Hl. destruct Hl as [i Hi].
    assert (Li : (i < Z.to_nat R)%nat) by (rewrite <- HR1; apply nth_error_Some; congruence).
    apply mapM_ok in M. destruct M as [_ M].
    assert (X : exists y, sim_chi2 m reals i = Ok y).
    { assert (I : In i (seq 0 (Z.to_nat R))) by (apply in_seq; lia). revert I. clear - M. intro I.
      induction M; [destruct I|]. destruct I as [<-|I]; eauto. }
    destruct X as [y X]. destruct (Hsub i Li) as [l' [N1 N2]]. assert (l' = l) by congruence. subst l'.
    unfold sim_chi2 in X. rewrite N2 in X. cbn [bind] in X. apply bind_ok in X. destruct X as [m' [X1 X2]].
    apply bind_ok in X2. destruct X2 as [dd [X2 _]]. apply Hg; eauto. apply HR2. eapply nth_error_In; eauto.
  - intros G. apply mapM_total. intros i Hi. apply in_seq in Hi. destruct (Hsub i ltac:(lia)) as [l [N1 N2]].
    assert (Hl : In l d) by (eapply nth_error_In; eauto). specialize (G l Hl). apply Hg in G; auto. destruct G as [m' [dd [X1 X2]]].
    unfold sim_chi2. rewrite N2. cbn [bind]. rewrite X1. cbn [bind]. rewrite X2. cbn [bind]. eauto.
Qed.

Lemma qstat_when : forall shape nx ny rw rh lh sh, 
  (exists q, qstatistic pts shape nx ny rw rh lh sh R w us = Val q rest) <->
  exists m d sims, make_manager pts shape nx ny rw rh lh sh = Ok m /\ manager_sta m = Ok d /\
    mapM (sim_chi2 m reals) (seq 0 (Z.to_nat R)) = Ok sims.
Proof.
  intros shape nx ny rw rh lh sh. unfold qstatistic. split.
  - intros [q H]. destruct (make_manager _ _ _ _ _ _ _ _) as [m|]; [|discriminate]. cbn [lift rbind] in H.
    destruct (manager_sta m) as [d|] eqn:D; [|discriminate]. cbn [lift rbind] in H.
    destruct (0 <? R)%Z eqn:E; qb; [|lia]. destruct (Qeq_bool (h_area w) 0) eqn:E2; qb; [tauto|].
    rewrite HP in H. cbn [rbind] in H. destruct (mapM _ _) as [sims|] eqn:M; [|discriminate]. eauto 8.
  - intros [m [d [sims [-> [D M]]]]]. cbn [lift rbind]. rewrite D. cbn [lift rbind].
    destruct (0 <? R)%Z eqn:E; qb; [|lia]. destruct (Qeq_bool (h_area w) 0) eqn:E2; qb; [tauto|].
    rewrite HP. cbn [rbind]. rewrite M. cbn [lift rbind]. eauto.
Qed.
End Draw.

(** ** C50 *)
(** Rectangles: it returns iff the observed and every simulated pattern have an extent in both directions. *)
Theorem C50_rectangle : forall pts nx ny rw rh lh sh R w us reals rest,
  (2 <= R)%Z -> ~ h_area w == 0 -> valid_grid nx ny rw rh ->
  poisson w (Some (Qlen pts / h_area w)) (SInt R) us = Val reals rest ->
  exists d, holds_replications reals d (List.length pts) (Z.to_nat R) /\
    ((exists q, qstatistic pts ShRect nx ny rw rh lh sh R w us = Val q rest) <->
     Extended pts /\ forall l, In l d -> Extended l).
Proof.
  intros pts nx ny rw rh lh sh R w us reals rest HR HA V HP.
  destruct (draw_shape pts R w us rest reals HR HA HP) as [d [Hd Hsub]]. exists d. split; auto.
  rewrite (qstat_when pts R w us rest reals HR HA HP).
  destruct (rect_iff pts nx ny rw rh V) as [[[r [dd [H1 [H2 [H3 H4]]]]] E]|[E N]].
  - pose proof (extended_two pts E) as L2. unfold make_manager. rewrite H1. cbn [bind].
    assert (G : forall l, List.length l = List.length pts -> (Extended l <-> exists m' dd, sim_manager (MRect r) l = Ok m' /\ manager_sta m' = Ok dd)).
    { intros l _. assert (V' : valid_grid (rm_cols r) (rm_rows r) 0 0) by (right; split; [left; reflexivity|auto]).
      unfold sim_manager. destruct (rect_iff l _ _ 0 0 V') as [[[r' [d' [X1 [X2 _]]]] E']|[E' N']].
      - split; auto. intros _. rewrite X1. cbn [bind]. exists (MRect r'), d'. auto.
      - split; [contradiction|]. intros [m' [d' [Y1 Y2]]]. exfalso. destruct (rect_init l _ _ 0 0) as [r'|] eqn:Z1; [|discriminate].
        cbn [bind] in Y1. injection Y1 as <-. cbn [manager_sta] in Y2. eapply N'; eauto. }
    pose proof (sims_ok pts R reals (MRect r) Extended d L2 Hd (Hsub L2) G) as S. split.
    + intros [m [d0 [sims [M1 [M2 M3]]]]]. injection M1 as <-. split; auto. apply S. eauto.
    + intros [_ F]. apply S in F. destruct F as [sims F]. exists (MRect r), dd, sims. auto.
  - split; [|tauto]. intros [m [d0 [sims [M1 [M2 _]]]]]. exfalso. unfold make_manager in M1.
    destruct (rect_init pts nx ny rw rh) as [r|] eqn:Z1; [|discriminate]. cbn [bind] in M1. injection M1 as <-. eapply N; eauto.
Qed.
Print Assumptions C50_rectangle.

(** Hexagons: it returns iff no point of the observed or a simulated pattern (of at least two points) lies where there is no cell. *)
Theorem C50_hexagon : forall pts nx ny rw rh lh sh R w us reals rest,
  (2 <= R)%Z -> ~ h_area w == 0 -> 0 < lh -> 0 < sh -> (2 <= List.length pts)%nat ->
  poisson w (Some (Qlen pts / h_area w)) (SInt R) us = Val reals rest ->
  exists d, holds_replications reals d (List.length pts) (Z.to_nat R) /\
    ((exists q, qstatistic pts ShHex nx ny rw rh lh sh R w us = Val q rest) <->
     HexInside lh sh pts /\ forall l, In l d -> HexInside lh sh l).
Proof.
  intros pts nx ny rw rh lh sh R w us reals rest HR HA Hl Hs L2 HP.
  destruct (draw_shape pts R w us rest reals HR HA HP) as [d [Hd Hsub]]. exists d. split; auto.
  rewrite (qstat_when pts R w us rest reals HR HA HP).
  rewrite <- (hex_iff pts lh sh Hl Hs). unfold make_manager. 
  destruct (hex_init pts lh sh) as [h|e] eqn:H1; cbn [bind].
  - destruct (hex_init_inv _ _ _ _ H1) as [_ [El [Es _]]].
    assert (G : forall l, List.length l = List.length pts -> (HexInside lh sh l <-> exists m' dd, sim_manager (MHex h) l = Ok m' /\ manager_sta m' = Ok dd)).
    { intros l _. rewrite <- (hex_iff l lh sh Hl Hs). unfold sim_manager. rewrite El, Es. split.
      - intros [h' [d' [X1 X2]]]. rewrite X1. cbn [bind]. exists (MHex h'), d'. auto.
      - intros [m' [d' [Y1 Y2]]]. destruct (hex_init l lh sh) as [h'|] eqn:Z1; [|discriminate].
        cbn [bind] in Y1. injection Y1 as <-. eauto. }
    pose proof (sims_ok pts R reals (MHex h) (HexInside lh sh) d L2 Hd (Hsub L2) G) as S. split.
    + intros [m [d0 [sims [M1 [M2 M3]]]]]. injection M1 as <-. split; [eauto|]. apply S. eauto.
    + intros [[h' [d' [X1 X2]]] F]. injection X1 as <-. apply S in F. destruct F as [sims F]. exists (MHex h), d', sims. auto.
  - split; [intros [m [d0 [sims [M1 _]]]]; discriminate|]. intros [[h' [d' [X1 _]]] _]. discriminate.
Qed.
Print Assumptions C50_hexagon.

(** When it returns there is one simulated statistic per realization. *)
Theorem C50_number : forall pts shape nx ny rw rh lh sh R w us q rest, (1 <= R)%Z ->
  qstatistic pts shape nx ny rw rh lh sh R w us = Val q rest ->
  exists sims, q_sims q = Some sims /\ List.length sims = Z.to_nat R.
Proof.
  intros pts shape nx ny rw rh lh sh R w us q rest HR H. unfold qstatistic in H.
  apply rbind_val in H. destruct H as [m [us1 [_ H]]]. apply rbind_val in H. destruct H as [d [us2 [_ H]]].
  destruct (0 <? R)%Z eqn:E; qb; [|lia]. destruct (Qeq_bool _ _); [discriminate|].
  apply rbind_val in H. destruct H as [reals [us3 [_ H]]]. apply rbind_val in H. destruct H as [sims [us4 [M H]]].
  apply lift_val in M. destruct M as [M _]. injection H as <- _. exists sims. split; [reflexivity|].
  apply mapM_ok in M. rewrite (proj1 M). apply seq_length.
Qed.
Print Assumptions C50_number.

(** Three points with an extent, two simulated patterns; the second one is flat in the
    second run, which raises although the first succeeds. *)
Example C50_exact_case :
  let pts := [(0,0); (3,0); (1,2)] in let w := bbox_hull (mkbox 0 0 3 3) in
  (exists q, qstatistic pts ShRect 2 2 0 0 1 1 2 w [0;0; 1#2;1#3; 1#4;1#5; 1#3;1#3; 1#2;1#4; 1#5;1#6] = Val q []) /\
  qstatistic pts ShRect 2 2 0 0 1 1 2 w [0;0; 1#2;1#3; 1#4;1#5; 1#3;1#3; 1#2;1#3; 1#5;1#3] = Exc ValueError.
Proof. split; [eexists|]; vm_compute; reflexivity. Qed.

(** Any other shape is rejected, whatever the other arguments. *)
Theorem C50_unknown_shape : forall pts nx ny rw rh lh sh r w us,
  qstatistic pts ShOther nx ny rw rh lh sh r w us = Exc ValueError.
Proof. reflexivity. Qed.
Print Assumptions C50_unknown_shape.
