(** The exact permutation distributions behind the space-time tests. *)
From Coq Require Import ZArith QArith List Bool Arith Lia Lqa Permutation Factorial.
From Verif Require Import Base BaseLemmas Spec Quadrat_model Spacetime_model Spacetime_spec Pairs_proofs Spacetime_proofs
  Spacetime2_proofs Hyper_proofs Perms_proofs Spacetime_props KnoxLocal_props Spacetime3_props.
Import ListNotations.
Local Open Scope Q_scope.

Lemma Qnat_mult : forall a b, Qnat (a * b) == Qnat a * Qnat b.
Proof. intros. unfold Qnat. rewrite Nat2Z.inj_mul, inject_Z_mult. reflexivity. Qed.
Lemma Qnat_pos : forall a, (0 < a)%nat -> 0 < Qnat a.
Proof. intros a H. apply Qlt_le_trans with (Qnat 1); [reflexivity|apply Qnat_le; lia]. Qed.
Lemma fact_split2 : forall n, (2 <= n)%nat -> fact n = (n * (n - 1) * fact (n - 2))%nat.
Proof. intros [|[|n]] H; try lia. cbn [Nat.sub]. rewrite Nat.sub_0_r. change (fact (S (S n))) with (S (S n) * (S n * fact n))%nat. ring. Qed.
Lemma fact_split1 : forall n, (1 <= n)%nat -> fact n = (n * fact (n - 1))%nat.
Proof. intros [|n] H; try lia. cbn [Nat.sub]. rewrite Nat.sub_0_r. reflexivity. Qed.
Lemma Qsum_Qnat : forall A (g : A -> nat) l, Qsum (map (fun a => Qnat (g a)) l) == Qnat (list_sum (map g l)).
Proof.
  intros A g. induction l as [|a l IH]; [reflexivity|]. cbn [map Qsum list_sum fold_right]. change (fold_right Qplus 0) with Qsum.
  change (fold_right Init.Nat.add 0%nat) with list_sum. rewrite IH, Qnat_plus. reflexivity.
Qed.
Lemma Qlen_Qnat : forall (l : list Q), Qlen l = Qnat (List.length l).
Proof. reflexivity. Qed.

(** Joint close pairs, summed over all relabellings. *)
Lemma joint_pairs : forall s t delta tau E, List.length s = List.length t -> Enum (seq 0 (List.length s)) E ->
  (2 * list_sum (map (fun r => upper (fun i j => ind (nbst s (permuted t r) delta tau i j)) (List.length s)) E) =
   fact (List.length s - 2) * (2 * upper (fun i j => ind (nb s delta i j)) (List.length s) *
                               (2 * upper (fun i j => ind (nb t tau i j)) (List.length s))))%nat.
Proof.
  intros s t delta tau E L HE. set (n := List.length s) in *.
  assert (T2 : forall f, (forall i, f i i = false) -> (forall i j, f i j = f j i) ->
     total (fun i j => ind (f i j)) n = (2 * upper (fun i j => ind (f i j)) n)%nat).
  { intros f D S. rewrite total_upper by (intros; rewrite S; reflexivity). rewrite diagonal_nb by auto. reflexivity. }
  rewrite <- (T2 (nb s delta)) by (intros; first [apply nb_irrefl|apply nb_sym]).
  rewrite <- (T2 (nb t tau)) by (intros; first [apply nb_irrefl|apply nb_sym]).
  rewrite <- (joint_total n E _ _ HE) by (intros; rewrite nb_irrefl; reflexivity).
  rewrite <- list_sum_scale. apply list_sum_map_ext. intros r R. apply (proj2 HE) in R.
  rewrite <- (T2 (nbst s (permuted t r) delta tau)) by (intros; first [apply nbst_irrefl|apply nbst_sym]).
  unfold total. apply list_sum_map_ext. intros i Hi. apply in_seq in Hi. apply list_sum_map_ext. intros j Hj. apply in_seq in Hj.
  unfold nbst. rewrite nb_permuted by (try rewrite <- L; auto; lia).
  destruct (nb s delta i j), (nb t tau (nth i r 0%nat) (nth j r 0%nat)); reflexivity.
Qed.

(** ** C105: the expected counts are permutation means *)
(** A run with every relabelling once: the mean of st_perm is expected[0,0]. *)
Theorem C105_knox_mean : forall ball, Ball ball -> forall s t delta tau E k,
  Enum (seq 0 (List.length s)) E -> (2 <= List.length s)%nat -> knox_global ball s t delta tau E = Ok k ->
  exists p e sims e00 e01 e10 e11, k_sim k = Some (p, e, sims) /\ k_exp k = Some (e00, e01, e10, e11) /\
    List.length sims = fact (List.length s) /\ Qmean sims == e00.
Proof.
  intros ball HB s t delta tau E k HE N2 H.
  destruct (knox_inv ball HB _ _ _ _ _ _ H) as [L [Sn [Tn [_ [_ [N1 [Nt [_ NP]]]]]]]].
  destruct (proj2 (C63_expected ball HB _ _ _ _ _ _ H) N2) as [e00 [e01 [e10 [e11 [EX [PP [X00 _]]]]]]].
  assert (LE : List.length E = fact (List.length s)).
  { rewrite (enum_length _ E (seq_NoDup _ _) HE), seq_length. reflexivity. }
  assert (SM : exists p e, k_sim k = Some (p, e, map (knox_perm (k_sn k) (k_tn k)) E)).
  { unfold knox_global in H. rewrite L, Nat.eqb_refl in H. injection H as H. subst k. cbn [k_sim k_sn k_tn].
    destruct E as [|r E']; [pose proof (lt_O_fact (List.length s)); simpl in LE; lia|]. do 2 eexists. reflexivity. }
  destruct SM as [p [e SM]]. exists p, e, (map (knox_perm (k_sn k) (k_tn k)) E), e00, e01, e10, e11.
  split; auto. split; auto. split; [rewrite map_length; auto|].
  unfold Qmean. rewrite Qlen_Qnat, map_length, LE.
  rewrite (Qsum_map_ext' _ _ (fun r => Qnat (upper (fun i j => ind (nbst s (permuted t r) delta tau i j)) (List.length s)))).
  2:{ intros r R. rewrite Sn, Tn. apply knox_perm_upper; auto. apply (proj2 HE), R. }
  rewrite Qsum_Qnat. pose proof (joint_pairs s t delta tau E L HE) as J.
  set (u := list_sum (map (fun r => upper (fun i j => ind (nbst s (permuted t r) delta tau i j)) (List.length s)) E)) in *.
  set (a := upper (fun i j => ind (nb s delta i j)) (List.length s)) in *.
  set (b := upper (fun i j => ind (nb t tau i j)) (List.length s)) in *.
  assert (J' : Qnat u == 2 * Qnat (fact (List.length s - 2)) * (Qnat a * Qnat b)).
  { assert (J2 : u = (2 * fact (List.length s - 2) * (a * b))%nat) by lia. rewrite J2, !Qnat_mult. reflexivity. }
  assert (M : Qnat (List.length s - 1) == Qnat (List.length s) - 1).
  { replace (List.length s) with (List.length s - 1 + 1)%nat at 2 by lia. rewrite Qnat_plus. change (Qnat 1) with 1. ring. }
  rewrite J', (fact_split2 _ N2), !Qnat_mult, M.
  pose proof (Qnat_pos _ (lt_O_fact (List.length s - 2))) as PF. pose proof (Qnat_le 2 _ N2) as Q2. change (Qnat 2) with 2 in Q2.
  rewrite N1, Nt in X00. rewrite NP in PP, X00. set (q := Qnat (List.length s)) in *.
  assert (X : Qnat a * Qnat b == e00 * (q * (q - 1) / 2)) by (symmetry; exact X00). rewrite X. field. repeat split; lra.
Qed.
Print Assumptions C105_knox_mean.

(** Table by table: the expected table is the mean of the observed tables of all relabellings. *)
Definition cell (r c : bool) (t : Q * Q * Q * Q) : Q :=
  match r, c, t with
  | false, false, (x, _, _, _) => x
  | false, true, (_, x, _, _) => x
  | true, false, (_, _, x, _) => x
  | true, true, (_, _, _, x) => x
  end.
Theorem C105_table_mean : forall ball, Ball ball -> forall s t delta tau E k kk ex,
  Enum (seq 0 (List.length s)) E -> (2 <= List.length s)%nat -> knox_global ball s t delta tau [] = Ok k ->
  k_exp k = Some ex -> (forall r, In r E -> knox_global ball s (permuted t r) delta tau [] = Ok (kk r)) ->
  forall a b, Qmean (map (fun r => cell a b (k_obs (kk r))) E) == cell a b ex.
Proof.
  intros ball HB s t delta tau E k kk ex HE N2 H HX HK.
  destruct (knox_inv ball HB _ _ _ _ _ _ H) as [L [Sn [Tn [_ [_ [_ [_ [_ NP]]]]]]]].
  destruct (proj1 (proj2 (proj2 (C62_knox_total ball s t delta tau E))) L) as [kE HKE].
  destruct (C105_knox_mean ball HB s t delta tau E kE HE N2 HKE) as [p [e [sims [e00 [e01 [e10 [e11 [SM [EX [LL MM]]]]]]]]]].
  assert (EE : k_exp kE = k_exp k /\ k_sn kE = k_sn k /\ k_tn kE = k_tn k /\ sims = map (knox_perm (k_sn k) (k_tn k)) E).
  { unfold knox_global in H, HKE. rewrite L, Nat.eqb_refl in H, HKE. injection H as H. injection HKE as HKE. subst k kE.
    repeat (split; [reflexivity|]). cbn [k_sim] in SM. destruct E; [discriminate|]. injection SM as _ _ SM. rewrite <- SM. reflexivity. }
  destruct EE as [EE [_ [_ ES]]]. rewrite EE, HX in EX. injection EX as ->.
  destruct (proj2 (C63_expected ball HB _ _ _ _ _ _ H) N2) as [f00 [f01 [f10 [f11 [FX [PP [X00 [X01 [X10 [X11 _]]]]]]]]]].
  rewrite HX in FX. injection FX as <- <- <- <-.
  assert (LE : List.length E = fact (List.length s)).
  { rewrite (enum_length _ E (seq_NoDup _ _) HE), seq_length. reflexivity. }
  assert (PE : 0 < Qnat (List.length E)) by (rewrite LE; apply Qnat_pos, lt_O_fact).
  assert (OB : forall r, In r E -> exists o00 o01 o10 o11, k_obs (kk r) = (o00, o01, o10, o11) /\
     o00 == knox_perm (k_sn k) (k_tn k) r /\ o01 == k_ns k - o00 /\ o10 == k_nt k - o00 /\
     o11 == k_pairs k - k_ns k - k_nt k + o00).
  { intros r R. pose proof (HK r R) as HR.
    destruct (C64_permuted_run ball HB s t delta tau [] k r H (proj1 (proj2 HE r) R)) as [k' [K' [V1 [V2 [V3 _]]]]].
    rewrite HR in K'. injection K' as <-.
    destruct (knox_inv ball HB _ _ _ _ _ _ HR) as [L' [_ [_ [_ [_ [_ [_ [_ NP']]]]]]]].
    assert (OO : k_obs (kk r) = (k_nst (kk r), k_ns (kk r) - k_nst (kk r), k_nt (kk r) - k_nst (kk r),
       k_pairs (kk r) - k_nst (kk r) - (k_ns (kk r) - k_nst (kk r)) - (k_nt (kk r) - k_nst (kk r)))).
    { unfold knox_global in HR. rewrite L', Nat.eqb_refl in HR. injection HR as HR. rewrite <- HR. reflexivity. }
    do 4 eexists. split; [exact OO|]. rewrite NP', <- NP. rewrite V2, V3.
    repeat split; try reflexivity; [symmetry; exact V1|ring]. }
  assert (AV : forall (g : list nat -> Q) (c m : Q), (forall r, In r E -> g r == c + m * knox_perm (k_sn k) (k_tn k) r) ->
     Qmean (map g E) == c + m * e00).
  { intros g c m G. unfold Qmean in *. rewrite Qlen_Qnat, map_length in *. rewrite ES in MM. rewrite map_length in MM.
    rewrite (Qsum_map_ext' _ _ _ _ G). rewrite Qsum_map_plus, Qsum_map_scale, Qsum_map_const.
    change (Qlen E) with (Qnat (List.length E)). rewrite <- MM. field. lra. }
  assert (C01 : e01 == k_ns k - e00). { apply (Qmult_inj_r _ _ (k_pairs k)); [lra|]. rewrite X01. rewrite <- X00 || idtac. assert (Z : (k_ns k - e00) * k_pairs k == k_ns k * k_pairs k - e00 * k_pairs k) by ring. rewrite Z, X00. ring. }
  assert (C10 : e10 == k_nt k - e00). { apply (Qmult_inj_r _ _ (k_pairs k)); [lra|]. rewrite X10. assert (Z : (k_nt k - e00) * k_pairs k == k_nt k * k_pairs k - e00 * k_pairs k) by ring. rewrite Z, X00. ring. }
  assert (C11 : e11 == k_pairs k - k_ns k - k_nt k + e00).
  { apply (Qmult_inj_r _ _ (k_pairs k)); [lra|]. rewrite X11. assert (Z : (k_pairs k - k_ns k - k_nt k + e00) * k_pairs k == (k_pairs k - k_ns k - k_nt k) * k_pairs k + e00 * k_pairs k) by ring. rewrite Z, X00. ring. }
  intros [|] [|]; cbn [cell].
  - rewrite C11. rewrite (AV _ (k_pairs k - k_ns k - k_nt k) 1); [ring|]. intros r R.
    destruct (OB r R) as [o00 [o01 [o10 [o11 [OO [V0 [V1 [V2 V3]]]]]]]]. rewrite OO, V3, V0. ring.
  - rewrite C10. rewrite (AV _ (k_nt k) (-(1))); [ring|]. intros r R.
    destruct (OB r R) as [o00 [o01 [o10 [o11 [OO [V0 [V1 [V2 V3]]]]]]]]. rewrite OO, V2, V0. ring.
  - rewrite C01. rewrite (AV _ (k_ns k) (-(1))); [ring|]. intros r R.
    destruct (OB r R) as [o00 [o01 [o10 [o11 [OO [V0 [V1 [V2 V3]]]]]]]]. rewrite OO, V1, V0. ring.
  - rewrite (AV _ 0 1); [ring|]. intros r R.
    destruct (OB r R) as [o00 [o01 [o10 [o11 [OO [V0 [V1 [V2 V3]]]]]]]]. rewrite OO, V0. ring.
Qed.
Print Assumptions C105_table_mean.

(** modified_knox is centred: over all relabellings its values sum to zero. *)
Definition xval (x : xq) : Q := match x with Fin q => q | _ => 0 end.
Theorem C105_modified_knox_centred : forall s t delta tau E, 0 <= delta -> 0 <= tau -> List.length s = List.length t ->
  (2 <= List.length s)%nat -> Enum (seq 0 (List.length s)) E ->
  (forall r, In r E -> exists v, fst (modified_knox s (permuted t r) delta tau []) = Fin v) /\
  Qsum (map (fun r => xval (fst (modified_knox s (permuted t r) delta tau []))) E) == 0.
Proof.
  intros s t delta tau E Hd Ht L N2 HE. set (n := List.length s) in *.
  assert (V : forall r, In r E -> exists v, fst (modified_knox s (permuted t r) delta tau []) = Fin v /\
     v == Qnat (upper (fun i j => ind (nbst s (permuted t r) delta tau i j)) n) +
          (- / (2 * (Qnat n - 1))) * Qnat (list_sum (map (fun i => (deg s delta i * deg t tau (nth i r 0%nat))%nat) (seq 0 n)))).
  { intros r R. apply (proj2 HE) in R. destruct (perm_facts _ _ R) as [LR [BR _]].
    assert (LP : List.length s = List.length (permuted t r)) by (rewrite permuted_length; auto).
    destruct (mk_value s (permuted t r) delta tau Hd Ht LP N2) as [v [V1 V2]]. exists v. rewrite stat_fst. split; auto.
    rewrite V2. unfold degsum. fold n.
    rewrite (list_sum_map_ext _ _ (fun i => (deg s delta i * deg t tau (nth i r 0%nat))%nat)).
    - assert (Y : 2 <= Qnat n) by (apply (Qnat_le 2); auto). field. lra.
    - intros i Hi. apply in_seq in Hi. rewrite deg_permuted; [reflexivity| |]; rewrite <- L; auto; lia. }
  split; [intros r R; destruct (V r R) as [v [V1 _]]; eauto|].
  rewrite (Qsum_map_ext' _ _ (fun r => Qnat (upper (fun i j => ind (nbst s (permuted t r) delta tau i j)) n) +
          (- / (2 * (Qnat n - 1))) * Qnat (list_sum (map (fun i => (deg s delta i * deg t tau (nth i r 0%nat))%nat) (seq 0 n))))).
  2:{ intros r R. destruct (V r R) as [v [V1 V2]]. rewrite V1. exact V2. }
  rewrite Qsum_map_plus, Qsum_map_scale, !Qsum_Qnat.
  pose proof (joint_pairs s t delta tau E L HE) as J. fold n in J.
  assert (TD : forall c r, List.length c = n -> list_sum (map (deg c r) (seq 0 n)) = (2 * upper (fun i j => ind (nb c r i j)) n)%nat).
  { intros c r Lc. transitivity (total (fun i j => ind (nb c r i j)) n).
    - unfold total, deg. rewrite Lc. reflexivity.
    - rewrite total_upper by (intros; rewrite nb_sym; reflexivity). rewrite diagonal_nb by (intro; apply nb_irrefl). reflexivity. }
  assert (D : list_sum (map (fun r => list_sum (map (fun i => (deg s delta i * deg t tau (nth i r 0%nat))%nat) (seq 0 n))) E) =
     (fact (n - 1) * (2 * upper (fun i j => ind (nb s delta i j)) n * (2 * upper (fun i j => ind (nb t tau i j)) n)))%nat).
  { rewrite list_sum_swap.
    rewrite (list_sum_map_ext _ _ (fun i => ((fact (n - 1) * list_sum (map (deg t tau) (seq 0 n))) * deg s delta i)%nat)).
    - rewrite list_sum_scale. rewrite !TD by auto. ring.
    - intros i Hi. apply in_seq in Hi. rewrite list_sum_scale. rewrite (one_image n E i (deg t tau) HE) by lia. ring. }
  rewrite D. set (u := list_sum (map (fun r => upper (fun i j => ind (nbst s (permuted t r) delta tau i j)) n) E)) in *.
  set (a := upper (fun i j => ind (nb s delta i j)) n) in *. set (b := upper (fun i j => ind (nb t tau i j)) n) in *.
  assert (J' : Qnat u == 2 * Qnat (fact (n - 2)) * (Qnat a * Qnat b)).
  { assert (J2 : u = (2 * fact (n - 2) * (a * b))%nat) by lia. rewrite J2, !Qnat_mult. reflexivity. }
  assert (M : Qnat (n - 1) == Qnat n - 1).
  { replace n with (n - 1 + 1)%nat at 2 by lia. rewrite Qnat_plus. change (Qnat 1) with 1. ring. }
  assert (F1 : fact (n - 1) = ((n - 1) * fact (n - 2))%nat).
  { rewrite (fact_split1 (n - 1)) by lia. replace (n - 1 - 1)%nat with (n - 2)%nat by lia. reflexivity. }
  rewrite J', F1, !Qnat_mult, M. change (Qnat 2) with 2.
  assert (Y : 2 <= Qnat n) by (apply (Qnat_le 2); auto). field. lra.
Qed.
Print Assumptions C105_modified_knox_centred.

(** ** C106: what the two kinds of local p-values are p-values of *)
Definition others (n j : nat) : list nat := filter (fun e => negb (Nat.eqb e j)) (seq 0 n).
Lemma others_in : forall n j x, In x (others n j) <-> (x < n)%nat /\ x <> j.
Proof. intros. unfold others. rewrite filter_In, in_seq, negb_true_iff, Nat.eqb_neq. intuition lia. Qed.
Lemma others_nodup : forall n j, NoDup (others n j).
Proof. intros. apply NoDup_filter, seq_NoDup. Qed.
Lemma psum_perm : forall l l' F, NoDup l -> Permutation l l' -> psum l F = psum l' F.
Proof.
  intros l l' F N P. unfold psum at 1. apply enum_sum.
  - apply (Permutation_NoDup P N).
  - destruct (all_perms_enum l N) as [A B]. split; auto. intro r. rewrite B. split; intro X; eapply perm_trans; eauto. apply Permutation_sym; auto.
Qed.
Lemma sel_others : forall n p, In p (sel (seq 0 n)) -> (fst p < n)%nat /\ Permutation (snd p) (others n (fst p)).
Proof.
  intros n p P. destruct (sel_nodup _ _ (seq_NoDup n 0) P) as [A [B [C D]]]. apply in_seq in C. split; [lia|].
  apply NoDup_Permutation; [auto|apply others_nodup|]. intro x. rewrite D, others_in, in_seq. intuition lia.
Qed.

Section Local.
Variables (ball : list vec -> Q -> nat -> list nat) (HB : Ball ball).
Variables (s t : list vec) (delta tau : Q) (i : nat) (E : list (list nat)).
Hypotheses (HL : List.length s = List.length t) (Hi : (i < List.length s)%nat) (HE : Enum (seq 0 (List.length s)) E).
Let n := List.length s.
Let S := nth i (neighbors ball s delta) [].
Let T := fun j => nth j (neighbors ball t tau) [].
Let N := List.length S.
Let f := fun j e => within tau (row t j) (row t e).
Lemma S_facts : NoDup S /\ ~ In i S /\ (forall x, In x S -> (x < n)%nat) /\ (N <= n - 1)%nat.
Proof using HB Hi.
  clear f T E HE HL.
  assert (A : NoDup S) by apply neighbors_nodup.
  assert (B : forall x, In x S -> (x < n)%nat /\ x <> i).
  { intros x X. apply (neighbors_in ball HB) in X; auto. destruct X as [X1 X2]. unfold nb in X2. apply andb_true_iff in X2.
    rewrite negb_true_iff, Nat.eqb_neq in X2. split; [exact X1|tauto]. }
  split; auto. split; [intro X; apply B in X; lia|]. split; [intros x X; apply B in X; lia|].
  unfold N. rewrite <- (others_length n i Hi). apply NoDup_incl_length; auto. intros x X. apply (others_in n i). apply B, X.
Qed.
Lemma T_within : forall j y, (j < n)%nat -> In y (others n j) -> mem y (T j) = f j y.
Proof.
  intros j y Hj Y. apply others_in in Y. apply eq_true_iff_eq. rewrite mem_iff. unfold T, f.
  rewrite (neighbors_in ball HB) by (rewrite <- HL; exact Hj). unfold nb. rewrite andb_true_iff, negb_true_iff, Nat.eqb_neq, <- HL. tauto.
Qed.
(** Number of relabellings for which a focal event has at least [x] partners. *)
Lemma free_count : forall x, list_sum (map (fun r => ind (Nat.leb x (List.length (filter (fun j => mem j (T (nth i r 0%nat))) (map (fun j => nth j r 0%nat) S))))) E) =
  list_sum (map (fun j => (fact N * fact (n - 1 - N) * count (fun A => Nat.leb x (count (f j) A)) (choose N (others n j)))%nat) (seq 0 n)).
Proof.
  intros x. destruct S_facts as [S1 [S2 [S3 S4]]].
  rewrite (image_sum n E i S (fun y l => ind (Nat.leb x (List.length (filter (fun j => mem j (T y)) l)))) HE Hi S1 S2 S3).
  rewrite <- (sel_sum (seq 0 n) (fun j => (fact N * fact (n - 1 - N) * count (fun A => Nat.leb x (count (f j) A)) (choose N (others n j)))%nat)).
  apply list_sum_map_ext. intros p P. destruct (sel_others n p P) as [P1 P2].
  rewrite (psum_perm _ _ _ (proj1 (sel_nodup _ _ (seq_NoDup n 0) P)) P2).
  rewrite <- (others_length n (fst p) P1). fold (others n (fst p)). rewrite <- psum_at_least.
  - apply psum_ext; [apply others_nodup|]. intros r R. fold N. unfold count. f_equal. f_equal. f_equal.
    apply filter_ext_in. intros y Y. apply T_within; auto. apply (Permutation_in _ R). rewrite <- (firstn_skipn N r). apply in_app_iff. left. exact Y.
  - apply others_nodup.
  - fold (others n (fst p)). unfold others. rewrite others_length by auto. exact S4.
Qed.
Lemma conditional_count : forall x, list_sum (map (fun r => ind (Nat.leb x (local_count (neighbors ball s delta) (neighbors ball t tau) r i))) E) =
  (n * (fact N * fact (n - 1 - N) * count (fun A => Nat.leb x (count (f i) A)) (choose N (others n i))))%nat.
Proof.
  intros x. destruct S_facts as [S1 [S2 [S3 S4]]].
  set (sub := fun v y : nat => if Nat.eqb y i then v else y).
  rewrite (list_sum_map_ext _ _ (fun r => ind (Nat.leb x (count (fun j => mem j (T i)) (map (sub (nth i r 0%nat)) (map (fun j => nth j r 0%nat) S)))))).
  2:{ intros r R. apply (proj2 HE) in R. destruct (perm_facts _ _ R) as [LR _]. unfold local_count. fold S. fold (T i). unfold count. f_equal. f_equal. f_equal. f_equal.
      rewrite map_map. apply map_ext_in. intros j J. rewrite conditional_nth by (try apply S3 in J; unfold n in *; lia).
      destruct (Nat.eqb_spec j i) as [->|D]; [contradiction|]. unfold sub. reflexivity. }
  rewrite (image_sum n E i S (fun v l => ind (Nat.leb x (count (fun j => mem j (T i)) (map (sub v) l)))) HE Hi S1 S2 S3).
  rewrite (list_sum_map_ext _ _ (fun _ => (fact N * fact (n - 1 - N) * count (fun A => Nat.leb x (count (f i) A)) (choose N (others n i)))%nat)).
  { rewrite list_sum_const. rewrite <- (map_length fst), sel_fst, seq_length. reflexivity. }
  intros p P. destruct (sel_others n p P) as [P1 P2]. destruct (sel_nodup _ _ (seq_NoDup n 0) P) as [N1 [N2 [_ N4]]].
  assert (INJ : forall a b, In a (snd p) -> In b (snd p) -> sub (fst p) a = sub (fst p) b -> a = b).
  { intros a b A B. unfold sub. destruct (Nat.eqb_spec a i), (Nat.eqb_spec b i); intro X; subst; auto; contradiction. }
  rewrite (psum_ext _ _ (fun r => (fun q => ind (Nat.leb x (count (f i) (firstn N q)))) (map (sub (fst p)) r))); [|auto|].
  - rewrite (psum_rename (snd p) (others n i) (sub (fst p)) (fun q => ind (Nat.leb x (count (f i) (firstn N q)))) N1 (others_nodup _ _) INJ).
    + rewrite psum_at_least; [|apply others_nodup|unfold others; rewrite others_length by exact Hi; exact S4].
      unfold others at 1. rewrite others_length by exact Hi. reflexivity.
    + apply NoDup_Permutation; [apply NoDup_map_in; auto|apply others_nodup|]. intro y. rewrite in_map_iff, others_in. split.
      * intros [z [Z1 Z2]]. apply N4 in Z2. rewrite in_seq in Z2. unfold sub in Z1. destruct (Nat.eqb_spec z i); subst; lia.
      * intros [Y1 Y2]. destruct (Nat.eq_dec y (fst p)) as [->|D].
        -- exists i. unfold sub. rewrite Nat.eqb_refl. split; auto. apply N4. rewrite in_seq. unfold n. split; [lia|congruence].
        -- exists y. unfold sub. apply Nat.eqb_neq in Y2. rewrite Y2. split; auto. apply N4. rewrite in_seq. split; [lia|auto].
  - intros r R. cbn beta. rewrite firstn_map. fold N. unfold count. f_equal. f_equal. f_equal. apply filter_ext_in. intros y Y.
    apply T_within; [exact Hi|]. apply in_map_iff in Y. destruct Y as [z [Z1 Z2]].
    assert (Z3 : In z (snd p)). { apply (Permutation_in _ R). rewrite <- (firstn_skipn N r). apply in_app_iff. left. exact Z2. }
    apply N4 in Z3. rewrite in_seq in Z3. apply others_in. unfold sub in Z1. destruct (Nat.eqb_spec z i); subst; unfold n in *; lia.
Qed.
End Local.

(** The analytic p-value is the exact p-value of free relabelling: the share of all n!
    assignments of the times for which event i has at least nsti[i] close events. *)
Theorem C106_analytic_exact : forall ball, Ball ball -> forall s t delta tau gperms perms l i E m,
  knox_local ball s t delta tau gperms perms = Ok l -> (i < List.length s)%nat -> (2 <= List.length s)%nat ->
  Enum (seq 0 (List.length s)) E ->
  Counts (fun r => exists c, Card (Near s (permuted t r) delta tau i) c /\ (nth i (l_nsti l) 0 <= c)%nat) E m ->
  nth i (l_p_hg l) 0 * Qnat (fact (List.length s)) == Qnat m.
Proof.
  intros ball HB s t delta tau gperms perms l i E m H Hi N2 HE C.
  destruct (local_inv _ _ _ _ _ _ _ _ H) as [K _]. destruct (knox_inv ball HB _ _ _ _ _ _ K) as [L [Sn _]].
  destruct (C88_hypergeometric ball HB _ _ _ _ _ _ _ _ H Hi N2) as [P _].
  rewrite P, Sn. set (x := nth i (l_nsti l) 0%nat) in *. set (n := List.length s) in *.
  set (N := List.length (nth i (neighbors ball s delta) [])).
  destruct (S_facts ball HB s delta i Hi) as [_ [_ [_ S4]]]. fold n in S4. fold N in S4.
  assert (M : m = list_sum (map (fun r => ind (Nat.leb x (List.length (filter (fun j => mem j (nth (nth i r 0%nat) (neighbors ball t tau) [])) (map (fun j => nth j r 0%nat) (nth i (neighbors ball s delta) [])))))) E)).
  { rewrite <- (count_sum _ (fun r => Nat.leb x (List.length (filter (fun j => mem j (nth (nth i r 0%nat) (neighbors ball t tau) [])) (map (fun j => nth j r 0%nat) (nth i (neighbors ball s delta) [])))))).
    apply (Counts_unique _ _ _ _ _ C). apply Counts_filter. intros r R. apply (proj2 HE) in R. rewrite Nat.leb_le.
    rewrite (perm_count ball HB s t delta tau r i L R Hi).
    assert (CN : exists c, Card (Near s (permuted t r) delta tau i) c).
    { exists (list_sum (map (fun j => ind (nbst s (permuted t r) delta tau i j)) (seq 0 n))).
      exists (filter (nbst s (permuted t r) delta tau i) (seq 0 n)). split; [apply NoDup_filter, seq_NoDup|]. split; [|apply filter_ind].
      intro j. rewrite filter_In, in_seq, near_nbst. fold n. intuition lia. }
    destruct CN as [c0 CN]. split.
    - intro X. exists c0. split; auto. rewrite (card_near _ _ _ _ _ _ CN). exact X.
    - intros [c [C1 C2]]. rewrite <- (card_near _ _ _ _ _ _ C1). exact C2. }
  rewrite M, (free_count ball HB s t delta tau i E L Hi HE x). fold n. fold N.
  unfold Qmean. rewrite Qlen_Qnat, map_length, seq_length. unfold prob_at_least.
  rewrite (Qsum_map_ext' _ _ (fun j => Qnat (count (fun A => Nat.leb x (count (fun e => within tau (row t j) (row t e)) A)) (choose N (others n j))) / Qnat (binom (n - 1) N))).
  2:{ intros j J. apply in_seq in J. fold (others n j). rewrite choose_length. unfold others at 2. rewrite others_length by lia. reflexivity. }
  rewrite Qsum_map_div. change nsum with list_sum. rewrite list_sum_scale.
  rewrite (fact_split1 n) by lia. rewrite <- (fact_binom (n - 1) N S4). rewrite !Qnat_mult.
  pose proof (Qnat_pos _ (binom_pos _ _ S4)). pose proof (Qnat_pos n ltac:(lia)). field. split; lra.
Qed.
Print Assumptions C106_analytic_exact.

(** The permutations of the code keep the time of the focal event: run over all of them,
    the share of counts reaching nsti[i] is one hypergeometric tail, that of nti[i]. *)
Theorem C106_conditional_exact : forall ball, Ball ball -> forall s t delta tau gperms E l i m,
  knox_local ball s t delta tau gperms E = Ok l -> (i < List.length s)%nat ->
  Enum (seq 0 (List.length s)) E ->
  Counts (fun v => (nth i (l_nsti l) 0 <= v)%nat) (nth i (l_sti_perm l) []) m ->
  prob_at_least (others (List.length s) i) (fun e => within tau (row t i) (row t e))
    (List.length (nth i (k_sn (l_knox l)) [])) (nth i (l_nsti l) 0%nat) * Qnat (fact (List.length s)) == Qnat m.
Proof.
  intros ball HB s t delta tau gperms E l i m H Hi HE C.
  destruct (local_inv _ _ _ _ _ _ _ _ H) as [K [_ [SP _]]]. destruct (knox_inv ball HB _ _ _ _ _ _ K) as [L [Sn [Tn _]]].
  rewrite SP, nth_map_seq in C by auto. rewrite Sn, Tn in C. rewrite Sn. set (x := nth i (l_nsti l) 0%nat) in *. set (n := List.length s) in *.
  set (N := List.length (nth i (neighbors ball s delta) [])).
  destruct (S_facts ball HB s delta i Hi) as [_ [_ [_ S4]]]. fold n in S4. fold N in S4.
  assert (M : m = (n * (fact N * fact (n - 1 - N) * count (fun A => Nat.leb x (count (fun e => within tau (row t i) (row t e)) A)) (choose N (others n i))))%nat).
  { pose proof (conditional_count ball HB s t delta tau i E L Hi HE x) as CC. cbv zeta in CC. fold n in CC. fold N in CC. rewrite <- CC. clear CC.
    rewrite <- (count_sum _ (fun r => Nat.leb x (local_count (neighbors ball s delta) (neighbors ball t tau) r i))).
    rewrite <- (count_map _ _ (fun r => local_count (neighbors ball s delta) (neighbors ball t tau) r i) (fun v => Nat.leb x v)).
    apply (Counts_unique _ _ _ _ _ C). apply Counts_filter. intros v _. apply Nat.leb_le. }
  rewrite M. unfold prob_at_least. rewrite choose_length. unfold others at 2. rewrite others_length by auto.
  rewrite (fact_split1 n) by lia. rewrite <- (fact_binom (n - 1) N S4). rewrite !Qnat_mult.
  pose proof (Qnat_pos _ (binom_pos _ _ S4)). field. lra.
Qed.
Print Assumptions C106_conditional_exact.

(** Three events, the first two close in space and time.  Over all six relabellings the
    simulated share for event 0 is 1/2, the analytic p-value is 1/3. *)
Theorem C106_same_null_refuted : exists s t delta tau E l m,
  Enum (seq 0 (List.length s)) E /\ knox_local ball_up s t delta tau [] E = Ok l /\
  Counts (fun v => (nth 0 (l_nsti l) 0 <= v)%nat) (nth 0 (l_sti_perm l) []) m /\
  Qnat m / Qnat (List.length E) == 1 # 2 /\ nth 0 (l_p_hg l) 0 == 1 # 3.
Proof.
  exists [[0;0];[1;0];[9;9]], [[0];[1];[9]], 1, 1, (all_perms (seq 0 3)).
  eexists. exists 3%nat. split; [apply all_perms_enum, seq_NoDup|]. split; [vm_compute; reflexivity|].
  split; [|split; vm_compute; reflexivity].
  match goal with |- Counts ?P ?l 3 => change (Counts P l (List.length (filter (fun v => Nat.leb 1 v) l))) end.
  apply Counts_filter. intros v _. cbn [l_nsti nth]. apply Nat.leb_le.
Qed.
Print Assumptions C106_same_null_refuted.

(** Four events: all 24 relabellings, two close pairs in space and three in time.
    The simulated counts vary between 0 and 2 around the expected 1, and the modified statistic
    is not identically zero. *)
Example C105_case :
  Enum (seq 0 4) (all_perms (seq 0 4)) /\ List.length (all_perms (seq 0 4)) = 24%nat /\
  (exists k p e sims, knox_global ball_down s_ex t_ex 1 1 (all_perms (seq 0 4)) = Ok k /\ k_sim k = Some (p, e, sims) /\
     Qmean sims == 1 /\ existsb (Qeq_bool 0) sims = true /\ existsb (Qeq_bool 2) sims = true) /\
  existsb (fun r => negb (Qeq_bool 0 (xval (fst (modified_knox s_ex (permuted t_ex r) 1 1 []))))) (all_perms (seq 0 4)) = true /\
  Qsum (map (fun r => xval (fst (modified_knox s_ex (permuted t_ex r) 1 1 []))) (all_perms (seq 0 4))) == 0.
Proof.
  split; [apply all_perms_enum, seq_NoDup|]. split; [vm_compute; reflexivity|]. split; [|split; vm_compute; reflexivity].
  eexists. eexists. eexists. eexists. split; [vm_compute; reflexivity|]. split; [vm_compute; reflexivity|]. repeat split; vm_compute; reflexivity.
Qed.
(** Event 1 has one close event; 18 of the 24 relabellings give it at least one, and all 24 when its own time is kept. *)
Example C106_case : exists l, knox_local ball_up s_ex t_ex 1 1 [] (all_perms (seq 0 4)) = Ok l /\
  nth 1 (l_nsti l) 0%nat = 1%nat /\ nth 1 (l_p_hg l) 0 == 3 # 4 /\
  count (fun v => Nat.leb 1 v) (nth 1 (l_sti_perm l) []) = 24%nat.
Proof. eexists. split; [vm_compute; reflexivity|]. repeat split; vm_compute; reflexivity. Qed.
