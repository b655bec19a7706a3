(** The permutation variance of the Knox statistic: property C151. *)
From Coq Require Import ZArith QArith List Bool Arith Lia Lqa Permutation Factorial.
From Verif Require Import Base BaseLemmas Spec Quadrat_model Spacetime_model Spacetime_spec Pairs_proofs Spacetime_proofs
  Spacetime2_proofs Hyper_proofs Perms_proofs Spacetime_props Spacetime3_props PermLaw_props Knoxvar_proofs.
Import ListNotations.
Local Open Scope Q_scope.

(** The sums of the numbers [d i] of close events over the [n] events, and of their squares. *)
Definition degrees (d : nat -> nat) (n : nat) : Q := Qnat (list_sum (map d (seq 0 n))).
Definition degrees2 (d : nat -> nat) (n : nat) : Q := Qnat (list_sum (map (fun i => (d i * d i)%nat) (seq 0 n))).
(** Ordered pairs of different neighbours of one event; ordered pairs of close pairs
    without a common event (each pair in both orders). *)
Definition forks (d : nat -> nat) (n : nat) : Q := degrees2 d n - degrees d n.
Definition apart (d : nat -> nat) (n : nat) : Q := degrees d n * degrees d n + 2 * degrees d n - 4 * degrees2 d n.
Definition second (ds dt : nat -> nat) (n : nat) : Q :=
  let q := Qnat n in
  (apart ds n * apart dt n / (q * (q - 1) * (q - 2) * (q - 3)) + 4 * (forks ds n * forks dt n) / (q * (q - 1) * (q - 2)) +
   2 * (degrees ds n * degrees dt n) / (q * (q - 1))) / 4.
Definition variance (m : Q) (l : list Q) : Q := Qmean (map (fun x => (x - m) * (x - m)) l).

Lemma Qnat_sub : forall n k, (k <= n)%nat -> Qnat (n - k) == Qnat n - Qnat k.
Proof. intros n k H. replace n with (n - k + k)%nat at 2 by lia. rewrite Qnat_plus. ring. Qed.
Lemma fact_split3 : forall n, (3 <= n)%nat -> fact n = (n * (n - 1) * (n - 2) * fact (n - 3))%nat.
Proof. intros n H. rewrite (fact_split2 n) by lia. rewrite (fact_split1 (n - 2)) by lia. replace (n - 2 - 1)%nat with (n - 3)%nat by lia. ring. Qed.
Lemma fact_split4 : forall n, (4 <= n)%nat -> fact n = (n * (n - 1) * (n - 2) * (n - 3) * fact (n - 4))%nat.
Proof. intros n H. rewrite (fact_split3 n) by lia. rewrite (fact_split1 (n - 3)) by lia. replace (n - 3 - 1)%nat with (n - 4)%nat by lia. ring. Qed.
Lemma variance_moments : forall m l, l <> [] -> Qmean l == m -> variance m l == Qmean (map (fun x => x * x) l) - m * m.
Proof.
  intros m l NE M. unfold variance, Qmean in *. unfold Qlen in *. rewrite !map_length.
  assert (P : 0 < inject_Z (Z.of_nat (List.length l))) by (apply (Qnat_pos (List.length l)); destruct l; [contradiction|cbn; lia]).
  assert (S1 : Qsum l == m * inject_Z (Z.of_nat (List.length l))) by (rewrite <- M; field; lra).
  assert (S2 : forall q, Qsum (map (fun x => (x - m) * (x - m)) q) == Qsum (map (fun x => x * x) q) - 2 * m * Qsum q + m * m * inject_Z (Z.of_nat (List.length q))).
  { induction q as [|x q IH]; [cbn; ring|]. cbn [map Qsum fold_right]. change (fold_right Qplus 0) with Qsum. rewrite IH. cbn [List.length]. rewrite Nat2Z.inj_succ, <- Z.add_1_r, inject_Z_plus. change (inject_Z 1) with 1. ring. }
  rewrite S2, S1. field. lra.
Qed.

Section Core.
Variables (ball : list vec -> Q -> nat -> list nat) (s t : list vec) (delta tau : Q) (E : list (list nat)) (k : knox_out).
Hypothesis HB : Ball ball.
Notation n := (List.length s).
Hypothesis HE : Enum (seq 0 n) E.
Hypothesis N4 : (4 <= n)%nat.
Hypothesis H : knox_global ball s t delta tau E = Ok k.

Lemma matrix_sums : forall c r, tot (fun i j => ind (nb c r i j)) (seq 0 (List.length c)) = list_sum (map (deg c r) (seq 0 (List.length c))) /\
  squares (fun i j => ind (nb c r i j)) (seq 0 (List.length c)) = list_sum (map (deg c r) (seq 0 (List.length c))) /\
  degs2 (fun i j => ind (nb c r i j)) (seq 0 (List.length c)) = list_sum (map (fun i => (deg c r i * deg c r i)%nat) (seq 0 (List.length c))).
Proof using.
  intros c r. split; [reflexivity|]. split; [|reflexivity]. unfold squares. apply list_sum_map_ext. intros i _. apply list_sum_map_ext. intros j _. destruct (nb c r i j); reflexivity.
Qed.
Lemma arr_values : forall c r,
  Qnat (arr_sum 3 (seq 0 (List.length c)) (w3 (fun i j => ind (nb c r i j)))) == forks (deg c r) (List.length c) /\
  Qnat (arr_sum 4 (seq 0 (List.length c)) (w4 (fun i j => ind (nb c r i j)))) == apart (deg c r) (List.length c).
Proof using.
  intros c r. destruct (matrix_sums c r) as [M1 [M2 M3]].
  assert (SY : forall i j, ind (nb c r i j) = ind (nb c r j i)) by (intros; rewrite nb_sym; reflexivity).
  assert (LO : forall i, ind (nb c r i i) = 0%nat) by (intros; rewrite nb_irrefl; reflexivity).
  pose proof (arr_w3 (fun i j => ind (nb c r i j)) SY LO (seq 0 (List.length c))) as A3.
  pose proof (arr_w4 (fun i j => ind (nb c r i j)) SY LO (seq 0 (List.length c))) as A4.
  rewrite M2, M3 in A3. rewrite M1, M2, M3 in A4. apply (f_equal Qnat) in A3. apply (f_equal Qnat) in A4.
  unfold forks, apart, degrees, degrees2. split.
  - assert (X : Qnat (arr_sum 3 (seq 0 (List.length c)) (w3 (fun i j => ind (nb c r i j)))) + Qnat (list_sum (map (deg c r) (seq 0 (List.length c)))) == Qnat (list_sum (map (fun i => (deg c r i * deg c r i)%nat) (seq 0 (List.length c))))) by (rewrite <- Qnat_plus, A3; reflexivity).
    lra.
  - assert (X : Qnat (arr_sum 4 (seq 0 (List.length c)) (w4 (fun i j => ind (nb c r i j)))) + 4 * Qnat (list_sum (map (fun i => (deg c r i * deg c r i)%nat) (seq 0 (List.length c)))) ==
      Qnat (list_sum (map (deg c r) (seq 0 (List.length c)))) * Qnat (list_sum (map (deg c r) (seq 0 (List.length c)))) + 2 * Qnat (list_sum (map (deg c r) (seq 0 (List.length c))))).
    { change 4 with (Qnat 4). change 2 with (Qnat 2). rewrite <- !Qnat_mult, <- !Qnat_plus, A4. reflexivity. }
    rewrite <- X. ring.
Qed.
Lemma core : exists p e sims e00 e01 e10 e11, k_sim k = Some (p, e, sims) /\ k_exp k = Some (e00, e01, e10, e11) /\ List.length sims = fact n /\
  e00 == degrees (deg s delta) n * degrees (deg t tau) n / (2 * (Qnat n * (Qnat n - 1))) /\
  variance e00 sims == second (deg s delta) (deg t tau) n - e00 * e00.
Proof using HB HE N4 H.
  destruct (C105_knox_mean ball HB s t delta tau E k HE ltac:(lia) H) as [p [e [sims [e00 [e01 [e10 [e11 [SM [EX [LL MM]]]]]]]]]].
  exists p, e, sims, e00, e01, e10, e11. split; [exact SM|]. split; [exact EX|]. split; [exact LL|].
  destruct (knox_inv ball HB _ _ _ _ _ _ H) as [L [Sn [Tn [_ [_ [N1 [Nt [_ NP]]]]]]]].
  destruct (proj2 (C63_expected ball HB _ _ _ _ _ _ H) ltac:(lia)) as [f00 [f01 [f10 [f11 [FX [PP [X00 _]]]]]]]. rewrite EX in FX. injection FX as <- <- <- <-.
  assert (T2 : forall c r, Qnat (upper (fun i j => ind (nb c r i j)) (List.length c)) == degrees (deg c r) (List.length c) / 2).
  { intros c r. rewrite <- half_total by (intros; first [apply nb_irrefl|apply nb_sym]). reflexivity. }
  assert (TT : Qnat (upper (fun i j => ind (nb t tau i j)) n) == degrees (deg t tau) n / 2) by (rewrite L; apply T2).
  assert (Q4 : 4 <= Qnat n) by (apply (Qnat_le 4 n N4)).
  split.
  - rewrite N1, Nt, NP in X00. rewrite (T2 s delta), TT in X00.
    rewrite NP in PP. assert (Y : e00 == e00 * (Qnat n * (Qnat n - 1) / 2) / (Qnat n * (Qnat n - 1) / 2)) by (field; split; lra). rewrite Y, X00. field. split; lra.
  - assert (SIM : sims = map (knox_perm (k_sn k) (k_tn k)) E).
    { unfold knox_global in H. rewrite L, Nat.eqb_refl in H. injection H as <-. cbn [k_sim k_sn k_tn] in *. destruct E as [|r E']; [discriminate SM|]. injection SM as _ _ SM. symmetry. exact SM. }
    rewrite variance_moments; [|intro X; rewrite X in LL; pose proof (lt_O_fact n); cbn in LL; lia|exact MM]. apply Qplus_comp; [|reflexivity].
    unfold Qmean. rewrite Qlen_Qnat, map_length, LL, SIM, map_map.
    set (f := fun i j => ind (nb s delta i j)). set (g := fun i j => ind (nb t tau i j)).
    rewrite (Qsum_map_ext' _ _ (fun r => (1 # 4) * Qnat (tot (fun i j => (f i j * g (nth i r 0) (nth j r 0))%nat) (seq 0 n) * tot (fun i j => (f i j * g (nth i r 0) (nth j r 0))%nat) (seq 0 n)))).
    2:{ intros r R. rewrite Sn, Tn. pose proof (proj1 (proj2 HE r) R) as P. rewrite (knox_perm_upper ball HB s t delta tau r L P), <- half_total by (intros; first [apply nbst_irrefl|apply nbst_sym]).
        assert (TE : total (fun i j => ind (nbst s (permuted t r) delta tau i j)) n = tot (fun i j => (f i j * g (nth i r 0) (nth j r 0))%nat) (seq 0 n)).
        { unfold total, tot, dg. apply list_sum_map_ext. intros i Hi. apply in_seq in Hi. apply list_sum_map_ext. intros j Hj. apply in_seq in Hj.
          unfold nbst, f, g. rewrite nb_permuted by (try rewrite <- L; auto; lia). destruct (nb s delta i j), (nb t tau (nth i r 0%nat) (nth j r 0%nat)); reflexivity. }
        rewrite TE, Qnat_mult. field. }
    rewrite Qsum_map_scale, Qsum_Qnat.
    rewrite (second_moment n E f g HE) by (intros; unfold f, g; first [rewrite nb_irrefl; reflexivity|rewrite nb_sym; reflexivity]).
    destruct (arr_values s delta) as [F3 F4]. destruct (arr_values t tau) as [G3 G4]. rewrite <- L in G3, G4. destruct (matrix_sums s delta) as [_ [FS _]]. destruct (matrix_sums t tau) as [_ [GS _]]. rewrite <- L in GS.
    fold f in F3, F4, FS. fold g in G3, G4, GS. rewrite FS, GS. rewrite !Qnat_plus, !Qnat_mult, F3, F4, G3, G4.
    change (Qnat (list_sum (map (deg s delta) (seq 0 n)))) with (degrees (deg s delta) n). change (Qnat (list_sum (map (deg t tau) (seq 0 n)))) with (degrees (deg t tau) n).
    change (Qnat 4) with 4. change (Qnat 2) with 2.
    assert (I2 : Qnat (fact (n - 2)) / Qnat (fact n) == 1 / (Qnat n * (Qnat n - 1))).
    { rewrite (fact_split2 n) by lia. rewrite !Qnat_mult, (Qnat_sub n 1) by lia. change (Qnat 1) with 1. pose proof (Qnat_pos _ (lt_O_fact (n - 2))). field. repeat split; lra. }
    assert (I3 : Qnat (fact (n - 3)) / Qnat (fact n) == 1 / (Qnat n * (Qnat n - 1) * (Qnat n - 2))).
    { rewrite (fact_split3 n) by lia. rewrite !Qnat_mult, (Qnat_sub n 1), (Qnat_sub n 2) by lia. change (Qnat 1) with 1. change (Qnat 2) with 2. pose proof (Qnat_pos _ (lt_O_fact (n - 3))). field. repeat split; lra. }
    assert (I4 : Qnat (fact (n - 4)) / Qnat (fact n) == 1 / (Qnat n * (Qnat n - 1) * (Qnat n - 2) * (Qnat n - 3))).
    { rewrite (fact_split4 n) by lia. rewrite !Qnat_mult, (Qnat_sub n 1), (Qnat_sub n 2), (Qnat_sub n 3) by lia. change (Qnat 1) with 1. change (Qnat 2) with 2. change (Qnat 3) with 3. pose proof (Qnat_pos _ (lt_O_fact (n - 4))). field. repeat split; lra. }
    pose proof (Qnat_pos _ (lt_O_fact n)) as FP.
    set (a4 := apart (deg s delta) n). set (b4 := apart (deg t tau) n). set (a3 := forks (deg s delta) n). set (b3 := forks (deg t tau) n). set (a2 := degrees (deg s delta) n). set (b2 := degrees (deg t tau) n).
    transitivity ((1 # 4) * (a4 * b4 * (Qnat (fact (n - 4)) / Qnat (fact n)) + 4 * (a3 * b3) * (Qnat (fact (n - 3)) / Qnat (fact n)) + 2 * (a2 * b2) * (Qnat (fact (n - 2)) / Qnat (fact n)))); [field; lra|].
    rewrite I2, I3, I4. unfold second. fold a2 b2 a3 b3 a4 b4. field. repeat split; lra.
Qed.
End Core.

(** ** C151 *)
(** Every relabelling once, four or more events: the variance of st_perm about expected[0,0]. *)
Theorem C151_variance : forall ball, Ball ball -> forall s t delta tau E k (ds dt : nat -> nat),
  Enum (seq 0 (List.length s)) E -> (4 <= List.length s)%nat -> knox_global ball s t delta tau E = Ok k ->
  (forall i, (i < List.length s)%nat -> Card (Deg s delta i) (ds i)) -> (forall i, (i < List.length s)%nat -> Card (Deg t tau i) (dt i)) ->
  exists p e sims e00 e01 e10 e11, k_sim k = Some (p, e, sims) /\ k_exp k = Some (e00, e01, e10, e11) /\ List.length sims = fact (List.length s) /\
    e00 == degrees ds (List.length s) * degrees dt (List.length s) / (2 * (Qnat (List.length s) * (Qnat (List.length s) - 1))) /\
    variance e00 sims == second ds dt (List.length s) - e00 * e00.
Proof.
  intros ball HB s t delta tau E k ds dt HE N4 H CS CT. destruct (core ball s t delta tau E k HB HE N4 H) as [p [e [sims [e00 [e01 [e10 [e11 [SM [EX [LL [M V]]]]]]]]]]].
  exists p, e, sims, e00, e01, e10, e11. split; [exact SM|]. split; [exact EX|]. split; [exact LL|].
  assert (D : forall d d', (forall i, (i < List.length s)%nat -> d i = d' i) -> degrees d (List.length s) = degrees d' (List.length s) /\ degrees2 d (List.length s) = degrees2 d' (List.length s)).
  { intros d d' X. unfold degrees, degrees2. split; f_equal; apply list_sum_map_ext; intros i I; apply in_seq in I; rewrite X by lia; reflexivity. }
  destruct (D (deg s delta) ds (fun i I => deg_card _ _ _ _ (CS i I))) as [S1 S2]. destruct (D (deg t tau) dt (fun i I => deg_card _ _ _ _ (CT i I))) as [T1 T2].
  unfold second, forks, apart in *. rewrite S1, S2, T1, T2 in V. rewrite S1, T1 in M. split; assumption.
Qed.
Print Assumptions C151_variance.

(** [m] events at one place and [m] events away from it and from each other; the same for times. *)
Definition clustered (m : nat) : list vec := map (fun i => [Qnat (if (i <? m)%nat then 0 else i)]) (seq 0 (2 * m)).
Lemma others_sum : forall l i, NoDup l -> In i l -> list_sum (map (fun j => if Nat.eqb j i then 0%nat else 1%nat) l) = (List.length l - 1)%nat.
Proof.
  intros l i ND I. destruct (sel_in l i I) as [l' P]. rewrite (sel_split l _ _ P). cbn [fst snd]. rewrite Nat.eqb_refl. destruct (sel_nodup _ _ ND P) as [_ [NI _]]. pose proof (sel_len _ _ P) as LN. cbn [fst snd] in *.
  rewrite (list_sum_map_ext _ _ (fun _ => 1%nat)); [rewrite list_sum_const; lia|]. intros j J. destruct (Nat.eqb_spec j i) as [->|]; [contradiction|reflexivity].
Qed.
Lemma clustered_nb : forall m i j, (i < 2 * m)%nat -> (j < 2 * m)%nat -> nb (clustered m) (1 # 2) i j = negb (Nat.eqb j i) && ((i <? m)%nat && (j <? m)%nat).
Proof.
  intros m i j Hi Hj. unfold nb. destruct (Nat.eqb_spec j i) as [->|D]; [reflexivity|]. cbn [negb andb].
  assert (RW : forall k, (k < 2 * m)%nat -> row (clustered m) k = [Qnat (if (k <? m)%nat then 0 else k)]).
  { intros k K. unfold row, clustered. rewrite (nth_indep _ [] ((fun i => [Qnat (if (i <? m)%nat then 0 else i)]) 0%nat)) by (rewrite map_length, seq_length; exact K). rewrite (map_nth (fun i => [Qnat (if (i <? m)%nat then 0 else i)])), seq_nth by exact K. reflexivity. }
  rewrite !RW by assumption. unfold within, vd2. cbn [combine map fst snd Qsum fold_right]. change (Qle_bool 0 (1 # 2)) with true. cbn [andb].
  assert (Z0 : forall a b : nat, Qle_bool ((Qnat a - Qnat b) * (Qnat a - Qnat b) + 0) ((1 # 2) * (1 # 2)) = Nat.eqb a b).
  { intros a b. unfold Qnat. destruct (Nat.eqb_spec a b) as [->|N].
    - apply Qle_bool_iff. unfold Qle. cbn. nia.
    - apply not_true_iff_false. intro X. apply Qle_bool_iff in X. unfold Qle in X. cbn in X. nia. }
  rewrite Z0. destruct (Nat.ltb_spec i m), (Nat.ltb_spec j m); cbn [andb]; [reflexivity| | |]; apply Nat.eqb_neq; lia.
Qed.
Lemma clustered_deg : forall m i, (1 <= m)%nat -> (i < 2 * m)%nat -> deg (clustered m) (1 # 2) i = if (i <? m)%nat then (m - 1)%nat else 0%nat.
Proof.
  intros m i M Hi. unfold deg. replace (List.length (clustered m)) with (m + m)%nat by (unfold clustered; rewrite map_length, seq_length; lia).
  rewrite seq_app, map_app, list_sum_app'. rewrite (list_sum_map_ext _ _ (fun _ => 0%nat) (seq (0 + m) m)).
  2:{ intros j J. apply in_seq in J. rewrite clustered_nb by lia. destruct (Nat.ltb_spec j m) as [X|X]; [lia|]. rewrite !andb_false_r. reflexivity. }
  rewrite list_sum_const, Nat.mul_0_r, Nat.add_0_r. destruct (Nat.ltb_spec i m) as [X|X].
  - rewrite (list_sum_map_ext _ _ (fun j => if Nat.eqb j i then 0%nat else 1%nat)).
    + rewrite others_sum; [rewrite seq_length; reflexivity|apply seq_NoDup|apply in_seq; lia].
    + intros j J. apply in_seq in J. rewrite clustered_nb by lia. destruct (Nat.ltb_spec j m) as [Y|Y]; [|lia]. destruct (Nat.ltb_spec i m) as [Y2|Y2]; [|lia]. destruct (Nat.eqb j i); reflexivity.
  - rewrite (list_sum_map_ext _ _ (fun _ => 0%nat)); [rewrite list_sum_const; lia|]. intros j J. apply in_seq in J. rewrite clustered_nb by lia. destruct (Nat.ltb_spec i m) as [Y2|Y2]; [lia|]. rewrite andb_false_r. reflexivity.
Qed.
(** A Poisson variable with mean expected[0,0] has variance expected[0,0]; here the
    variance is more than m / 4 times that. *)
Theorem C151_poisson_refuted : forall m, (2 <= m)%nat -> forall ball, Ball ball -> forall E k, Enum (seq 0 (2 * m)) E ->
  knox_global ball (clustered m) (clustered m) (1 # 2) (1 # 2) E = Ok k ->
  exists p e sims e00 e01 e10 e11, k_sim k = Some (p, e, sims) /\ k_exp k = Some (e00, e01, e10, e11) /\ 0 < e00 /\
    variance e00 sims == (Qnat m / 4 + Qnat m * Qnat m / (4 * (2 * Qnat m - 3) * (2 * Qnat m - 1))) * e00.
Proof.
  intros m M ball HB E k HE H. assert (LN : List.length (clustered m) = (2 * m)%nat) by (unfold clustered; rewrite map_length, seq_length; reflexivity).
  rewrite <- LN in HE. destruct (core ball _ _ _ _ E k HB HE ltac:(rewrite LN; lia) H) as [p [e [sims [e00 [e01 [e10 [e11 [SM [EX [LL [MM V]]]]]]]]]]].
  exists p, e, sims, e00, e01, e10, e11. split; [exact SM|]. split; [exact EX|].
  assert (SUM : forall h : nat -> nat, h 0%nat = 0%nat -> list_sum (map (fun i => h (deg (clustered m) (1 # 2) i)) (seq 0 (List.length (clustered m)))) = (m * h (m - 1))%nat).
  { intros h H0. rewrite LN. replace (2 * m)%nat with (m + m)%nat by lia. rewrite seq_app, map_app, list_sum_app'.
    rewrite (list_sum_map_ext _ _ (fun _ => h (m - 1)%nat) (seq 0 m)) by (intros i I; apply in_seq in I; rewrite clustered_deg by lia; destruct (Nat.ltb_spec i m); [reflexivity|lia]).
    rewrite (list_sum_map_ext _ _ (fun _ => 0%nat) (seq (0 + m) m)) by (intros i I; apply in_seq in I; rewrite clustered_deg by lia; destruct (Nat.ltb_spec i m); [lia|exact H0]).
    rewrite !list_sum_const, !seq_length. lia. }
  assert (D1 : degrees (deg (clustered m) (1 # 2)) (List.length (clustered m)) == Qnat m * (Qnat m - 1)) by (unfold degrees; pose proof (SUM (fun d => d) eq_refl) as X; cbv beta in X; change (map (deg (clustered m) (1 # 2))) with (map (fun i => deg (clustered m) (1 # 2) i)); rewrite X, Qnat_mult, Qnat_sub by lia; reflexivity).
  assert (D2 : degrees2 (deg (clustered m) (1 # 2)) (List.length (clustered m)) == Qnat m * ((Qnat m - 1) * (Qnat m - 1))) by (unfold degrees2; rewrite (SUM (fun d => (d * d)%nat) eq_refl), !Qnat_mult, Qnat_sub by lia; reflexivity).
  assert (QN : Qnat (List.length (clustered m)) == 2 * Qnat m) by (rewrite LN, Qnat_mult; reflexivity).
  assert (Q2 : 2 <= Qnat m) by (apply (Qnat_le 2 m M)). unfold second, forks, apart in V. rewrite D1, D2, QN in V. rewrite D1, QN in MM. set (q := Qnat m) in *.
  split.
  - rewrite MM. apply Qlt_shift_div_l; [|rewrite Qmult_0_l]; repeat (apply Qmult_lt_0_compat || lra).
  - rewrite V, MM. field. repeat split; lra.
Qed.
Print Assumptions C151_poisson_refuted.

(** ** A concrete case *)
(** Four events, two of them at one place and at one time: the 24 relabellings give mean
    1/6 and variance 5/36. *)
Example C151_case : exists k p e sims e00 e01 e10 e11, knox_global ball_up (clustered 2) (clustered 2) (1 # 2) (1 # 2) (all_perms (seq 0 4)) = Ok k /\
  k_sim k = Some (p, e, sims) /\ k_exp k = Some (e00, e01, e10, e11) /\ e00 == 1 # 6 /\ variance e00 sims == 5 # 36.
Proof. do 8 eexists. split; [vm_compute; reflexivity|]. split; [reflexivity|]. split; [reflexivity|]. split; vm_compute; reflexivity. Qed.
