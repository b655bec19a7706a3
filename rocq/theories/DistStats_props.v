(** Theorems about the distance statistics. *)
From Coq Require Import ZArith QArith Qabs Qminmax List Bool String Permutation Lia Lqa.
From Verif Require Import Base BaseLemmas Spec Order_spec Quadrat_model Geometry_model Random_model DistStats_model
  DistStats_spec Pairs_proofs DistStats_proofs Pattern_spec Pattern_proofs Geometry_proofs Random_props.
Import ListNotations.
Local Open Scope Q_scope.

(** ** C52 *)
(** Value number k of F or G for distances [d] on the support [e]. *)
Theorem C52_cdf_values : forall d e st, (2 <= List.length e)%nat -> cdf d e = Ok st ->
  forall k a b, (1 <= k < List.length e)%nat -> Counts (counted e k) d a ->
    Counts (counted e (List.length e - 1)) d b ->
    nth k st NaN = xdiv (inject_Z (Z.of_nat a)) (inject_Z (Z.of_nat b)).
Proof.
  intros d e st L H k a b K A B.
  destruct (cdf_spec d e st L H) as [_ [_ [_ V]]]. rewrite V by auto.
  assert (X : forall j m, Counts (counted e j) d m -> m = count (below e j) d).
  { intros j m C. eapply Counts_unique; [exact C|]. apply Counts_filter. intros; apply below_spec. }
  rewrite (X _ _ A), (X _ _ B). reflexivity.
Qed.
Print Assumptions C52_cdf_values.

(** When the support starts at or below every distance and ends at or above every
    distance, inner values are the fraction of distances below the support value. *)
Theorem C52_ecdf : forall d e st, d <> [] -> (2 <= List.length e)%nat -> cdf d e = Ok st ->
  (forall x, In x d -> nth 0 e 0 <= x /\ x <= nth (List.length e - 1) e 0) ->
  forall k a, (1 <= k < List.length e - 1)%nat -> Counts (fun x => x < nth k e 0) d a ->
    exists q, nth k st NaN = Fin q /\ q * inject_Z (Z.of_nat (List.length d)) == inject_Z (Z.of_nat a).
Proof.
  intros d e st N L H R k a K A.
  assert (A' : Counts (counted e k) d a).
  { eapply Counts_ext; [|exact A]. intros x X. unfold counted.
    assert (E : Nat.eqb (S k) (List.length e) = false) by (apply Nat.eqb_neq; lia). rewrite E.
    destruct (R x X). tauto. }
  assert (B : Counts (counted e (List.length e - 1)) d (List.length d)).
  { clear -R L. assert (E : Nat.eqb (S (List.length e - 1)) (List.length e) = true) by (apply Nat.eqb_eq; lia).
    unfold counted. rewrite E. induction d as [|x d IH]; simpl; constructor.
    - apply R; simpl; auto.
    - apply IH. intros; apply R; simpl; auto. }
  rewrite (C52_cdf_values d e st L H k a (List.length d)) by (auto; lia).
  assert (P : 0 < inject_Z (Z.of_nat (List.length d))) by (apply inject_Z_pos; destruct d; simpl; [tauto|lia]).
  unfold xdiv. assert (E : Qeq_bool (inject_Z (Z.of_nat (List.length d))) 0 = false) by (apply Qeqb_neq; lra).
  rewrite E. eexists. split; [reflexivity|]. field. lra.
Qed.
Print Assumptions C52_ecdf.

(** On a shorter support the function is renormalised: one of the two distances
    is below 2, yet the value at 2 is 1. *)
Theorem C52_short_support_refuted : exists st, cdf [1; 5] [0; 2; 3] = Ok st /\ st = [Fin 0; Fin 1; Fin 1].
Proof. eexists. split; vm_compute; reflexivity. Qed.
Print Assumptions C52_short_support_refuted.

Example C52_case : exists a b c, cdf [1; 5; 2; 2; 6] [0; 2; 4; 6] = Ok [Fin 0; Fin a; Fin b; Fin c] /\
  a == 1 # 5 /\ b == 3 # 5 /\ c == 1.
Proof. do 3 eexists. split; [vm_compute; reflexivity|]. repeat split; vm_compute; reflexivity. Qed.

(** ** C51 *)
Theorem C51_cdf : forall d e, nondecreasing e -> (2 <= List.length e)%nat ->
  (exists x, In x d /\ nth 0 e 0 <= x /\ x <= nth (List.length e - 1) e 0) ->
  exists st, cdf d e = Ok st /\ List.length st = List.length e /\ nth 0 st NaN = Fin 0 /\
    (exists l, nth (List.length e - 1) st NaN = Fin l /\ l == 1) /\
    (forall i j, (i <= j < List.length e)%nat -> exists a b, nth i st NaN = Fin a /\ nth j st NaN = Fin b /\
       0 <= a /\ a <= b /\ b <= 1).
Proof.
  intros d e M L [x [X1 X2]]. destruct (cdf_ok d e M) as [st H]. exists st. split; [exact H|].
  destruct (cdf_spec d e st L H) as [_ [S1 [S2 V]]]. split; [exact S1|]. split; [exact S2|].
  set (t := (List.length e - 1)%nat) in *.
  assert (P : (1 <= count (below e t) d)%nat).
  { apply count_pos_iff. exists x. split; auto. apply below_spec. unfold counted.
    assert (E : Nat.eqb (S t) (List.length e) = true) by (apply Nat.eqb_eq; unfold t; lia). rewrite E. auto. }
  set (T := count (below e t) d) in *.
  assert (PT : 0 < inject_Z (Z.of_nat T)) by (apply inject_Z_pos; lia).
  assert (F : forall k, (k < List.length e)%nat -> exists c, (c <= T)%nat /\ (k = 0%nat -> c = 0%nat) /\
     (k <> 0%nat -> c = count (below e k) d) /\
     exists q, nth k st NaN = Fin q /\ q == inject_Z (Z.of_nat c) / inject_Z (Z.of_nat T)).
  { intros k K. destruct k as [|k].
    - exists 0%nat. split; [lia|]. split; [auto|]. split; [tauto|]. exists 0. split; [exact S2|]. field. lra.
    - exists (count (below e (S k)) d). split; [|split; [discriminate|split; [auto|]]].
      + apply count_mono. intros y _ Y. apply (below_mono e (S k) t); auto. unfold t; lia.
      + rewrite V by lia. fold T. unfold xdiv.
        assert (E : Qeq_bool (inject_Z (Z.of_nat T)) 0 = false) by (apply Qeqb_neq; lra). rewrite E.
        eexists. split; reflexivity. }
  split.
  - destruct (F t) as [c [_ [_ [C [q [Q1 Q2]]]]]]; [unfold t; lia|]. exists q. split; [exact Q1|].
    rewrite Q2, C by (unfold t; lia). fold T. field. lra.
  - intros i j IJ. destruct (F i) as [ci [Ci [Zi [Ni [a [A1 A2]]]]]]; [lia|].
    destruct (F j) as [cj [Cj [Zj [Nj [b [B1 B2]]]]]]; [lia|].
    exists a, b. split; [exact A1|]. split; [exact B1|].
    assert (O : (ci <= cj)%nat).
    { destruct i as [|i]; [rewrite Zi by auto; lia|]. destruct j as [|j]; [lia|].
      rewrite Ni, Nj by discriminate. apply count_mono. intros y _. apply below_mono; auto. }
    rewrite A2, B2. split; [|split].
    + apply Qdiv_nonneg; auto. apply inject_Z_nonneg. lia.
    + apply Qle_shift_div_l; auto.
      setoid_replace (inject_Z (Z.of_nat ci) / inject_Z (Z.of_nat T) * inject_Z (Z.of_nat T))
        with (inject_Z (Z.of_nat ci)) by (field; lra).
      apply inject_Z_le. lia.
    + apply Qle_shift_div_r; auto. rewrite Qmult_1_l. apply inject_Z_le. lia.
Qed.
Print Assumptions C51_cdf.

(** Decreasing supports are rejected; with no distance in range all values but the
    first are NaN. *)
Theorem C51_outside : forall d e,
  (~ nondecreasing e -> cdf d e = Raise ValueError) /\
  (nondecreasing e -> (2 <= List.length e)%nat ->
   (forall x, In x d -> x < nth 0 e 0 \/ nth (List.length e - 1) e 0 < x) ->
   cdf d e = Ok (Fin 0 :: repeat NaN (List.length e - 1))).
Proof.
  intros d e. split; [apply cdf_error|]. intros M L R.
  destruct (cdf_ok d e M) as [st H]. rewrite H. f_equal.
  destruct (cdf_spec d e st L H) as [_ [S1 [S2 V]]].
  assert (Z : forall k, (k < List.length e)%nat -> count (below e k) d = 0%nat).
  { intros k K. apply count_none. intros x X. destruct (below e k x) eqn:B; auto.
    apply (below_mono e k (List.length e - 1)) in B; auto; [|lia]. apply below_spec in B. unfold counted in B.
    assert (E : Nat.eqb (S (List.length e - 1)) (List.length e) = true) by (apply Nat.eqb_eq; lia). rewrite E in B.
    destruct (R x X), B; lra. }
  apply (nth_ext _ _ NaN NaN); [simpl; rewrite repeat_length; lia|].
  intros k K. rewrite S1 in K. destruct k as [|k]; [rewrite S2; reflexivity|].
  cbn [nth]. rewrite V by lia. rewrite !Z by lia.
  assert (RP : nth k (repeat NaN (List.length e - 1)) NaN = NaN).
  { clear. generalize (List.length e - 1)%nat as n. intros n. revert k. induction n; destruct k; simpl; auto. }
  rewrite RP. reflexivity.
Qed.
Print Assumptions C51_outside.

(** f and g are this function of the distances they select. *)
Theorem C51_f_and_g : forall n e d empty nnd,
  (forall st, f_stat n e d empty = Ok st -> exists l, f_distances n d empty = Ok l /\ cdf l e = Ok st) /\
  (forall st, g_stat n e d nnd = Ok st -> exists l, g_distances n d nnd = Ok l /\ cdf l e = Ok st).
Proof.
  intros n e d empty nnd. unfold f_stat, g_stat. split; intros st H.
  - destruct (f_distances n d empty); [|discriminate]. eauto.
  - destruct (g_distances n d nnd); [|discriminate]. eauto.
Qed.
Print Assumptions C51_f_and_g.

Example C51_case : f_stat 2 [0; 2; 4] (D2 2 3 [[1; 5; 3]; [4; 4; 1]]) [] = Ok [Fin 0; xdiv 2 3; xdiv 3 3].
Proof. vm_compute. reflexivity. Qed.

(** ** C53 *)
(** f with an (n,p) matrix uses the distance of each of the p points to the nearest
    of the n pattern points. *)
Theorem C53_f_matrix : forall n p m empty, (1 <= n)%nat -> List.length m = n ->
  exists l, f_distances n (D2 n p m) empty = Ok l /\ List.length l = p /\
    forall j, (j < p)%nat -> least (nth j l 0) (map (fun r => nth j r 0) m).
Proof.
  intros n p m empty N L. unfold f_distances. rewrite Nat.eqb_refl. eexists. split; [reflexivity|].
  unfold col_mins. split; [rewrite map_length, seq_length; reflexivity|]. intros j J.
  set (g := fun j => match col j m with [] => 0 | x :: l => Qmin_list x l end).
  rewrite (nth_indep _ 0 (g 0%nat)) by (rewrite map_length, seq_length; auto).
  rewrite (map_nth g), seq_nth by auto. unfold g, col. simpl Nat.add.
  destruct m as [|r m]; [simpl in L; lia|]. simpl map. apply least_of.
Qed.
Print Assumptions C53_f_matrix.

(** g with a full matrix of distances with zero diagonal works on zeros only. *)
Theorem C53_g_matrix_zeros : forall n D nnd, (1 <= n)%nat ->
  (forall i, (i < n)%nat -> D i i == 0) -> (forall i j, (i < n)%nat -> (j < n)%nat -> 0 <= D i j) ->
  exists l, g_distances n (D2 n n (matrix n D)) nnd = Ok l /\ List.length l = n /\ forall x, In x l -> x == 0.
Proof.
  intros n D nnd N Z P. unfold g_distances. rewrite Nat.eqb_refl. simpl. eexists. split; [reflexivity|].
  unfold row_mins, matrix. rewrite map_map, map_length, seq_length. split; [reflexivity|].
  intros x X. apply in_map_iff in X. destruct X as [i [<- I]]. apply in_seq in I.
  destruct (map (D i) (seq 0 n)) as [|y l] eqn:E; [reflexivity|].
  destruct (least_of y l) as [[z [Z1 Z2]] LE]. rewrite <- E in *.
  apply Qle_antisym.
  - assert (H : In (D i i) (map (D i) (seq 0 n))) by (apply in_map, in_seq; lia).
    apply LE in H. rewrite (Z i) in H by lia. exact H.
  - rewrite <- Z2. apply in_map_iff in Z1. destruct Z1 as [j [<- J]]. apply in_seq in J. apply P; lia.
Qed.
Print Assumptions C53_g_matrix_zeros.

Theorem C53_g_matrix_refuted :
  g_stat 3 [0; 1; 2] (D2 3 3 [[0; 1; 3]; [1; 0; 2]; [3; 2; 0]]) (Ok [1; 1; 2]) = Ok [Fin 0; xdiv 3 3; xdiv 3 3] /\
  g_stat 3 [0; 1; 2] DNone (Ok [1; 1; 2]) = Ok [Fin 0; xdiv 0 3; xdiv 3 3].
Proof. split; vm_compute; reflexivity. Qed.
Print Assumptions C53_g_matrix_refuted.

(** Exactly which distance arguments g and f refuse. *)
Theorem C53_g_errors : forall n d nnd e, d <> DNone ->
  (g_distances n d nnd = Raise e <->
   e = ValueError /\ match d with
                     | D1 l => List.length l <> n
                     | D2 k p _ => k <> n \/ p <> n
                     | DN _ => True
                     | DNone => False
                     end).
Proof.
  intros n d nnd e N. destruct d as [|l|k p m|l]; [tauto| | |]; simpl.
  - destruct (Nat.eqb_spec (List.length l) n); split; [discriminate|tauto|intro H; inversion H; auto|intros [-> _]; reflexivity].
  - destruct (Nat.eqb_spec k p); destruct (Nat.eqb_spec k n); simpl; split; try discriminate;
      try (intro H; inversion H; split; auto; lia); intros [-> H]; first [reflexivity | exfalso; lia].
  - split; [intro H; inversion H; auto | intros [-> _]; reflexivity].
Qed.
Print Assumptions C53_g_errors.
Theorem C53_f_errors : forall n d empty e,
  f_distances n d empty = Raise e <-> e = ValueError /\ exists k p m, d = D2 k p m /\ k <> n.
Proof.
  intros n d empty e. destruct d as [|l|k p m|l]; simpl;
    try (split; [discriminate | intros (_ & k' & p' & m' & H & _); discriminate]).
  destruct (Nat.eqb_spec k n) as [E|E]; split.
  - discriminate.
  - intros (_ & k' & p' & m' & H & N). inversion H; subst. tauto.
  - intro H. inversion H; subst. split; auto. exists k, p, m. auto.
  - intros [-> _]. reflexivity.
Qed.
Print Assumptions C53_f_errors.

Example C53_case : f_distances 2 (D2 2 3 [[1; 5; 3]; [4; 4; 1]]) [] = Ok [1; 4; 1].
Proof. vm_compute. reflexivity. Qed.

(** ** C54 *)
Theorem C54_k_value : forall n area d s, (1 <= n)%nat -> 0 <= area ->
  exists q, k_value n area d s = Fin q /\
    (forall c, Counts (fun x => x < s) d c ->
       q * inject_Z (Z.of_nat n) * inject_Z (Z.of_nat n) == area * 2 * inject_Z (Z.of_nat c)) /\
    0 <= q.
Proof.
  intros n area d s N A. destruct (k_value_spec n area d s N A) as [q [Q1 Q2]].
  assert (P : 0 < inject_Z (Z.of_nat n)) by (apply inject_Z_pos; lia).
  exists q. split; [exact Q1|]. split.
  - intros c C. assert (E : c = count (fun x => Qltb x s) d).
    { eapply Counts_unique; [exact C|]. apply Counts_filter. intros; apply Qltb_lt. }
    rewrite Q2, <- E, inject_Z_mult. change (inject_Z 2) with 2. field. lra.
  - rewrite Q2. apply Qdiv_nonneg.
    + apply Qmult_le_0_compat; auto. apply inject_Z_nonneg. lia.
    + apply Qmult_lt_0_compat; auto.
Qed.
Print Assumptions C54_k_value.

Theorem C54_shape : forall n area D s1 s2, (1 <= n)%nat -> 0 <= area ->
  exists a b, k_value n area (pdist n D) s1 = Fin a /\ k_value n area (pdist n D) s2 = Fin b /\
    (s1 <= s2 -> a <= b) /\
    ((forall i j, (i < j < n)%nat -> s1 <= D i j) -> a == 0) /\
    a * inject_Z (Z.of_nat n) <= area * inject_Z (Z.of_nat n - 1) /\
    ((forall i j, (i < j < n)%nat -> D i j < s1) -> a * inject_Z (Z.of_nat n) == area * inject_Z (Z.of_nat n - 1)).
Proof.
  intros n area D s1 s2 N A.
  destruct (k_value_spec n area (pdist n D) s1 N A) as [a [A1 A2]].
  destruct (k_value_spec n area (pdist n D) s2 N A) as [b [B1 B2]].
  exists a, b. split; [exact A1|]. split; [exact B1|].
  assert (P : 0 < inject_Z (Z.of_nat n)) by (apply inject_Z_pos; lia).
  pose proof (pdist_length n D) as PL.
  set (c1 := count (fun x => Qltb x s1) (pdist n D)) in *.
  set (c2 := count (fun x => Qltb x s2) (pdist n D)) in *.
  assert (C1 : (c1 <= List.length (pdist n D))%nat) by apply count_le_length.
  assert (AN : a * inject_Z (Z.of_nat n) * inject_Z (Z.of_nat n) == area * inject_Z (2 * Z.of_nat c1)).
  { rewrite A2. field. lra. }
  assert (NN : forall z, area * inject_Z z * inject_Z (Z.of_nat n) == area * inject_Z (Z.of_nat n * z)).
  { intros z. rewrite inject_Z_mult. ring. }
  split; [|split; [|split]].
  - intros S. rewrite A2, B2.
    assert (O : (c1 <= c2)%nat). { apply count_mono. intros x _ X. qb. apply Qltb_lt. lra. }
    apply Qle_shift_div_l; [apply Qmult_lt_0_compat; auto|].
    setoid_replace (area * inject_Z (2 * Z.of_nat c1) / (inject_Z (Z.of_nat n) * inject_Z (Z.of_nat n)) *
      (inject_Z (Z.of_nat n) * inject_Z (Z.of_nat n))) with (area * inject_Z (2 * Z.of_nat c1)) by (field; lra).
    assert (inject_Z (2 * Z.of_nat c1) <= inject_Z (2 * Z.of_nat c2)) by (apply inject_Z_le; lia).
    rewrite !(Qmult_comm area). apply Qmult_le_compat_r; auto.
  - intros H. assert (E : c1 = 0%nat).
    { apply count_none. intros x X. apply in_pdist in X. destruct X as [i [j [IJ ->]]].
      apply Qltb_ge. auto. }
    rewrite A2, E. simpl. field. lra.
  - apply (Qmult_le_r _ _ (inject_Z (Z.of_nat n)) P). rewrite AN, NN.
    rewrite !(Qmult_comm area). apply Qmult_le_compat_r; auto. apply inject_Z_le. nia.
  - intros H. assert (E : c1 = List.length (pdist n D)).
    { apply count_all. intros x X. apply in_pdist in X. destruct X as [i [j [IJ ->]]]. apply Qltb_lt. auto. }
    apply (Qmult_inj_r _ _ (inject_Z (Z.of_nat n))); [lra|]. rewrite AN, NN.
    assert (Z2 : (2 * Z.of_nat c1 = Z.of_nat n * (Z.of_nat n - 1))%Z) by (rewrite E; nia).
    rewrite Z2. reflexivity.
Qed.
Print Assumptions C54_shape.

(** Relabelling the points does not change K. *)
Theorem C54_order_independent : forall n area D s perm, relabel n perm ->
  (forall i j, (i < n)%nat -> (j < n)%nat -> D i j = D j i) ->
  k_value n area (pdist n (fun i j => D (perm i) (perm j))) s = k_value n area (pdist n D) s.
Proof.
  intros n area D s perm R H. unfold k_value. rewrite !count_pdist.
  rewrite (upper_relabel (fun i j => if Qltb (D i j) s then 1 else 0)%nat n perm R); [reflexivity|].
  intros i j I J. rewrite (H i j) by auto. reflexivity.
Qed.
Print Assumptions C54_order_independent.

(** A degenerate bounding box gives K = 0 everywhere. *)
Theorem C54_zero_area : forall n d s, (1 <= n)%nat -> exists q, k_value n 0 d s = Fin q /\ q == 0.
Proof.
  intros n d s N. destruct (k_value_spec n 0 d s N (Qle_refl 0)) as [q [Q1 Q2]]. exists q. split; [exact Q1|].
  rewrite Q2. field. assert (0 < inject_Z (Z.of_nat n)) by (apply inject_Z_pos; lia). lra.
Qed.
Print Assumptions C54_zero_area.

Example C54_case : exists q, k_value 3 20 (pdist 3 (fun i j => nth j (nth i [[0; 1; 3]; [1; 0; 2]; [3; 2; 0]] []) 0)) (5#2)
  = Fin q /\ q == 80 # 9.
Proof. eexists. split; vm_compute; reflexivity. Qed.

(** ** C55 *)
Theorem C55_equivalent_inputs : forall n area e D,
  k_stat n area e (D1 (pdist n D)) (pdist n D) = k_stat n area e DNone (pdist n D) /\
  k_stat n area e (D2 n n (matrix n D)) (pdist n D) = k_stat n area e DNone (pdist n D).
Proof.
  intros. unfold k_stat, k_distances. rewrite pdist_length, !Nat.eqb_refl. simpl.
  rewrite triu_matrix. auto.
Qed.
Print Assumptions C55_equivalent_inputs.

Theorem C55_errors : forall n area e d pd x, k_stat n area e d pd = Raise x <->
  x = ValueError /\ match d with
                    | DNone => False
                    | D1 l => (2 * List.length l <> n * (n - 1))%nat
                    | D2 k p _ => k <> n \/ p <> n
                    | DN _ => True
                    end.
Proof.
  intros. unfold k_stat, k_distances. destruct d as [|l|k p m|l]; simpl.
  - split; [discriminate|tauto].
  - destruct (Nat.eqb_spec (List.length l + (List.length l + 0)) (n * (n - 1))); simpl;
      split; intros H; try discriminate; try tauto; try (inversion H; auto); destruct H; congruence.
  - destruct (Nat.eqb_spec k p); destruct (Nat.eqb_spec k n); simpl; split; intros H;
      try discriminate; try (inversion H; subst; split; auto; lia); destruct H as [H1 H2]; subst; try reflexivity; lia.
  - split; intros H; [inversion H; auto|destruct H; congruence].
Qed.
Print Assumptions C55_errors.

Example C55_case : triu [[0; 1; 3]; [1; 0; 2]; [3; 2; 0]] = [1; 3; 2].
Proof. reflexivity. Qed.

(** ** C57 *)
Theorem C57_hazard_values :
  (forall g f, ~ f == 1 -> exists q, hazard (Fin g) (Fin f) = Fin q /\ q * (1 - f) == 1 - g) /\
  (forall g f, f == 1 -> g == 1 -> hazard (Fin g) (Fin f) = NaN) /\
  (forall g f, f == 1 -> g < 1 -> hazard (Fin g) (Fin f) = PInf) /\
  (forall g, hazard g NaN = NaN) /\ (forall f, hazard NaN f = NaN).
Proof.
  split; [|split; [|split; [|split]]].
  - intros g f F. unfold hazard. assert (E : is_one (Fin f) = false) by (apply Qeqb_neq; auto).
    rewrite E, andb_false_r. cbn [x1minus xdivx]. unfold xdiv.
    assert (E2 : Qeq_bool (1 - f) 0 = false) by (apply Qeqb_neq; intros X; apply F; lra).
    rewrite E2. eexists. split; [reflexivity|]. field. intros X. apply F. lra.
  - intros g f F G. unfold hazard. assert (E : is_one (Fin f) = true) by (apply Qeqb_eq; auto).
    assert (E2 : is_one (Fin g) = true) by (apply Qeqb_eq; auto). rewrite E, E2. reflexivity.
  - intros g f F G. unfold hazard. assert (E2 : is_one (Fin g) = false) by (apply Qeqb_neq; lra).
    rewrite E2. simpl andb. cbn [x1minus xdivx]. unfold xdiv.
    assert (E3 : Qeq_bool (1 - f) 0 = true) by (apply Qeqb_eq; lra).
    assert (E4 : Qeq_bool (1 - g) 0 = false) by (apply Qeqb_neq; lra).
    assert (E5 : Qltb 0 (1 - g) = true) by (apply Qltb_lt; lra). rewrite E3, E4, E5. reflexivity.
  - intros [q| | |]; try reflexivity. unfold hazard. rewrite andb_false_r. reflexivity.
  - intros [q| | |]; reflexivity.
Qed.
Print Assumptions C57_hazard_values.

(** For F and G evaluated on one support, whatever the interpolation does. *)
Theorem C57_j : forall e fd gd F G interp arr, (1 <= List.length e)%nat ->
  cdf fd e = Ok F -> cdf gd e = Ok G -> (arr = None \/ arr = Some e) ->
  exists J, j_stat arr (e, F) (e, G) interp false = (e, J) /\ List.length J = List.length e /\
    (forall k, (k < List.length e)%nat -> nth k J NaN = hazard (nth k G NaN) (nth k F NaN)) /\
    (exists q, nth 0 J NaN = Fin q /\ q == 1) /\
    exists e' J', j_stat arr (e, F) (e, G) interp true = (e', J') /\ valid_prefix J J' /\
      (1 <= List.length J')%nat /\ e' = firstn (List.length J') e.
Proof.
  intros e fd gd F G interp arr L HF HG HA.
  assert (LEN : forall d st, cdf d e = Ok st -> List.length st = List.length e /\ nth 0 st NaN = Fin 0).
  { intros d st H. destruct (Nat.lt_ge_cases (List.length e) 2) as [S|S].
    - rewrite cdf_short in H by auto. inversion H; subst. simpl. split; [lia|reflexivity].
    - destruct (cdf_spec d e st S H) as [_ [A [B _]]]. auto. }
  destruct (LEN _ _ HF) as [LF F0]. destruct (LEN _ _ HG) as [LG G0].
  set (J := map (fun gf => hazard (fst gf) (snd gf)) (combine G F)).
  assert (LJ : List.length J = List.length e).
  { unfold J. rewrite map_length, combine_length. lia. }
  assert (E : forall t, j_stat arr (e, F) (e, G) interp t = if t then truncate2 e J else (e, J)).
  { intros t. unfold j_stat. destruct HA as [-> | ->]; rewrite !allclose_refl; reflexivity. }
  assert (V : forall k, (k < List.length e)%nat -> nth k J NaN = hazard (nth k G NaN) (nth k F NaN)).
  { intros k K. apply nth_combine; lia. }
  assert (J0 : exists q, nth 0 J NaN = Fin q /\ q == 1).
  { rewrite V by lia. rewrite F0, G0. eexists. split; vm_compute; reflexivity. }
  exists J. split; [apply (E false)|]. split; [exact LJ|]. split; [exact V|]. split; [exact J0|].
  rewrite (E true). destruct (truncate2_spec e J) as [[T1 T2]|[T _]]; [|lia].
  destruct (truncate2 e J) as [e' J']. simpl in *. exists e', J'. split; [reflexivity|].
  split; [exact T1|]. split; [|exact T2].
  destruct T1 as [rest [R1 [R2 R3]]]. destruct J' as [|x J']; [|simpl; lia].
  exfalso. simpl in R1. destruct J0 as [q [Q _]]. rewrite R1 in Q. destruct rest as [|y r].
  - rewrite R1 in LJ. simpl in LJ. lia.
  - simpl in Q. subst y. apply (R3 q). reflexivity.
Qed.
Print Assumptions C57_j.

Example C57_case : exists a, j_stat None ([0; 1; 2; 3], [Fin 0; Fin (1#2); Fin 1; Fin 1])
    ([0; 1; 2; 3], [Fin 0; Fin (1#4); Fin (1#2); Fin 1]) (fun _ y _ => y) true = ([0; 1], [Fin 1; Fin a]) /\ a == 3 # 2.
Proof. eexists. split; vm_compute; reflexivity. Qed.

(** ** C58 *)
Theorem C58_result : forall e fd gd F G interp arr sim ns keep, (2 <= List.length e)%nat ->
  cdf fd e = Ok F -> cdf gd e = Ok G -> (arr = None \/ arr = Some e) ->
  let '(e1, J) := j_stat arr (e, F) (e, G) interp false in
  exists r, j_test (ripley_test e1 J sim ns keep) true = Some r /\
    valid_prefix J (r_statistic r) /\ (1 <= List.length (r_statistic r) < List.length e)%nat /\
    r_support r = firstn (List.length (r_statistic r)) e /\
    List.length (r_support r) = List.length (r_statistic r) /\
    List.length (r_pvalue r) = List.length (r_statistic r).
Proof.
  intros e fd gd F G interp arr sim ns keep L HF HG HA.
  assert (L1 : (1 <= List.length e)%nat) by lia.
  destruct (C57_j e fd gd F G interp arr L1 HF HG HA) as [J [E [LJ [V [J0 _]]]]]. rewrite E.
  (* the last value is NaN *)
  set (t := (List.length e - 1)%nat).
  assert (LAST : forall d st, cdf d e = Ok st -> nth t st NaN = NaN \/ exists q, nth t st NaN = Fin q /\ q == 1).
  { intros d st H. destruct (cdf_spec d e st L H) as [_ [_ [_ W]]]. rewrite W by (unfold t; lia). fold t.
    destruct (Nat.eq_dec (count (below e t) d) 0) as [Z|Z].
    - rewrite Z. left. reflexivity.
    - right. assert (P : 0 < inject_Z (Z.of_nat (count (below e t) d))) by (apply inject_Z_pos; lia).
      unfold xdiv. assert (X : Qeq_bool (inject_Z (Z.of_nat (count (below e t) d))) 0 = false) by (apply Qeqb_neq; lra).
      rewrite X. eexists. split; [reflexivity|]. field. lra. }
  assert (BAD : nth t J NaN = NaN).
  { rewrite V by (unfold t; lia). destruct C57_hazard_values as [_ [H2 [_ [H4 H5]]]].
    destruct (LAST _ _ HF) as [-> | [f [-> f1]]]; [apply H4|].
    destruct (LAST _ _ HG) as [-> | [g [-> g1]]]; [apply H5|]. apply H2; auto. }
  assert (EX : existsb invalid J = true).
  { apply existsb_exists. exists (nth t J NaN). split; [apply nth_In; unfold t; lia|rewrite BAD; reflexivity]. }
  destruct (first_invalid_split J EX) as [x [r [R1 [R2 [R3 R4]]]]].
  assert (K1 : (1 <= first_invalid J)%nat).
  { destruct J as [|y J]; [simpl in LJ; lia|]. destruct J0 as [q [Q _]]. simpl in Q. subst y. simpl. lia. }
  unfold j_test. cbn [r_statistic r_support r_pvalue r_sims ripley_test]. rewrite EX.
  cbn [r_statistic r_support r_pvalue r_sims].
  assert (LK : List.length (firstn (first_invalid J) J) = first_invalid J) by (rewrite firstn_length; lia).
  assert (NE : Nat.eqb (List.length (firstn (first_invalid J) J)) (List.length J) = false) by (apply Nat.eqb_neq; lia).
  rewrite NE. eexists. split; [reflexivity|]. cbn [r_statistic r_support r_pvalue r_sims]. rewrite LK.
  split; [|split; [lia|split; [reflexivity|split]]].
  - exists (x :: r). split; [exact R1|]. split.
    + intros y Y. apply invalid_spec. apply R3; auto.
    + intros q ->. discriminate.
  - rewrite firstn_length. lia.
  - rewrite firstn_length. apply Nat.min_l.
    destruct (if (ns <=? 0)%Z then [] else map sim (seq 0 (Z.to_nat ns))); rewrite map_length; [lia|].
    rewrite seq_length. lia.
Qed.
Print Assumptions C58_result.

(** A support with one value (for example support=1) makes j_test return None. *)
Theorem C58_single_value_refuted : forall fd gd x interp sim ns keep, exists F G,
  cdf fd [x] = Ok F /\ cdf gd [x] = Ok G /\
  let '(e1, J) := j_stat None ([x], F) ([x], G) interp false in
  e1 = [x] /\ j_test (ripley_test e1 J sim ns keep) true = None.
Proof.
  intros. exists [Fin 0], [Fin 0]. split; [reflexivity|]. split; [reflexivity|].
  unfold j_stat. rewrite allclose_refl. split; vm_compute; reflexivity.
Qed.
Print Assumptions C58_single_value_refuted.

Example C58_case : exists r,
  j_test (ripley_test [0; 1; 2] [Fin 1; Fin (1#2); NaN] (fun i => [Fin 1; Fin (inject_Z (Z.of_nat i)); NaN]) 3 true) true = Some r /\
  r_support r = [0; 1] /\ r_statistic r = [Fin 1; Fin (1#2)].
Proof. eexists. split; [reflexivity|]. split; reflexivity. Qed.

(** ** C59 *)
(** Truncation removes simulations, not columns: the simulations kept still have
    one value per original support value. *)
Theorem C59_rows_removed : forall r t sims, j_test r true = Some t -> r_sims r = Some sims ->
  r_sims t = Some (firstn (List.length (r_statistic t)) sims) /\
  (List.length (r_statistic t) < List.length (r_statistic r))%nat.
Proof.
  intros r t sims H S. unfold j_test in H. destruct (existsb invalid (r_statistic r)) eqn:E.
  - destruct (Nat.eqb_spec (List.length (r_statistic
      (mkresult (firstn (first_invalid (r_statistic r)) (r_support r)) (firstn (first_invalid (r_statistic r)) (r_statistic r))
        (firstn (first_invalid (r_statistic r)) (r_pvalue r)) (option_map (firstn (first_invalid (r_statistic r))) (r_sims r)))))
      (List.length (r_statistic r))); inversion H; subst. simpl.
    destruct (first_invalid_split _ E) as [x [q [_ [_ [_ L]]]]].
    rewrite S, firstn_length, Nat.min_l by lia. simpl. split; [reflexivity|lia].
  - rewrite Nat.eqb_refl in H. discriminate.
Qed.
Print Assumptions C59_rows_removed.

Theorem C59_misaligned_refuted : exists r t, 
  r = ripley_test [0; 1; 2] [Fin 1; NaN; NaN] (fun i => [Fin 1; Fin 5; Fin (inject_Z (Z.of_nat i))]) 4 true /\
  j_test r true = Some t /\ r_support t = [0] /\ r_sims t = Some [[Fin 1; Fin 5; Fin 0]].
Proof. do 2 eexists. split; [reflexivity|]. split; [reflexivity|]. split; vm_compute; reflexivity. Qed.
Print Assumptions C59_misaligned_refuted.

(** ** C60 *)
Lemma xge_at_least : forall a b, xge a b = true <-> at_least a b.
Proof.
  intros [x| | |] [y| | |]; cbn [xge]; (split; [intro H; try discriminate H|intro H; inversion H; subst; try congruence]);
    try (constructor; discriminate); try (constructor; apply Qle_bool_iff; assumption); try (apply Qle_bool_iff; assumption); reflexivity.
Qed.
Theorem C60_pvalues : forall support obs sim ns keep, (0 < ns)%Z -> 
  let r := ripley_test support obs sim ns keep in
  r_support r = support /\ r_statistic r = obs /\
  r_sims r = (if keep then Some (map sim (seq 0 (Z.to_nat ns))) else None) /\
  List.length (r_pvalue r) = List.length obs /\
  forall j c, (j < List.length obs)%nat ->
    Counts (fun i => at_least (nth j (sim i) NaN) (nth j obs NaN)) (seq 0 (Z.to_nat ns)) c ->
    exists p, nth j (r_pvalue r) NaN = Fin p /\
      (p * inject_Z (ns + 1) == inject_Z (Z.min (Z.of_nat c + 1) (ns - Z.of_nat c))) /\
      0 <= p /\ p <= 1 # 2 /\
      (p == 0 <-> forall i, (i < Z.to_nat ns)%nat -> at_least (nth j (sim i) NaN) (nth j obs NaN)).
Proof.
  intros support obs sim ns keep N r.
  assert (NZ : (ns <=? 0)%Z = false) by (apply Z.leb_gt; lia).
  unfold r, ripley_test. rewrite NZ. cbn [r_support r_statistic r_sims r_pvalue].
  split; [reflexivity|]. split; [reflexivity|]. split; [reflexivity|].
  destruct (map sim (seq 0 (Z.to_nat ns))) as [|s0 ss] eqn:E.
  { apply (f_equal (@List.length _)) in E. rewrite map_length, seq_length in E. simpl in E. lia. }
  rewrite <- E. clear s0 ss E.
  split; [rewrite map_length, seq_length; reflexivity|]. intros j c J C.
  rewrite (nth_indep _ NaN (Fin (pvalue ns (map sim (seq 0 (Z.to_nat ns))) obs 0)))
    by (rewrite map_length, seq_length; auto).
  rewrite (map_nth (fun j => Fin (pvalue ns (map sim (seq 0 (Z.to_nat ns))) obs j))), seq_nth by auto.
  simpl Nat.add. eexists. split; [reflexivity|]. unfold pvalue. rewrite count_map.
  assert (EC : c = count (fun i => xge (nth j (sim i) NaN) (nth j obs NaN)) (seq 0 (Z.to_nat ns))).
  { eapply Counts_unique; [exact C|]. apply Counts_filter. intros; apply xge_at_least. }
  pose proof (count_le_length _ (fun i => xge (nth j (sim i) NaN) (nth j obs NaN)) (seq 0 (Z.to_nat ns))) as LE.
  rewrite seq_length in LE. cbv zeta. rewrite <- EC in LE |- *.
  assert (P : 0 < inject_Z (ns + 1)) by (apply inject_Z_pos; lia).
  set (z := Z.of_nat c) in *. assert (Zb : (0 <= z <= ns)%Z) by lia.
  assert (E1 : 1 - inject_Z (z + 1) / inject_Z (ns + 1) == inject_Z (ns - z) / inject_Z (ns + 1)).
  { assert (X : inject_Z (ns - z) == inject_Z (ns + 1) - inject_Z (z + 1)).
    { unfold Z.sub. rewrite !inject_Z_plus, inject_Z_opp. ring. }
    rewrite X. field. lra. }
  assert (M : Qmin (inject_Z (z + 1) / inject_Z (ns + 1)) (1 - inject_Z (z + 1) / inject_Z (ns + 1)) ==
              inject_Z (Z.min (z + 1) (ns - z)) / inject_Z (ns + 1)).
  { rewrite E1.
    assert (O : forall x y, (x <= y)%Z -> inject_Z x / inject_Z (ns + 1) <= inject_Z y / inject_Z (ns + 1)).
    { intros x y XY. apply Qle_shift_div_l; auto.
      setoid_replace (inject_Z x / inject_Z (ns + 1) * inject_Z (ns + 1)) with (inject_Z x) by (field; lra).
      apply inject_Z_le; auto. }
    destruct (Z.min_spec (z + 1) (ns - z)) as [[L ->]|[L ->]].
    - apply Q.min_l. apply O. lia.
    - apply Q.min_r. apply O. lia. }
  change (Z.of_nat c) with z. rewrite M.
  split; [field; lra|]. split; [|split].
  - apply Qdiv_nonneg; auto. apply inject_Z_nonneg. lia.
  - apply Qle_shift_div_r; auto.
    assert (X : inject_Z (2 * Z.min (z + 1) (ns - z)) <= inject_Z (ns + 1)) by (apply inject_Z_le; lia).
    rewrite inject_Z_mult in X. change (inject_Z 2) with 2 in X. lra.
  - assert (ZERO : inject_Z (Z.min (z + 1) (ns - z)) / inject_Z (ns + 1) == 0 <-> c = Z.to_nat ns).
    { split.
      - intros H. assert (H2 : inject_Z (Z.min (z + 1) (ns - z)) == 0).
        { setoid_replace (inject_Z (Z.min (z + 1) (ns - z)))
            with (inject_Z (Z.min (z + 1) (ns - z)) / inject_Z (ns + 1) * inject_Z (ns + 1)) by (field; lra).
          rewrite H. ring. }
        change 0 with (inject_Z 0) in H2. apply inject_Z_eq_inv in H2. lia.
      - intros H. assert (Z0 : Z.min (z + 1) (ns - z) = 0%Z) by lia. rewrite Z0. field. lra. }
    rewrite ZERO. rewrite EC. split.
    + intros H i I. apply xge_at_least. destruct (xge (nth j (sim i) NaN) (nth j obs NaN)) eqn:X; auto. exfalso.
      assert (SQ : seq 0 (Z.to_nat ns) = seq 0 i ++ i :: seq (S i) (Z.to_nat ns - S i)).
      { replace (Z.to_nat ns) with (i + S (Z.to_nat ns - S i))%nat at 1 by lia. rewrite seq_app. reflexivity. }
      rewrite SQ, count_app, count_cons, X in H.
      pose proof (count_le_length _ (fun i => xge (nth j (sim i) NaN) (nth j obs NaN)) (seq 0 i)) as L1.
      pose proof (count_le_length _ (fun i => xge (nth j (sim i) NaN) (nth j obs NaN)) (seq (S i) (Z.to_nat ns - S i))) as L2.
      rewrite seq_length in L1, L2. lia.
    + intros H. rewrite count_all; [apply seq_length|]. intros i I. apply in_seq in I. apply xge_at_least, H. lia.
Qed.
Print Assumptions C60_pvalues.

(** Zero is reached, so the usual Monte Carlo bound 1/(S+1) does not hold. *)
Theorem C60_zero_refuted : exists p, r_pvalue (ripley_test [1] [Fin 0] (fun _ => [Fin 2]) 99 false) = [Fin p] /\ p == 0.
Proof. eexists. split; vm_compute; reflexivity. Qed.
Print Assumptions C60_zero_refuted.

Theorem C60_no_simulations : forall support obs sim ns keep, (ns <= 0)%Z ->
  r_pvalue (ripley_test support obs sim ns keep) = map (fun _ => NaN) support /\
  r_sims (ripley_test support obs sim ns keep) = if keep then Some [] else None.
Proof.
  intros support obs sim ns keep N. unfold ripley_test.
  assert (E : (ns <=? 0)%Z = true) by (apply Z.leb_le; auto). rewrite E. split; reflexivity.
Qed.
Print Assumptions C60_no_simulations.

Example C60_case : exists p q, r_pvalue (ripley_test [1; 2] [Fin 1; Fin 2] (fun i => [Fin (inject_Z (Z.of_nat i)); NaN]) 9 false)
  = [Fin p; Fin q] /\ p == 1 # 10 /\ q == 1 # 10.
Proof. do 2 eexists. split; [vm_compute; reflexivity|]. split; vm_compute; reflexivity. Qed.

(** ** C61 *)
Theorem C61_linspace : forall a b n l, linspace a b n = Ok l -> 
  List.length l = Z.to_nat n /\ evenly a b l /\
  ((1 <= n)%Z -> nth 0 l 0 == a) /\ ((2 <= n)%Z -> nth (List.length l - 1) l 0 == b) /\ (0 <= n)%Z.
Proof.
  intros a b n l H. unfold linspace in H. destruct (Z.ltb_spec n 0) as [N|N]; [discriminate|].
  destruct (Z.eqb_spec n 1) as [->|N1].
  - inversion H; subst. simpl. split; [reflexivity|]. split; [|split; [reflexivity|split; lia]].
    intros i I. simpl in I. assert (i = 0)%nat as -> by lia.
    cbn. change (inject_Z 0) with 0. ring.
  - inversion H; subst; clear H. rewrite map_length, zrange_length. split; [reflexivity|].
    set (f := fun i => a + inject_Z i * ((b - a) / inject_Z (n - 1))).
    assert (V : forall i, (i < Z.to_nat n)%nat -> nth i (map f (zrange n)) 0 = f (Z.of_nat i)).
    { intros i I. rewrite (nth_indep _ 0 (f 0%Z)) by (rewrite map_length, zrange_length; auto).
      rewrite (map_nth f). unfold zrange. rewrite (nth_indep _ 0%Z (Z.of_nat 0)) by (rewrite map_length, seq_length; auto).
      rewrite (map_nth Z.of_nat), seq_nth by auto. reflexivity. }
    assert (P : (2 <= n)%Z -> 0 < inject_Z (n - 1)) by (intros; apply inject_Z_pos; lia).
    split; [|split; [|split; [|lia]]].
    + intros i I. rewrite map_length, zrange_length in I |- *. rewrite V by auto. rewrite Z2Nat.id by lia. unfold f.
      assert (P' : 0 < inject_Z (n - 1)) by (apply P; lia).
      assert (X : inject_Z (n - 1 - Z.of_nat i) == inject_Z (n - 1) - inject_Z (Z.of_nat i)).
      { unfold Z.sub. rewrite !inject_Z_plus, !inject_Z_opp. ring. }
      rewrite X. field. lra.
    + intros N2. rewrite V by lia. unfold f. cbn. change (inject_Z 0) with 0. unfold Qdiv. ring.
    + intros N2. rewrite V by lia. unfold f. rewrite Nat2Z.inj_sub, Z2Nat.id by lia. change (Z.of_nat 1) with 1%Z.
      field. specialize (P N2). lra.
Qed.
Print Assumptions C61_linspace.

Theorem C61_support : forall nnd,
  (forall n x l, nnd = Ok (x :: l) -> exists m, 
     make_support nnd (SupInt n) = linspace 0 m n /\ make_support nnd SupNone = linspace 0 m 20 /\
     (exists y, In y (x :: l) /\ y == m) /\ forall y, In y (x :: l) -> y <= m) /\
  (forall b, exists l, make_support nnd (SupStop b) = Ok l /\ linspace 0 b 20 = Ok l) /\
  (forall a b, exists l, make_support nnd (SupRange a b) = Ok l /\ linspace a b 20 = Ok l) /\
  (forall a b n, make_support nnd (SupSteps a b n) = linspace a b n) /\
  (forall l, make_support nnd (SupArr l) = Ok l) /\
  (forall a b n, linspace a b n = Raise ValueError <-> (n < 0)%Z).
Proof.
  intros nnd. split; [|split; [|split; [|split; [|split]]]].
  - intros n x l ->. exists (Qmax_list x l). split; [reflexivity|]. split; [reflexivity|].
    split; [apply Qmax_list_in|]. destruct (Qmax_list_ge l x) as [A B]. intros y [<-|Y]; auto.
  - intros b. eexists. split; reflexivity.
  - intros a b. eexists. split; reflexivity.
  - reflexivity.
  - reflexivity.
  - intros a b n. unfold linspace. destruct (Z.ltb_spec n 0).
    + split; auto.
    + destruct (Z.eqb n 1); split; try discriminate; intros; lia.
Qed.
Print Assumptions C61_support.

Theorem C61_prepare : forall coords s d m h edge nnd,
  (edge = true -> prepare coords s d m h edge nnd = Raise NotImplementedError) /\
  (forall r, prepare_hull coords h = Ok r -> edge = false ->
     (d = DNone -> m = MName "precomputed" -> prepare coords s d m h edge nnd = Raise ValueError) /\
     (d <> DNone -> (forall i, m <> MOther i) ->
        prepare coords s d m h edge nnd =
        (let! sup := make_support (nnd (MName "euclidean")) s in Ok (sup, MName "euclidean", r))) /\
     (forall i, m = MOther i -> prepare coords s d m h edge nnd = Raise TypeError)).
Proof.
  intros coords s d m h edge nnd. split; [intros ->; reflexivity|].
  intros r H ->. unfold prepare. rewrite H. simpl. split; [|split].
  - intros -> ->. reflexivity.
  - intros N M. assert (E : is_none d = false) by (destruct d; auto; tauto). rewrite E. simpl.
    destruct m; try reflexivity. exfalso. apply (M id). reflexivity.
  - intros i ->. rewrite andb_false_r. reflexivity.
Qed.
Print Assumptions C61_prepare.

Example C61_case : exists a b c d e, linspace 1 4 5 = Ok [a; b; c; d; e] /\
  a == 1 /\ b == 7#4 /\ c == 5#2 /\ d == 13#4 /\ e == 4.
Proof. do 5 eexists. split; [vm_compute; reflexivity|]. repeat split; vm_compute; reflexivity. Qed.

(** ** C26 *)
(** [D i j]: distance from empty-space point i to pattern point j (n pattern
    points, [rows] empty-space points).  The value used for empty-space point i is
    the distance to the nearest pattern point other than number i. *)
Theorem C26_exact_value : forall query rows n (D : nat -> nat -> Q),
  (forall i, (i < rows)%nat -> nearest n 2 (D i) (map snd (query i)) /\
                               forall d j, In (d, j) (query i) -> d == D i j) ->
  exists l, empty_space_distances query rows = Ok l /\ List.length l = rows /\
    forall i, (i < rows)%nat -> exists j, (j < n)%nat /\ j <> i /\ nth i l 0 == D i j /\
      (forall k, (k < n)%nat -> k <> i -> D i j <= D i k).
Proof.
  intros query rows n D H.
  assert (K : k_neighbors query rows 1 = Ok (map (fun i => kn_row 1 i (query i)) (seq 0 rows))).
  { apply (k_neighbors_rows query rows n 1 D). intros i I. apply H; auto. }
  unfold empty_space_distances. rewrite K. cbn [bind]. eexists. split; [reflexivity|].
  assert (R : forall i, (i < rows)%nat -> exists d j, kn_row 1 i (query i) = [(d, j)] /\ (j < n)%nat /\ j <> i /\
    d == D i j /\ forall k, (k < n)%nat -> k <> i -> D i j <= D i k).
  { intros i I. destruct (H i I) as [H1 H2]. destruct (kn_row_spec n 1 i (D i) (query i) H1) as [[L [ND [NI [B [S F]]]]] SUB].
    destruct (kn_row 1 i (query i)) as [|[d j] [|]]; try discriminate. simpl in *.
    exists d, j. split; [reflexivity|]. split; [apply B; auto|]. split; [intros ->; apply NI; auto|].
    split; [apply H2; apply SUB; auto|]. intros k Kn Ki.
    destruct (Nat.eq_dec k j) as [->|KJ]; [apply Qle_refl|]. apply F; auto. intros [X|[]]; auto. }
  assert (G : forall m, (m <= rows)%nat ->
    let l := map fst (List.concat (map (fun i => kn_row 1 i (query i)) (seq 0 m))) in
    List.length l = m /\ forall i, (i < m)%nat -> forall d j, kn_row 1 i (query i) = [(d, j)] -> nth i l 0 = d).
  { induction m; intros M; [split; [reflexivity|intros; lia]|].
    cbv zeta in *. rewrite seq_S, map_app, concat_app, map_app. simpl.
    destruct IHm as [I1 I2]; [lia|]. destruct (R m) as [d [j [E _]]]; [lia|]. rewrite E. simpl.
    rewrite app_length, I1. simpl. split; [lia|]. intros i I d' j' E'.
    destruct (Nat.eq_dec i m) as [->|Ni].
    - rewrite app_nth2 by lia. rewrite I1, Nat.sub_diag. rewrite E in E'. inversion E'. reflexivity.
    - rewrite app_nth1 by lia. apply (I2 i ltac:(lia) d' j' E'). }
  destruct (G rows (le_n _)) as [G1 G2]. split; [exact G1|].
  intros i I. destruct (R i I) as [d [j [E [J1 [J2 [J3 J4]]]]]]. exists j. split; [exact J1|]. split; [exact J2|].
  split; [|exact J4]. rewrite (G2 i I d j E). exact J3.
Qed.
Print Assumptions C26_exact_value.

(** Two pattern points at distance 5, the first empty-space point lies on pattern
    point 0: distance 5 is reported instead of 0. *)
Theorem C26_wrong_distance_refuted :
  let D := fun i j : nat => nth j (nth i [[0; 5]; [5; 0]] []) 0 in
  let query := fun i : nat => nth i [[(0, 0%nat); (5, 1%nat)]; [(0, 1%nat); (5, 0%nat)]] [] in
  (forall i, (i < 2)%nat -> nearest 2 2 (D i) (map snd (query i)) /\
                            forall d j, In (d, j) (query i) -> d == D i j) /\
  empty_space_distances query 2 = Ok [5; 5] /\ forall i, (i < 2)%nat -> D i i == 0.
Proof.
  cbv zeta. split; [|split].
  - intros i I. destruct i as [|[|i]]; [| |lia]; (split; [split; [reflexivity|split; [|split; [|split]]]|]).
    + repeat constructor; simpl; intuition discriminate.
    + simpl. intros j J. intuition lia.
    + intros a b AB. simpl in AB. destruct a as [|[|a]]; destruct b as [|[|b]]; try lia; vm_compute; discriminate.
    + simpl. intros j l J L NI. exfalso. apply NI. lia.
    + simpl. intros d j X. intuition; match goal with E : (_, _) = (_, _) |- _ => inversion E; subst; vm_compute; reflexivity end.
    + repeat constructor; simpl; intuition discriminate.
    + simpl. intros j J. intuition lia.
    + intros a b AB. simpl in AB. destruct a as [|[|a]]; destruct b as [|[|b]]; try lia; vm_compute; discriminate.
    + simpl. intros j l J L NI. exfalso. apply NI. lia.
    + simpl. intros d j X. intuition; match goal with E : (_, _) = (_, _) |- _ => inversion E; subst; vm_compute; reflexivity end.
  - vm_compute. reflexivity.
  - intros i I. destruct i as [|[|i]]; [| |lia]; vm_compute; reflexivity.
Qed.
Print Assumptions C26_wrong_distance_refuted.
