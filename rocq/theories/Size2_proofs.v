(** P-values as ranks, and relabellings of 0 .. n-1. *)
From Coq Require Import ZArith QArith Qminmax Qround List Bool Arith Lia Permutation Factorial Lqa.
From Verif Require Import Base BaseLemmas Quadrat_model Spacetime_model Spacetime_spec Pairs_proofs Spacetime_proofs Spacetime2_proofs Hyper_proofs Perms_proofs Size_spec Size_proofs.
Import ListNotations.
Local Open Scope Q_scope.

Lemma Qnat_pos : forall n, (0 < n)%nat -> 0 < Qnat n.
Proof. intros n H. unfold Qnat. rewrite <- (Zlt_Qlt 0). lia. Qed.
Lemma Qnat_le : forall a b, (a <= b)%nat -> Qnat a <= Qnat b.
Proof. intros a b H. unfold Qnat. rewrite <- Zle_Qle. lia. Qed.
Lemma Qnat_mul : forall a b, Qnat (a * b) == Qnat a * Qnat b.
Proof. intros. unfold Qnat. rewrite Nat2Z.inj_mul, inject_Z_mult. reflexivity. Qed.
Lemma Qnat_S : forall n, Qnat (S n) == Qnat n + 1.
Proof. intro n. unfold Qnat. rewrite Nat2Z.inj_succ. unfold Z.succ. rewrite inject_Z_plus. reflexivity. Qed.

(** The greatest k with k / (P + 1) <= alpha. *)
Definition level (alpha : Q) (P : nat) : nat := Z.to_nat (Qfloor (alpha * Qnat (S P))).
Lemma level_le : forall alpha P, 0 <= alpha -> Qnat (level alpha P) <= alpha * Qnat (S P).
Proof.
  intros alpha P A. unfold level, Qnat at 1. assert (X : 0 <= alpha * Qnat (S P)) by (apply Qmult_le_0_compat; [auto|apply Qlt_le_weak, Qnat_pos; lia]).
  rewrite Z2Nat.id by (apply Qfloor_resp_le in X; exact X). apply Qfloor_le.
Qed.
Lemma level_iff : forall alpha P c, 0 <= alpha -> Qnat c <= alpha * Qnat (S P) <-> (c <= level alpha P)%nat.
Proof.
  intros alpha P c A. split; intro H.
  - unfold level. apply Qfloor_resp_le in H. unfold Qnat at 1 in H. rewrite Qfloor_Z in H. lia.
  - apply Qle_trans with (Qnat (level alpha P)); [apply Qnat_le; auto|apply level_le; auto].
Qed.
Lemma pvalue_level : forall alpha P c, 0 <= alpha -> Qle_bool (perm_pvalue c P) alpha = Nat.leb (S c) (level alpha P).
Proof.
  intros alpha P c A. apply eq_true_iff_eq. rewrite Qle_bool_iff, Nat.leb_le, <- level_iff by auto.
  unfold perm_pvalue. rewrite <- !Qnat_S. pose proof (Qnat_pos (S P) (Nat.lt_0_succ _)) as X.
  split; intro H.
  - apply (Qmult_le_r _ _ _ X) in H. unfold Qdiv in H. rewrite <- Qmult_assoc, (Qmult_comm (/ _)), Qmult_inv_r, Qmult_1_r in H; auto.
    intro Z. rewrite Z in X. apply (Qlt_irrefl 0 X).
  - apply Qle_shift_div_r; auto.
Qed.
Lemma rate_le : forall A (f : A * list A -> bool) E P alpha, 0 <= alpha ->
  (S P * count f (draws E P) <= level alpha P * List.length E ^ S P)%nat -> rate f (draws E P) <= alpha.
Proof.
  intros A f E P alpha HA H. unfold rate. rewrite draws_length.
  destruct (Nat.eq_dec (List.length E ^ S P) 0) as [Z|NZ].
  - rewrite Z. setoid_replace (Qnat (count f (draws E P)) / Qnat 0) with 0 by (unfold Qdiv; change (/ Qnat 0) with 0; apply Qmult_0_r). exact HA.
  - apply Qle_shift_div_r; [apply Qnat_pos; lia|].
    apply Qnat_le in H. rewrite !Qnat_mul in H. pose proof (level_le alpha P HA) as L.
    pose proof (Qnat_pos (S P) (Nat.lt_0_succ _)) as X.
    apply (Qmult_le_l _ _ _ X). apply (Qle_trans _ _ _ H).
    rewrite Qmult_assoc, (Qmult_comm (Qnat (S P)) alpha). apply Qmult_le_compat_r; auto. apply (Qnat_le 0). lia.
Qed.
Lemma rate_ext : forall A (f g : A -> bool) L, (forall x, In x L -> f x = g x) -> rate f L = rate g L.
Proof. intros A f g L H. unfold rate. rewrite (count_ext _ f g L H). reflexivity. Qed.
Lemma rate_ge : forall A (f : A -> bool) (L : list A) m k, L <> [] -> (k * List.length L <= S m * count f L)%nat -> Qnat k / Qnat (S m) <= rate f L.
Proof.
  intros A f L m k N H. unfold rate. assert (LP : (0 < List.length L)%nat) by (destruct L; [contradiction|cbn; lia]).
  apply Qle_shift_div_l; [apply Qnat_pos; auto|]. apply Qnat_le in H. rewrite !Qnat_mul in H.
  pose proof (Qnat_pos (S m) (Nat.lt_0_succ _)) as X.
  setoid_replace (Qnat k / Qnat (S m) * Qnat (List.length L)) with (Qnat k * Qnat (List.length L) / Qnat (S m)) by (unfold Qdiv; ring).
  apply Qle_shift_div_r; auto. rewrite (Qmult_comm (Qnat (count f L))). exact H.
Qed.
Lemma rate_eq : forall A (f : A -> bool) (L : list A) m k, L <> [] -> (S m * count f L = k * List.length L)%nat -> rate f L == Qnat k / Qnat (S m).
Proof.
  intros A f L m k N H. unfold rate. assert (LP : (0 < List.length L)%nat) by (destruct L; [contradiction|cbn; lia]).
  assert (EQ : Qnat (S m) * Qnat (count f L) == Qnat k * Qnat (List.length L)) by (rewrite <- !Qnat_mul, H; reflexivity).
  pose proof (Qnat_pos (S m) (Nat.lt_0_succ _)) as X. pose proof (Qnat_pos _ LP) as Y.
  apply (Qmult_inj_r _ _ (Qnat (S m) * Qnat (List.length L))); [intro Z; assert (W : 0 < Qnat (S m) * Qnat (List.length L)) by (apply Qmult_lt_0_compat; auto); rewrite Z in W; apply (Qlt_irrefl _ W)|].
  setoid_replace (Qnat (count f L) / Qnat (List.length L) * (Qnat (S m) * Qnat (List.length L))) with (Qnat (S m) * Qnat (count f L)).
  2:{ field. intro Z; rewrite Z in Y; apply (Qlt_irrefl _ Y). }
  rewrite EQ. field. intro Z; rewrite Z in X; apply (Qlt_irrefl _ X).
Qed.

(** ** Composition of relabellings *)
Definition comp (r g : list nat) : list nat := map (fun j => nth j r 0%nat) g.
Lemma comp_perm : forall n r g, perm_of n r -> perm_of n g -> perm_of n (comp r g).
Proof.
  intros n r g HR HG. unfold perm_of, comp. apply perm_trans with (map (fun j => nth j r 0%nat) (seq 0 n)); [apply Permutation_map, HG|].
  destruct (perm_facts _ _ HR) as [LR _]. rewrite <- LR at 1. rewrite map_nth_seq. exact HR.
Qed.
Lemma comp_nth : forall n r g i, perm_of n g -> (i < n)%nat -> nth i (comp r g) 0%nat = nth (nth i g 0%nat) r 0%nat.
Proof.
  intros n r g i HG Hi. destruct (perm_facts _ _ HG) as [LG _]. unfold comp.
  rewrite (nth_indep _ 0%nat (nth 0 r 0%nat)) by (rewrite map_length; lia). apply (map_nth (fun j => nth j r 0%nat)).
Qed.
Lemma comp_assoc : forall n r g h, perm_of n g -> perm_of n h -> comp (comp r g) h = comp r (comp g h).
Proof.
  intros n r g h HG HH. unfold comp at 1 3. unfold comp at 2. rewrite map_map. apply map_ext_in. intros j J.
  apply (comp_nth n); auto. apply (Permutation_in _ HH), in_seq in J. lia.
Qed.
Lemma comp_right : forall n E g, Enum (seq 0 n) E -> perm_of n g -> Permutation (map (fun r => comp r g) E) E.
Proof. intros n E g HE HG. apply (enum_unique (seq 0 n)); auto. apply enum_positions; auto. Qed.
Lemma comp_left : forall n E g, Enum (seq 0 n) E -> perm_of n g -> Permutation (map (comp g) E) E.
Proof.
  intros n E g [N I] HG. apply NoDup_Permutation_bis.
  - assert (G : forall E', NoDup E' -> (forall r, In r E' -> perm_of n r) -> NoDup (map (comp g) E')).
    { induction E' as [|r E' IH]; intros NE HE; cbn [map]; constructor; inversion NE; subst.
      - intro X. apply in_map_iff in X. destruct X as [r' [X1 X2]]. assert (r' = r); [|subst; contradiction].
        pose proof (HE r (or_introl eq_refl)) as P1. pose proof (HE r' (or_intror X2)) as P2.
        destruct (perm_facts _ _ P1) as [L1 [B1 _]]. destruct (perm_facts _ _ P2) as [L2 [B2 _]]. destruct (perm_facts _ _ HG) as [_ [_ J]].
        apply (nth_ext _ _ 0%nat 0%nat); [lia|]. intros j Hj. apply J; [apply B2; lia|apply B1; lia|].
        rewrite <- (comp_nth n g r' j), <- (comp_nth n g r j) by (auto; lia). rewrite X1. reflexivity.
      - apply IH; auto. intros; apply HE; right; auto. }
    apply G; auto. intros r Hr. apply I, Hr.
  - rewrite map_length. apply le_n.
  - intros r Hr. apply in_map_iff in Hr. destruct Hr as [q [<- Hq]]. apply I. apply comp_perm; auto. apply I, Hq.
Qed.
Lemma permuted_comp : forall n t r g, perm_of n r -> perm_of n g -> permuted (permuted t r) g = permuted t (comp r g).
Proof.
  intros n t r g HR HG. unfold permuted at 1, permuted at 2, comp. rewrite map_map. apply map_ext_in. intros j J.
  apply (Permutation_in _ HG), in_seq in J. apply permuted_row. destruct (perm_facts _ _ HR) as [L _]. lia.
Qed.
(** The relabelling that fixes event [i] moves along with a relabelling that fixes it. *)
Lemma conditional_comp : forall n g r i, perm_of n g -> perm_of n r -> (i < n)%nat -> nth i g 0%nat = i ->
  conditional (comp g r) i = comp g (conditional r i).
Proof.
  intros n g r i HG HR Hi F. pose proof (comp_perm n g r HG HR) as HC.
  destruct (conditional_perm n r i HR Hi) as [PR _]. destruct (conditional_perm n _ i HC Hi) as [PC _].
  pose proof (comp_perm n g _ HG PR) as PG.
  destruct (perm_facts _ _ PC) as [L1 _]. destruct (perm_facts _ _ PG) as [L2 _]. destruct (perm_facts _ _ HR) as [LR [BR _]].
  destruct (perm_facts _ _ HC) as [LC _]. destruct (perm_facts _ _ HG) as [_ [_ J]].
  apply (nth_ext _ _ 0%nat 0%nat); [lia|]. intros j Hj. rewrite L1 in Hj.
  rewrite (comp_nth n g (conditional r i) j PR Hj). rewrite !conditional_nth by lia. rewrite !(comp_nth n g r) by auto.
  destruct (Nat.eqb_spec j i) as [E|D]; [auto|].
  destruct (Nat.eqb_spec (nth j r 0%nat) i) as [E2|D2].
  - rewrite E2, F, Nat.eqb_refl. reflexivity.
  - destruct (Nat.eqb_spec (nth (nth j r 0%nat) g 0%nat) i) as [E3|D3]; auto.
    exfalso. apply D2. apply J; auto. rewrite F. exact E3.
Qed.

(** ** Order on the values *)
Lemma xgeb_order : forall L, ~ In NaN L -> total_order xgeb L.
Proof.
  intros L N. assert (D : forall x, In x L -> x <> NaN) by (intros x X E; subst; contradiction).
  split.
  - intros x y X Y. apply D in X. apply D in Y. destruct x, y; cbn; auto; try contradiction.
    rewrite !Qle_bool_iff. destruct (Qlt_le_dec q q0); [right; apply Qlt_le_weak|left]; auto.
  - intros x y z X Y Z. apply D in X. apply D in Y. apply D in Z. destruct x, y, z; cbn; auto; try contradiction; try discriminate.
    rewrite !Qle_bool_iff. intros A B. apply (Qle_trans _ _ _ B A).
Qed.
Lemma Qle_order : forall L, total_order (fun a b : Q => Qle_bool b a) L.
Proof.
  intro L. split.
  - intros x y _ _. rewrite !Qle_bool_iff. destruct (Qlt_le_dec x y); [right; apply Qlt_le_weak|left]; auto.
  - intros x y z _ _ _. rewrite !Qle_bool_iff. intros A B. apply (Qle_trans _ _ _ B A).
Qed.
Lemma nat_order : forall L, total_order (fun a b : nat => Nat.leb b a) L.
Proof. intro L. split; intros *; rewrite !Nat.leb_le; lia. Qed.

(** ** Tests by relabelling *)
Section Tests.
Context {V : Type} (ge : V -> V -> bool) (n : nat) (E : list (list nat)).
Hypothesis HE : Enum (seq 0 n) E.
(** All simulations relabel. *)
Lemma size_relabel : forall (W : list nat -> V) P alpha f, 0 <= alpha -> total_order ge (map W E) ->
  (forall r rs, In r E -> In rs (tuples P E) ->
     f (r, rs) = Some (perm_pvalue (count (fun v => ge v (W r)) (map (fun g => W (comp r g)) rs)) P) \/ f (r, rs) = None) ->
  rate (fun d => small alpha (f d)) (draws E P) <= alpha.
Proof using HE.
  intros W P alpha f HA T F. apply rate_le; auto.
  eapply Nat.le_trans; [apply Nat.mul_le_mono_l, (count_mono _ _ (fun d => Nat.leb (S (above ge (W (fst d)) (map (fun r => W (comp (fst d) r)) (snd d)))) (level alpha P)))|].
  2:{ apply (relabel_upper ge comp (fun g => g) E).
    + intros g G. apply (comp_right n); auto. apply HE, G.
    + intros g G. rewrite map_id. apply (comp_left n); auto. apply HE, G.
    + intros r g h Hr Hg Hh. apply (comp_assoc n); apply HE; auto.
    + intros r Hr. apply (order_sub ge _ _ T). intros x X. apply in_map_iff in X. destruct X as [g [<- G]].
      apply in_map. apply HE. apply comp_perm; apply HE; auto. }
  intros [r rs] D. apply in_prod_iff in D. destruct D as [D1 D2]. destruct (F r rs D1 D2) as [X|X]; rewrite X; cbn [small fst snd]; [|discriminate].
  rewrite (pvalue_level alpha P _ HA). auto.
Qed.
(** All simulations keep event [i]. *)
Lemma size_conditional : forall i (W : list nat -> V) P alpha f, (i < n)%nat -> 0 <= alpha -> total_order ge (map W E) ->
  (forall r rs, In r E -> In rs (tuples P E) ->
     f (r, rs) = Some (perm_pvalue (count (fun v => ge v (W r)) (map (fun g => W (comp r (conditional g i))) rs)) P) \/ f (r, rs) = None) ->
  rate (fun d => small alpha (f d)) (draws E P) <= alpha.
Proof using HE.
  intros i W P alpha f Hi HA T F. apply rate_le; auto.
  assert (CP : forall g, In g E -> perm_of n (conditional g i) /\ nth i (conditional g i) 0%nat = i).
  { intros g G. apply conditional_perm; auto. apply HE, G. }
  eapply Nat.le_trans; [apply Nat.mul_le_mono_l, (count_mono _ _ (fun d => Nat.leb (S (above ge (W (fst d)) (map (fun r => W (comp (fst d) (conditional r i))) (snd d)))) (level alpha P)))|].
  2:{ apply (relabel_upper ge comp (fun g => conditional g i) E).
    + intros g G. apply (comp_right n); auto. apply CP, G.
    + intros g G. destruct (CP g G) as [C1 C2].
      rewrite (map_ext_in _ (fun r => conditional (comp (conditional g i) r) i)).
      2:{ intros r Hr. symmetry. apply (conditional_comp n); auto. apply HE, Hr. }
      rewrite <- (map_map (comp (conditional g i)) (fun r => conditional r i)). apply Permutation_map. apply (comp_left n); auto.
    + intros r g h Hr Hg Hh. apply (comp_assoc n); apply CP; auto.
    + intros r Hr. apply (order_sub ge _ _ T). intros x X. apply in_map_iff in X. destruct X as [g [<- G]].
      apply in_map. apply HE. apply comp_perm; [apply HE; auto|apply CP; auto]. }
  intros [r rs] D. apply in_prod_iff in D. destruct D as [D1 D2]. destruct (F r rs D1 D2) as [X|X]; rewrite X; cbn [small fst snd]; [|discriminate].
  rewrite (pvalue_level alpha P _ HA). auto.
Qed.
End Tests.

(** ** Successive relabellings *)
Fixpoint chain (r : list nat) (rs : list (list nat)) : list (list nat) :=
  match rs with
  | [] => []
  | g :: rs' => comp r g :: chain (comp r g) rs'
  end.
Lemma chain_sum : forall n E P r F, Enum (seq 0 n) E -> perm_of n r -> tot (tuples P E) (fun rs => F (chain r rs)) = tot (tuples P E) F.
Proof.
  intros n E P r F HE. revert r F. induction P as [|P IH]; intros r F HR; [reflexivity|]. rewrite !tuples_S. cbn [chain].
  rewrite (tot_ext _ _ _ (fun g => tot (tuples P E) (fun l => F (comp r g :: l)))).
  - rewrite <- (tot_map _ _ (comp r) E (fun x => tot (tuples P E) (fun l => F (x :: l)))). apply tot_perm. apply (comp_left n); auto.
  - intros g G. rewrite (IH (comp r g) (fun l => F (comp r g :: l))); auto. apply comp_perm; auto. apply HE, G.
Qed.
Lemma draws_map : forall A B (h : A -> B) E P, draws (map h E) P = map (fun d => (h (fst d), map h (snd d))) (draws E P).
Proof.
  intros. unfold draws. rewrite tuples_map. generalize (tuples P E). intro T. induction E as [|x E IH]; [reflexivity|].
  cbn [map list_prod]. rewrite map_app, IH. f_equal. rewrite !map_map. reflexivity.
Qed.
Lemma filter_map' : forall A B (h : A -> B) p L, filter p (map h L) = map h (filter (fun x => p (h x)) L).
Proof. induction L as [|x L IH]; [reflexivity|]. cbn [map filter]. rewrite IH. destruct (p (h x)); reflexivity. Qed.
Lemma count_outside : forall a b m, (a <= m)%nat -> (1 <= b <= S m)%nat ->
  count (fun r => Nat.leb r a || Nat.leb b r) (seq 1 m) = Nat.min m (a + (S m - b)).
Proof.
  intros a b m A B. destruct (le_lt_dec b (S a)) as [L|L].
  - rewrite count_all; [rewrite seq_length; lia|]. intros x _. destruct (Nat.leb_spec x a); [reflexivity|]. cbn [orb]. apply Nat.leb_le. lia.
  - assert (X : forall l, (count (fun r => Nat.leb r a || Nat.leb b r) l + count (fun r => Nat.leb r (b - 1)) l = count (fun r => Nat.leb r a) l + List.length l)%nat).
    { induction l as [|x l IH]; [reflexivity|]. rewrite !count_cons. cbn [List.length].
      destruct (Nat.leb_spec x a); destruct (Nat.leb_spec b x); destruct (Nat.leb_spec x (b - 1)); cbn [orb]; lia. }
    specialize (X (seq 1 m)). rewrite !count_seq, seq_length in X. lia.
Qed.
(** A folded p-value is at most k / (S + 1). *)
Lemma folded_level : forall P c k, (c <= P)%nat -> let p := (inject_Z (Z.of_nat c + 1)) / inject_Z (Z.of_nat P + 1) in
  Qle_bool (Qmin p (1 - p)) (Qnat k / Qnat (S P)) = Nat.leb (S c) k || Nat.leb (S P - k) (S c).
Proof.
  intros P c k C p.
  assert (X : 0 < Qnat (S P)) by (apply Qnat_pos; lia).
  assert (EP : p == Qnat (S c) / Qnat (S P)).
  { unfold p. assert (E1 : forall m, inject_Z (Z.of_nat m + 1) == Qnat (S m)) by (intro m; unfold Qnat; rewrite Nat2Z.inj_succ; reflexivity). rewrite !E1. reflexivity. }
  assert (E2 : 1 - p == Qnat (P - c) / Qnat (S P)).
  { rewrite EP. assert (Y : Qnat (S P) == Qnat (S c) + Qnat (P - c)).
    { unfold Qnat. rewrite <- inject_Z_plus. apply inject_Z_injective. lia. }
    rewrite Y. field. rewrite <- Y. intro Z. rewrite Z in X. apply (Qlt_irrefl _ X). }
  assert (D : forall a b, Qnat a / Qnat (S P) <= Qnat b / Qnat (S P) <-> (a <= b)%nat).
  { intros a b. unfold Qdiv. rewrite (Qmult_le_r _ _ (/ Qnat (S P))) by (apply Qinv_lt_0_compat, X). unfold Qnat. rewrite <- Zle_Qle. lia. }
  apply eq_true_iff_eq. rewrite orb_true_iff, !Nat.leb_le, Qle_bool_iff.
  assert (M : Qmin p (1 - p) <= Qnat k / Qnat (S P) <-> p <= Qnat k / Qnat (S P) \/ 1 - p <= Qnat k / Qnat (S P)).
  { apply Q.min_le_iff. }
  rewrite M, E2, EP, !D. lia.
Qed.
