(** All permutations of a list: sums over them, and the law of the image of a set. *)
From Coq Require Import List Bool Arith Lia Permutation Factorial.
From Verif Require Import Base BaseLemmas Spacetime_model Spacetime_spec Pairs_proofs Spacetime_proofs Hyper_proofs.
Import ListNotations.
Local Open Scope nat_scope.

(** [E] lists every rearrangement of [l] exactly once. *)
Definition Enum (l : list nat) (E : list (list nat)) : Prop :=
  NoDup E /\ forall r, In r E <-> Permutation r l.

(** Ways to pick an element, with the remaining ones. *)
Fixpoint sel (l : list nat) : list (nat * list nat) :=
  match l with
  | [] => []
  | a :: l' => (a, l') :: map (fun p => (fst p, a :: snd p)) (sel l')
  end.
Fixpoint perms_n (n : nat) (l : list nat) : list (list nat) :=
  match n with
  | O => [[]]
  | S m => flat_map (fun p => map (cons (fst p)) (perms_n m (snd p))) (sel l)
  end.
Definition all_perms (l : list nat) : list (list nat) := perms_n (length l) l.

Lemma sel_perm : forall l p, In p (sel l) -> Permutation (fst p :: snd p) l.
Proof.
  induction l as [|a l IH]; intros p H; [destruct H|]. cbn [sel] in H. destruct H as [<-|H]; [apply Permutation_refl|].
  apply in_map_iff in H. destruct H as [q [<- H]]. cbn [fst snd]. apply perm_trans with (a :: fst q :: snd q); [apply perm_swap|].
  apply perm_skip, IH, H.
Qed.
Lemma sel_len : forall l p, In p (sel l) -> S (length (snd p)) = length l.
Proof. intros l p H. apply sel_perm in H. apply Permutation_length in H. exact H. Qed.
Lemma sel_fst : forall l, map fst (sel l) = l.
Proof. induction l as [|a l IH]; [reflexivity|]. cbn [sel map fst]. rewrite map_map. f_equal. exact IH. Qed.
Lemma sel_nodup : forall l p, NoDup l -> In p (sel l) -> NoDup (snd p) /\ ~ In (fst p) (snd p) /\ In (fst p) l /\
  (forall x, In x (snd p) <-> In x l /\ x <> fst p).
Proof.
  intros l p N H. apply sel_perm in H.
  assert (N' : NoDup (fst p :: snd p)) by (apply (Permutation_NoDup (Permutation_sym H)); auto).
  inversion N' as [|? ? N1 N2]; subst. split; auto. split; auto. split; [apply (Permutation_in _ H); left; auto|].
  intro x. split.
  - intro X. split; [apply (Permutation_in _ H); right; auto|]. intros ->. contradiction.
  - intros [X D]. apply (Permutation_in _ (Permutation_sym H)) in X. destruct X as [X|X]; [congruence|auto].
Qed.
Lemma sel_in : forall l a, In a l -> exists l', In (a, l') (sel l).
Proof.
  intros l a H. rewrite <- (sel_fst l) in H. apply in_map_iff in H. destruct H as [[b l'] [E H]]. cbn [fst] in E. subst b. exists l'. auto.
Qed.

Lemma perms_n_in : forall n l r, length l = n -> NoDup l -> (In r (perms_n n l) <-> Permutation r l).
Proof.
  induction n; intros l r L N.
  - destruct l; [|discriminate]. cbn [perms_n]. split.
    + intros [<-|[]]. apply Permutation_refl.
    + intro P. apply Permutation_sym, Permutation_nil in P. subst. left. reflexivity.
  - cbn [perms_n]. rewrite in_flat_map. split.
    + intros [p [P R]]. apply in_map_iff in R. destruct R as [r' [<- R]].
      pose proof (sel_nodup _ _ N P) as [N2 _]. pose proof (sel_len _ _ P) as LL.
      apply IHn in R; [|lia|auto]. apply perm_trans with (fst p :: snd p); [apply perm_skip, R|apply sel_perm, P].
    + intro P. destruct r as [|a r]; [apply Permutation_length in P; simpl in P; lia|].
      destruct (sel_in l a) as [l' X]; [apply (Permutation_in _ P); left; auto|].
      exists (a, l'). split; auto. cbn [fst snd]. apply in_map. pose proof (sel_nodup _ _ N X) as [N2 _].
      pose proof (sel_len _ _ X) as LL. cbn [snd] in *. apply IHn; [lia|auto|].
      apply Permutation_cons_inv with a. apply perm_trans with l; auto. apply Permutation_sym. apply (sel_perm _ _ X).
Qed.
Lemma NoDup_flat_map : forall A B (f : A -> list B) (key : B -> A -> Prop) l, NoDup l ->
  (forall a, In a l -> NoDup (f a)) -> (forall a b x, In a l -> In b l -> In x (f a) -> In x (f b) -> a = b) ->
  NoDup (flat_map f l).
Proof.
  intros A B f _ l. induction l as [|a l IH]; intros N F D; [constructor|]. inversion N; subst. cbn [flat_map].
  apply NoDup_app'.
  - apply F. left; auto.
  - apply IH; auto; intros; [apply F; right; auto|eapply D; eauto; right; auto].
  - intros x X Y. apply in_flat_map in Y. destruct Y as [b [Y1 Y2]].
    assert (a = b) by (eapply D; eauto; [left; auto|right; auto]). subst. contradiction.
Qed.
Lemma perms_n_nodup : forall n l, length l = n -> NoDup l -> NoDup (perms_n n l).
Proof.
  induction n; intros l L N; cbn [perms_n]; [constructor; [intros []|constructor]|].
  apply (NoDup_flat_map _ _ _ (fun _ _ => True)).
  - apply (NoDup_map_inv fst). rewrite sel_fst. exact N.
  - intros p P. apply FinFun.Injective_map_NoDup; [intros x y E; injection E; auto|].
    apply IHn; [pose proof (sel_len _ _ P); lia|apply (sel_nodup _ _ N P)].
  - intros p q x P Q X Y. apply in_map_iff in X, Y. destruct X as [x1 [<- _]], Y as [y1 [E _]]. injection E as E _.
    assert (G : forall l', NoDup (map fst l') -> forall p q : nat * list nat, In p l' -> In q l' -> fst q = fst p -> p = q).
    { clear. induction l' as [|a l' IH]; intros N p q P Q E; [destruct P|]. cbn [map] in N. inversion N as [|? ? N1 N2]; subst.
      destruct P as [P|P], Q as [Q|Q]; try congruence.
      - subst a. exfalso. apply N1. rewrite <- E. apply in_map; auto.
      - subst a. exfalso. apply N1. rewrite E. apply in_map; auto.
      - apply IH; auto. }
    apply (G (sel l)); auto. rewrite sel_fst. auto.
Qed.
Lemma all_perms_enum : forall l, NoDup l -> Enum l (all_perms l).
Proof.
  intros l N. split; [apply perms_n_nodup; auto|]. intro r. apply perms_n_in; auto.
Qed.
Lemma enum_unique : forall l E1 E2, Enum l E1 -> Enum l E2 -> Permutation E1 E2.
Proof. intros l E1 E2 [N1 I1] [N2 I2]. apply NoDup_Permutation; auto. intro r. rewrite I1, I2. tauto. Qed.

Lemma perms_n_length : forall n l, length l = n -> length (perms_n n l) = fact n.
Proof.
  induction n; intros l L; [reflexivity|]. cbn [perms_n].
  assert (G : forall ps, (forall p, In p ps -> length (snd p) = n) ->
    length (flat_map (fun p : nat * list nat => map (cons (fst p)) (perms_n n (snd p))) ps) = length ps * fact n).
  { induction ps as [|p ps IHp]; intros H; [reflexivity|]. cbn [flat_map]. rewrite app_length, map_length.
    rewrite IHn by (apply H; left; auto). rewrite IHp by (intros; apply H; right; auto). reflexivity. }
  rewrite G by (intros p P; pose proof (sel_len _ _ P); lia).
  rewrite <- (map_length fst), sel_fst, L. reflexivity.
Qed.
Lemma enum_length : forall l E, NoDup l -> Enum l E -> length E = fact (length l).
Proof.
  intros l E N H. rewrite (Permutation_length (enum_unique _ _ _ H (all_perms_enum l N))). apply perms_n_length. reflexivity.
Qed.

(** Sums over all permutations. *)
Definition psum (l : list nat) (F : list nat -> nat) : nat := list_sum (map F (all_perms l)).
Lemma enum_sum : forall l E F, NoDup l -> Enum l E -> list_sum (map F E) = psum l F.
Proof. intros l E F N H. apply list_sum_perm, Permutation_map, (enum_unique l); auto. apply all_perms_enum; auto. Qed.
Lemma psum_ext : forall l F G, NoDup l -> (forall r, Permutation r l -> F r = G r) -> psum l F = psum l G.
Proof.
  intros l F G N H. apply list_sum_map_ext. intros r R. apply H. apply (all_perms_enum l N). exact R.
Qed.
Lemma list_sum_flat_map : forall A B (f : A -> list B) (g : B -> nat) l,
  list_sum (map g (flat_map f l)) = list_sum (map (fun a => list_sum (map g (f a))) l).
Proof.
  induction l as [|a l IH]; [reflexivity|]. cbn [flat_map]. rewrite map_app, list_sum_app', IH. reflexivity.
Qed.
Lemma psum_step : forall l F, l <> [] ->
  psum l F = list_sum (map (fun p => psum (snd p) (fun r => F (fst p :: r))) (sel l)).
Proof.
  intros l F N. unfold psum, all_perms. destruct l as [|a l]; [contradiction|]. cbn [length perms_n].
  rewrite list_sum_flat_map. apply list_sum_map_ext. intros p P. rewrite map_map.
  pose proof (sel_len _ _ P) as L. cbn [length] in L. injection L as ->. reflexivity.
Qed.
(** A sum over the picks that depends on the picked element only. *)
Lemma sel_sum : forall l (g : nat -> nat), list_sum (map (fun p => g (fst p)) (sel l)) = list_sum (map g l).
Proof. intros l g. rewrite <- (map_map fst g), sel_fst. reflexivity. Qed.

(** Renaming the values. *)
Lemma psum_rename : forall l l' (h : nat -> nat) F, NoDup l -> NoDup l' ->
  (forall x y, In x l -> In y l -> h x = h y -> x = y) -> Permutation (map h l) l' ->
  psum l (fun r => F (map h r)) = psum l' F.
Proof.
  intros l l' h F N N' I P. unfold psum at 1. rewrite <- map_map. apply enum_sum; auto.
  assert (ND : NoDup (map (map h) (all_perms l))).
  { assert (G : forall E, NoDup E -> (forall r, In r E -> incl r l) -> NoDup (map (map h) E)).
    { induction E as [|r E IH]; intros NE HE; cbn [map]; constructor; inversion NE; subst.
      - intro X. apply in_map_iff in X. destruct X as [r' [X1 X2]].
        assert (G : forall a b, incl a l -> incl b l -> map h a = map h b -> a = b).
        { clear - I. induction a as [|x a IH]; intros [|y b] A B E; try discriminate; auto. injection E as E1 E2. f_equal.
          - apply I; [apply A; left; auto|apply B; left; auto|auto].
          - apply IH; auto; intros z Z; [apply A|apply B]; right; auto. }
        apply G in X1; [subst; contradiction|apply HE; right; auto|apply HE; left; auto].
      - apply IH; auto. intros; apply HE; right; auto. }
    destruct (all_perms_enum l N) as [NE IE]. apply G; auto. intros r R x X. apply IE in R. apply (Permutation_in _ R X). }
  assert (IN : incl (map (map h) (all_perms l)) (all_perms l')).
  { intros r R. apply in_map_iff in R. destruct R as [r0 [<- R]]. apply (all_perms_enum l N) in R.
    apply (all_perms_enum l' N'). apply perm_trans with (map h l); auto. apply Permutation_map, R. }
  assert (L : length (all_perms l') <= length (map (map h) (all_perms l))).
  { rewrite map_length. unfold all_perms. rewrite !perms_n_length by reflexivity.
    apply Permutation_length in P. rewrite map_length in P. rewrite P. reflexivity. }
  pose proof (NoDup_Permutation_bis ND L IN) as PP. split; auto. intro r. rewrite <- (proj2 (all_perms_enum l' N') r).
  split; apply Permutation_in; [|apply Permutation_sym]; exact PP.
Qed.
(** Renaming the positions. *)
Lemma enum_positions : forall n E pos, Enum (seq 0 n) E -> perm_of n pos ->
  Enum (seq 0 n) (map (fun r => map (fun j => nth j r 0) pos) E).
Proof.
  intros n E pos [N I] P. destruct (perm_facts _ _ P) as [LP [BP IP]].
  assert (AP : forall r, perm_of n r -> perm_of n (map (fun j => nth j r 0) pos)).
  { intros r R. unfold perm_of. apply perm_trans with (map (fun j => nth j r 0) (seq 0 n)); [apply Permutation_map, P|].
    destruct (perm_facts _ _ R) as [LR _]. rewrite <- LR at 1. rewrite map_nth_seq. exact R. }
  assert (ND : NoDup (map (fun r => map (fun j => nth j r 0) pos) E)).
  { assert (G : forall E', NoDup E' -> (forall r, In r E' -> perm_of n r) -> NoDup (map (fun r => map (fun j => nth j r 0) pos) E')).
    { induction E' as [|r E' IH]; intros NE HE; cbn [map]; constructor; inversion NE; subst.
      - intro X. apply in_map_iff in X. destruct X as [r' [X1 X2]].
        assert (r' = r); [|subst; contradiction].
        destruct (perm_facts _ _ (HE r (or_introl eq_refl))) as [L1 _].
        destruct (perm_facts _ _ (HE r' (or_intror X2))) as [L2 _].
        apply (nth_ext _ _ 0 0); [lia|]. intros j Hj.
        assert (Y : In j pos) by (apply (Permutation_in _ (Permutation_sym P)), in_seq; lia).
        apply (In_nth _ _ 0) in Y. destruct Y as [m [M1 M2]].
        assert (Z : forall q, nth m (map (fun j => nth j q 0) pos) 0 = nth j q 0).
        { intro q. rewrite (nth_indep _ 0 (nth 0 q 0)) by (rewrite map_length; auto). rewrite (map_nth (fun j => nth j q 0)). rewrite M2. reflexivity. }
        rewrite <- (Z r), <- (Z r'), X1. reflexivity.
      - apply IH; auto. intros; apply HE; right; auto. }
    apply G; auto. intros r R. apply I, R. }
  assert (IN : incl (map (fun r => map (fun j => nth j r 0) pos) E) E).
  { intros r R. apply in_map_iff in R. destruct R as [q [<- R]]. apply I. apply AP. apply I, R. }
  assert (PP : Permutation (map (fun r => map (fun j => nth j r 0) pos) E) E).
  { apply NoDup_Permutation_bis; auto. rewrite map_length. reflexivity. }
  split; auto. intro r. rewrite <- I. split; apply Permutation_in; [|apply Permutation_sym]; exact PP.
Qed.

(** A set of positions can be listed first. *)
Lemma complete : forall n A, NoDup A -> (forall x, In x A -> x < n) -> exists rest, perm_of n (A ++ rest).
Proof.
  intros n A N B. exists (filter (fun x => negb (mem x A)) (seq 0 n)). unfold perm_of. apply NoDup_Permutation.
  - apply NoDup_app'; auto; [apply NoDup_filter, seq_NoDup|]. intros x X Y. apply filter_In in Y. destruct Y as [_ Y].
    apply mem_iff in X. rewrite X in Y. discriminate.
  - apply seq_NoDup.
  - intro x. rewrite in_app_iff, filter_In, in_seq. split.
    + intros [X|[X _]]; [apply B in X|]; lia.
    + intro X. destruct (mem x A) eqn:M; [left; apply mem_iff; auto|right; split; auto].
Qed.

(** Sum over all permutations of a function of the image of [i] and of the list [S]. *)
Lemma image_sum : forall n E i S (G : nat -> list nat -> nat), Enum (seq 0 n) E -> i < n -> NoDup S -> ~ In i S ->
  (forall x, In x S -> x < n) ->
  list_sum (map (fun r => G (nth i r 0) (map (fun j => nth j r 0) S)) E) =
  list_sum (map (fun p => psum (snd p) (fun r => G (fst p) (firstn (length S) r))) (sel (seq 0 n))).
Proof.
  intros n E i S G HE Hi NS NI BS.
  destruct (complete n (i :: S)) as [rest PR]; [constructor; auto|intros x [<-|X]; auto|].
  pose proof (enum_positions n E _ HE PR) as HE2.
  set (F := fun p => G (hd 0 p) (firstn (length S) (tl p))).
  rewrite (list_sum_map_ext _ _ (fun r => F (map (fun j => nth j r 0) ((i :: S) ++ rest)))).
  - rewrite <- (map_map (fun r => map (fun j => nth j r 0) ((i :: S) ++ rest)) F).
    rewrite (enum_sum (seq 0 n)); [|apply seq_NoDup|exact HE2].
    rewrite psum_step by (destruct n; [lia|discriminate]). reflexivity.
  - intros r _. unfold F. cbn [app map hd tl]. rewrite map_app. f_equal.
    rewrite firstn_app, map_length, Nat.sub_diag. cbn [firstn]. rewrite app_nil_r.
    rewrite firstn_all2 by (rewrite map_length; auto). reflexivity.
Qed.

(** Binomial absorption. *)
Lemma binom_0 : forall n, binom n 0 = 1.
Proof. destruct n; reflexivity. Qed.
Lemma binom_absorb : forall n k, S n * binom n k = S k * binom (S n) (S k).
Proof.
  induction n; intros k.
  - destruct k as [|[|k]]; simpl; lia.
  - change (binom (S (S n)) (S k)) with (binom (S n) k + binom (S n) (S k)). destruct k as [|k].
    + pose proof (IHn 0) as A. rewrite binom_0 in *. lia.
    + pose proof (IHn k) as A. pose proof (IHn (S k)) as B.
      change (binom (S n) (S k)) with (binom n k + binom n (S k)) in *. nia.
Qed.
Lemma binom_over : forall n k, n < k -> binom n k = 0.
Proof. induction n; intros [|k] H; try lia; [reflexivity|]. cbn [binom]. rewrite !IHn by lia. reflexivity. Qed.
Lemma fact_binom : forall m N, N <= m -> fact N * fact (m - N) * binom m N = fact m.
Proof.
  induction m; intros N H.
  - replace N with 0 by lia. reflexivity.
  - destruct N as [|N]; [cbn [binom Nat.sub]; change (fact 0) with 1; lia|].
    pose proof (IHm N ltac:(lia)) as A. pose proof (binom_absorb m N) as B. cbn [Nat.sub].
    change (fact (S N)) with (S N * fact N). change (fact (S m)) with (S m * fact m). rewrite <- A.
    transitivity (fact N * fact (m - N) * (S N * binom (S m) (S N))); [ring|]. rewrite <- B. ring.
Qed.

(** Number of permutations whose first [N] values contain exactly [k] with [f]. *)
Definition law (m K N k : nat) : nat :=
  if Nat.leb k N then fact N * fact (m - N) * (binom K k * binom (m - K) (N - k)) else 0.
Lemma law_step : forall m K N k, K <= S m ->
  K * (match k with O => 0 | S k' => law m (K - 1) N k' end) + (S m - K) * law m K N k = law (S m) K (S N) k.
Proof.
  intros m K N k HK. unfold law. change (S m - S N) with (m - N).
  assert (F : fact (S N) = S N * fact N) by reflexivity.
  destruct k as [|k].
  - cbn [Nat.leb]. rewrite !Nat.sub_0_r. assert (B0 : binom K 0 = 1) by (destruct K; reflexivity). rewrite B0.
    destruct (S m - K) as [|q] eqn:Q.
    + assert (Z : binom 0 (S N) = 0) by reflexivity. rewrite Z. lia.
    + replace (m - K) with q by lia. pose proof (binom_absorb q N) as A. rewrite F.
      transitivity (fact N * fact (m - N) * (S q * binom q N)); [ring|]. rewrite A. ring.
  - change (Nat.leb (S k) (S N)) with (Nat.leb k N). destruct (Nat.leb_spec k N) as [L|L], (Nat.leb_spec (S k) N) as [L'|L']; try lia.
    + destruct K as [|K].
      * assert (Z : binom 0 (S k) = 0) by reflexivity. rewrite Z. rewrite !Nat.mul_0_l, !Nat.mul_0_r. reflexivity.
      * replace (S K - 1) with K by lia. replace (S N - S k) with (N - k) by lia.
        pose proof (binom_absorb K k) as A.
        replace (m - K) with (S m - S K) by lia.
        destruct (S m - S K) as [|q] eqn:Q.
        -- assert (Z : binom 0 (N - k) = 0) by (destruct (N - k) eqn:?; [lia|reflexivity]). rewrite Z. lia.
        -- replace (m - S K) with q by lia. destruct (N - k) as [|w] eqn:W; [lia|]. replace (N - S k) with w by lia.
           pose proof (binom_absorb q w) as B. rewrite F. replace (S N) with (S k + S w) by lia.
           transitivity (fact N * fact (m - N) * ((S K * binom K k) * binom (S q) (S w) + binom (S K) (S k) * (S q * binom q w))); [ring|].
           rewrite A, B. ring.
    + assert (k = N) by lia. subst k. rewrite !Nat.sub_diag. destruct K as [|K].
      * assert (Z : binom 0 (S N) = 0) by reflexivity. rewrite Z. lia.
      * replace (S K - 1) with K by lia. pose proof (binom_absorb K N) as A.
        replace (m - K) with (S m - S K) by lia. assert (B0 : binom (S m - S K) 0 = 1) by (destruct (S m - S K); reflexivity).
        rewrite F, B0. transitivity (fact N * fact (m - N) * (S K * binom K N)); [ring|]. rewrite A. ring.
Qed.
Lemma sum_two : forall (f : nat -> bool) (a b : nat) l,
  list_sum (map (fun x => if f x then a else b) l) = count f l * a + (length l - count f l) * b.
Proof.
  intros f a b. induction l as [|x l IH]; [reflexivity|]. rewrite count_cons. cbn [map list_sum fold_right length].
  change (fold_right Init.Nat.add 0) with list_sum. rewrite IH. pose proof (count_le_length _ f l).
  destruct (f x).
  - cbn [Nat.add Nat.sub]. ring.
  - cbn [Nat.add]. rewrite Nat.sub_succ_l by auto. ring.
Qed.
Lemma count_cons_ind : forall A (f : A -> bool) x l, count f (x :: l) = ind (f x) + count f l.
Proof. intros. rewrite count_cons. reflexivity. Qed.
Lemma psum_law : forall f N l k, NoDup l -> N <= length l ->
  psum l (fun r => ind (Nat.eqb (count f (firstn N r)) k)) = law (length l) (count f l) N k.
Proof.
  intros f. induction N; intros l k ND L.
  - unfold psum. rewrite (list_sum_map_ext _ _ (fun _ => ind (Nat.eqb 0 k))) by reflexivity.
    rewrite list_sum_const. unfold all_perms. rewrite perms_n_length by reflexivity. unfold law. rewrite !Nat.sub_0_r.
    destruct k; cbn [Nat.eqb Nat.leb ind]; [|lia]. cbn [Nat.sub].
    assert (B0 : forall q, binom q 0 = 1) by (destruct q; reflexivity). rewrite !B0. change (fact 0) with 1. lia.
  - assert (LN : l <> []) by (intros ->; simpl in L; lia). rewrite psum_step by auto.
    destruct (length l) as [|m] eqn:LM; [lia|].
    pose proof (count_le_length _ f l) as CL. rewrite LM in CL.
    rewrite <- law_step by auto.
    rewrite (list_sum_map_ext _ _ (fun p => (fun x => if f x then (match k with O => 0 | S k' => law m (count f l - 1) N k' end)
                                              else law m (count f l) N k) (fst p))).
    + rewrite (sel_sum l (fun x => if f x then (match k with O => 0 | S k' => law m (count f l - 1) N k' end)
                                              else law m (count f l) N k)).
      rewrite sum_two, LM. reflexivity.
    + intros p P. destruct (sel_nodup _ _ ND P) as [N2 _]. pose proof (sel_len _ _ P) as L2. rewrite LM in L2. injection L2 as L2.
      pose proof (count_perm _ f _ _ (sel_perm _ _ P)) as C. rewrite count_cons_ind in C.
      destruct (f (fst p)) eqn:Fp; cbn [ind] in C.
      * destruct k as [|k].
        -- unfold psum. rewrite (list_sum_map_ext _ _ (fun _ => 0)); [rewrite list_sum_const; lia|].
           intros r _. cbn [firstn]. rewrite count_cons_ind, Fp. reflexivity.
        -- rewrite <- C. replace (1 + count f (snd p) - 1) with (count f (snd p)) by lia. rewrite <- L2. rewrite <- IHN by (auto; lia).
           apply psum_ext; auto. intros r _. cbn [firstn]. rewrite count_cons_ind, Fp. reflexivity.
      * rewrite <- C. cbn [Nat.add]. rewrite <- L2. rewrite <- IHN by (auto; lia). apply psum_ext; auto.
        intros r _. cbn [firstn]. rewrite count_cons_ind, Fp. reflexivity.
Qed.
Lemma law_choose : forall f (l : list nat) N k,
  law (length l) (count f l) N k = fact N * fact (length l - N) * count (fun A => Nat.eqb (count f A) k) (choose N l).
Proof. intros. rewrite hyper_count. unfold law. destruct (Nat.leb k N); [reflexivity|lia]. Qed.
Lemma count_sum : forall A (f : A -> bool) l, count f l = list_sum (map (fun x => ind (f x)) l).
Proof. intros. apply filter_ind. Qed.
Lemma list_sum_scale : forall A (g : A -> nat) c l, list_sum (map (fun x => c * g x) l) = c * list_sum (map g l).
Proof. induction l as [|a l IH]; [simpl; lia|]. cbn [map list_sum fold_right] in *. change (fold_right Init.Nat.add 0) with list_sum in *. rewrite IH. ring. Qed.

(** Permutations with at least [x] such values, by subsets. *)
Lemma psum_at_least : forall f N l x, NoDup l -> N <= length l ->
  psum l (fun r => ind (Nat.leb x (count f (firstn N r)))) =
  fact N * fact (length l - N) * count (fun A => Nat.leb x (count f A)) (choose N l).
Proof.
  intros f N l x ND L.
  pose proof (count_compl _ (fun r => count f (firstn N r)) (all_perms l) x) as C1.
  pose proof (count_compl _ (fun A => count f A) (choose N l) x) as C2.
  rewrite choose_length in C2. unfold all_perms in C1 at 3. rewrite perms_n_length in C1 by reflexivity.
  rewrite <- (fact_binom (length l) N L) in C1. rewrite <- C2 in C1.
  rewrite (count_below _ (fun r => count f (firstn N r))) in C1. rewrite (count_below _ (fun A => count f A)) in C1.
  assert (E : nsum (map (fun k => count (fun a => Nat.eqb (count f (firstn N a)) k) (all_perms l)) (seq 0 x)) =
    fact N * fact (length l - N) * nsum (map (fun k => count (fun a => Nat.eqb (count f a) k) (choose N l)) (seq 0 x))).
  { change nsum with list_sum. rewrite <- list_sum_scale. apply list_sum_map_ext. intros k _.
    rewrite <- law_choose, <- psum_law by auto. rewrite count_sum. reflexivity. }
  rewrite E in C1. unfold psum. rewrite <- count_sum. lia.
Qed.

(** Sum over all permutations of a function of one image, and of two. *)
Lemma psum_const : forall l c, psum l (fun _ => c) = fact (length l) * c.
Proof. intros. unfold psum. rewrite list_sum_const. unfold all_perms. rewrite perms_n_length; reflexivity. Qed.
Lemma one_image : forall n E i (g : nat -> nat), Enum (seq 0 n) E -> i < n ->
  list_sum (map (fun r => g (nth i r 0)) E) = fact (n - 1) * list_sum (map g (seq 0 n)).
Proof.
  intros n E i g HE Hi. pose proof (image_sum n E i [] (fun x _ => g x) HE Hi (NoDup_nil _) ltac:(intros []) ltac:(intros x [])) as X.
  cbn [map] in X. rewrite X. rewrite (list_sum_map_ext _ _ (fun p => fact (n - 1) * g (fst p))).
  - rewrite list_sum_scale, (sel_sum _ g). reflexivity.
  - intros p P. rewrite psum_const. pose proof (sel_len _ _ P) as L. rewrite seq_length in L. replace (n - 1) with (length (snd p)) by lia. reflexivity.
Qed.
Lemma two_images : forall n E i j (g : nat -> nat -> nat), Enum (seq 0 n) E -> i < n -> j < n -> i <> j ->
  list_sum (map (fun r => g (nth i r 0) (nth j r 0)) E) =
  fact (n - 2) * (total g n - diagonal g n).
Proof.
  intros n E i j g HE Hi Hj D.
  pose proof (image_sum n E i [j] (fun x l => g x (hd 0 l)) HE Hi ltac:(constructor; [intros []|constructor])
    ltac:(intros [X|[]]; congruence) ltac:(intros x [<-|[]]; auto)) as X. cbn [map hd length] in X. rewrite X. clear X.
  assert (T : total g n - diagonal g n = list_sum (map (fun x => list_sum (map (g x) (seq 0 n)) - g x x) (seq 0 n))).
  { unfold total, diagonal.
    assert (G : forall l, (forall x, In x l -> In x (seq 0 n)) -> list_sum (map (fun i0 => list_sum (map (g i0) (seq 0 n))) l) - list_sum (map (fun i0 => g i0 i0) l) =
      list_sum (map (fun x => list_sum (map (g x) (seq 0 n)) - g x x) l) /\
      list_sum (map (fun i0 => g i0 i0) l) <= list_sum (map (fun i0 => list_sum (map (g i0) (seq 0 n))) l)).
    { induction l as [|a l IH]; intros H; [split; reflexivity|]. destruct (IH ltac:(intros; apply H; right; auto)) as [I1 I2].
      assert (A : g a a <= list_sum (map (g a) (seq 0 n))).
      { specialize (H a (or_introl eq_refl)). revert H. generalize (seq 0 n). induction l0 as [|b m IHm]; [intros []|].
        cbn [map list_sum fold_right]. change (fold_right Init.Nat.add 0) with list_sum. intros [->|H]; [lia|]. specialize (IHm H). lia. }
      cbn [map list_sum fold_right]. change (fold_right Init.Nat.add 0) with list_sum. split; lia. }
    apply (G (seq 0 n)). auto. }
  rewrite T, <- list_sum_scale.
  rewrite <- (sel_sum (seq 0 n) (fun x => fact (n - 2) * (list_sum (map (g x) (seq 0 n)) - g x x))).
  apply list_sum_map_ext. intros [x l'] P. cbn [fst snd].
  pose proof (sel_len _ _ P) as L. pose proof (sel_perm _ _ P) as PP. cbn [fst snd] in *. rewrite seq_length in L.
  rewrite psum_step by (intros ->; simpl in L; lia).
  rewrite (list_sum_map_ext _ _ (fun q => fact (n - 2) * g x (fst q))).
  - rewrite list_sum_scale, (sel_sum _ (g x)). f_equal.
    rewrite <- (list_sum_perm _ _ (Permutation_map (g x) PP)). cbn [map list_sum fold_right].
    change (fold_right Init.Nat.add 0) with list_sum. lia.
  - intros q Q. pose proof (sel_len _ _ Q) as L2. rewrite (psum_ext _ _ (fun _ => g x (fst q))).
    + rewrite psum_const. replace (n - 2) with (length (snd q)) by lia. reflexivity.
    + assert (NDl : NoDup l') by (apply (sel_nodup _ _ (seq_NoDup n 0) P)). apply (sel_nodup _ _ NDl Q).
    + intros r _. reflexivity.
Qed.
Lemma list_sum_swap : forall A B (f : A -> B -> nat) la lb,
  list_sum (map (fun a => list_sum (map (f a) lb)) la) = list_sum (map (fun b => list_sum (map (fun a => f a b) la)) lb).
Proof.
  induction la as [|a la IH]; intros lb.
  - cbn [map list_sum fold_right]. rewrite list_sum_const. cbn. lia.
  - cbn [map list_sum fold_right]. change (fold_right Init.Nat.add 0) with list_sum. rewrite IH, <- list_sum_map_plus. reflexivity.
Qed.
(** Two relations without loops: number of joint pairs over all relabellings of the second. *)
Lemma joint_total : forall n E (f g : nat -> nat -> nat), Enum (seq 0 n) E -> (forall i, i < n -> f i i = 0) -> (forall i, i < n -> g i i = 0) ->
  list_sum (map (fun r => total (fun i j => f i j * g (nth i r 0) (nth j r 0)) n) E) =
  fact (n - 2) * (total f n * total g n).
Proof.
  intros n E f g HE Zf Zg. unfold total at 1. rewrite list_sum_swap.
  assert (DG : diagonal g n = 0).
  { unfold diagonal. rewrite (list_sum_map_ext _ _ (fun _ => 0)); [rewrite list_sum_const; lia|]. intros i Hi. apply in_seq in Hi. apply Zg. lia. }
  transitivity (list_sum (map (fun i => list_sum (map (fun j => (fact (n - 2) * total g n) * f i j) (seq 0 n))) (seq 0 n))).
  - apply list_sum_map_ext. intros i Hi. apply in_seq in Hi. rewrite list_sum_swap. apply list_sum_map_ext. intros j Hj. apply in_seq in Hj.
    destruct (Nat.eq_dec i j) as [->|D].
    + rewrite Zf by lia. rewrite (list_sum_map_ext _ _ (fun _ => 0)) by reflexivity. rewrite list_sum_const. lia.
    + rewrite list_sum_scale. rewrite (two_images n E i j g HE) by lia. rewrite DG, Nat.sub_0_r. ring.
  - rewrite (list_sum_map_ext _ _ (fun i => (fact (n - 2) * total g n) * list_sum (map (f i) (seq 0 n)))).
    + rewrite list_sum_scale. unfold total. ring.
    + intros i _. rewrite list_sum_scale. reflexivity.
Qed.
