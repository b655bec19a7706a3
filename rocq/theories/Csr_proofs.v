(** Multinomial and Poisson counts. *)
From Coq Require Import Reals QArith List Arith Lia Lra Bool.
From Verif Require Import Base Quadrat_model Pattern_model Joint_spec Joint_proofs Blocks_spec Csr_spec.
Import ListNotations.
Local Open Scope R_scope.

Definition total_of {A} (f : A -> R) (l : list A) : R := fold_right Rplus 0 (map f l).
Lemma total_of_app : forall A (f : A -> R) l l', total_of f (l ++ l') = total_of f l + total_of f l'.
Proof. intros A f l l'. unfold total_of. induction l as [|x l IH]; cbn; [ring|rewrite IH; ring]. Qed.
Lemma total_of_flat : forall A B (f : B -> R) (g : A -> list B) l, total_of f (flat_map g l) = total_of (fun x => total_of f (g x)) l.
Proof. intros A B f g l. induction l as [|x l IH]; [reflexivity|]. cbn [flat_map]. rewrite total_of_app, IH. reflexivity. Qed.
Lemma total_of_map : forall A B (f : B -> R) (g : A -> B) l, total_of f (map g l) = total_of (fun x => f (g x)) l.
Proof. intros. unfold total_of. rewrite map_map. reflexivity. Qed.
Lemma total_of_ext : forall A (f g : A -> R) l, (forall x, In x l -> f x = g x) -> total_of f l = total_of g l.
Proof. intros A f g l. unfold total_of. induction l as [|x l IH]; intro H; [reflexivity|]. cbn. rewrite (H x), IH; auto with datatypes. Qed.
Lemma total_of_scale : forall A (f : A -> R) c l, total_of (fun x => c * f x) l = c * total_of f l.
Proof. intros A f c l. unfold total_of. induction l as [|x l IH]; cbn; [ring|rewrite IH; ring]. Qed.
Lemma total_of_zero : forall A (f : A -> R) l, (forall x, In x l -> f x = 0) -> total_of f l = 0.
Proof. intros A f l. unfold total_of. induction l as [|x l IH]; intro H; [reflexivity|]. cbn. rewrite (H x), IH; auto with datatypes; ring. Qed.
Lemma total_of_single : forall (f : nat -> R) l x, NoDup l -> In x l -> (forall y, In y l -> y <> x -> f y = 0) -> total_of f l = f x.
Proof.
  intros f l x. induction l as [|y l IH]; intros N I Z; [destruct I|]. apply NoDup_cons_iff in N. destruct N as [N1 N2].
  change (total_of f (y :: l)) with (f y + total_of f l). destruct I as [->|I].
  - rewrite total_of_zero; [ring|]. intros z Hz. apply Z; [right; exact Hz|]. intros ->. exact (N1 Hz).
  - rewrite (Z y (or_introl eq_refl)) by (intros ->; exact (N1 I)). rewrite (IH N2 I) by (intros; apply Z; auto with datatypes). ring.
Qed.
Lemma prod_change : forall (f g : nat -> R) c j l, NoDup l -> In j l -> (forall i, i <> j -> f i = g i) -> f j * c = g j -> prod (map f l) * c = prod (map g l).
Proof.
  intros f g c j l. unfold prod. induction l as [|y l IH]; intros N I H E; [destruct I|]. apply NoDup_cons_iff in N. destruct N as [N1 N2]. cbn.
  destruct (Nat.eq_dec y j) as [->|NE].
  - assert (X : map f l = map g l) by (apply map_ext_in; intros i Hi; apply H; intros ->; exact (N1 Hi)). rewrite X, <- E. ring.
  - destruct I as [->|I]; [contradiction|]. rewrite (H y NE), <- (IH N2 I H E). ring.
Qed.
Lemma prod_mult : forall A (f g : A -> R) l, prod (map (fun x => f x * g x) l) = prod (map f l) * prod (map g l).
Proof. intros A f g l. unfold prod. induction l as [|x l IH]; cbn; [ring|rewrite IH; ring]. Qed.

(** ** Lists of counts *)
Lemma set_nth_length : forall A (l : list A) i v, List.length (set_nth i v l) = List.length l.
Proof. intros A l. induction l as [|x l IH]; intros [|i] v; cbn; auto. Qed.
Lemma nth_set_nth : forall A (l : list A) i j v d, (j < List.length l)%nat -> nth i (set_nth j v l) d = if Nat.eqb i j then v else nth i l d.
Proof.
  intros A l. induction l as [|x l IH]; intros i j v d L; [cbn in L; lia|]. destruct j as [|j].
  - destruct i as [|i]; reflexivity.
  - destruct i as [|i]; [reflexivity|]. cbn in L. cbn [set_nth nth]. rewrite IH by lia. reflexivity.
Qed.
Lemma total_set_nth : forall ks j k, (j < List.length ks)%nat -> nth j ks O = S k -> total ks = S (total (set_nth j k ks)).
Proof.
  induction ks as [|x ks IH]; intros j k L E; [cbn in L; lia|]. destruct j as [|j]; cbn in E.
  - subst x. reflexivity.
  - cbn in L. cbn. unfold total in IH. rewrite (IH j k) by (auto; lia). lia.
Qed.
Lemma total_zero : forall ks, total ks = O -> forall j, nth j ks O = O.
Proof. induction ks as [|x ks IH]; intros H [|j]; cbn in *; try reflexivity; [lia|apply IH; unfold total; lia]. Qed.
Lemma INR_total : forall ks, INR (total ks) = total_of (fun j => INR (nth j ks O)) (seq 0 (List.length ks)).
Proof.
  induction ks as [|x ks IH]; [reflexivity|]. cbn [total fold_right List.length seq]. fold (total ks). rewrite plus_INR, IH. change (total_of ?f (?a :: ?l)) with (f a + total_of f l). cbn [nth]. f_equal.
  rewrite <- seq_shift, total_of_map. reflexivity.
Qed.
Lemma counts_nth : forall lab m l j, (j < m)%nat -> nth j (counts lab m l) O = List.length (filter (fun p => Nat.eqb (lab p) j) l).
Proof.
  intros lab m l j L. unfold counts. rewrite (nth_indep _ O (List.length (filter (fun p => Nat.eqb (lab p) O) l))) by (rewrite map_length, seq_length; exact L).
  rewrite (map_nth (fun j => List.length (filter (fun p => Nat.eqb (lab p) j) l))). rewrite seq_nth by exact L. reflexivity.
Qed.
Lemma counts_length : forall lab m l, List.length (counts lab m l) = m.
Proof. intros. unfold counts. rewrite map_length, seq_length. reflexivity. Qed.
Lemma same_nth : forall (a b : list nat), List.length a = List.length b -> (forall j, (j < List.length b)%nat -> nth j a O = nth j b O) -> a = b.
Proof. intros a b L H. apply nth_ext with O O; [exact L|]. intros j J. apply H. lia. Qed.

Lemma has_counts_nil : forall lab ks, has_counts lab ks [] = if Nat.eqb (total ks) O then 1 else 0.
Proof.
  intros lab ks. unfold has_counts. destruct (list_eq_dec _ _ _) as [E|N]; destruct (Nat.eqb_spec (total ks) 0) as [T|T]; try reflexivity; exfalso.
  - apply T. rewrite <- E. unfold counts. cbn [filter List.length]. generalize (seq 0 (List.length ks)). intro l. induction l as [|x l IH]; [reflexivity|exact IH].
  - apply N. apply same_nth; [apply counts_length|]. intros j J. rewrite counts_nth by exact J. cbn. symmetry. apply total_zero. exact T.
Qed.
Lemma has_counts_cons : forall lab ks p l, (lab p < List.length ks)%nat ->
  has_counts lab ks (p :: l) = match nth (lab p) ks O with O => 0 | S k => has_counts lab (set_nth (lab p) k ks) l end.
Proof.
  intros lab ks p l B. unfold has_counts.
  assert (C : forall j, (j < List.length ks)%nat -> nth j (counts lab (List.length ks) (p :: l)) O = ((if Nat.eqb j (lab p) then 1 else 0) + nth j (counts lab (List.length ks) l) O)%nat).
  { intros j J. rewrite !counts_nth by exact J. cbn [filter]. rewrite (Nat.eqb_sym j). destruct (Nat.eqb (lab p) j); reflexivity. }
  destruct (nth (lab p) ks O) as [|k] eqn:K.
  - destruct (list_eq_dec _ _ _) as [E|N]; [|reflexivity]. exfalso. rewrite <- E in K at 1. rewrite C in K by exact B. rewrite Nat.eqb_refl in K. discriminate K.
  - rewrite set_nth_length. destruct (list_eq_dec _ _ _) as [E|N]; destruct (list_eq_dec _ _ _) as [E'|N']; try reflexivity; exfalso.
    + apply N'. apply same_nth; [rewrite counts_length, set_nth_length; reflexivity|]. rewrite set_nth_length. intros j J. rewrite nth_set_nth by exact B.
      pose proof (C j J) as X. rewrite E in X. destruct (Nat.eqb_spec j (lab p)) as [->|NE]; [rewrite K in X; lia|lia].
    + apply N. apply same_nth; [apply counts_length|]. intros j J. rewrite (C j J), E', nth_set_nth by exact B.
      destruct (Nat.eqb_spec j (lab p)) as [->|NE]; [rewrite K; reflexivity|reflexivity].
Qed.
Lemma has_counts_total : forall lab ks l, (forall p, lab p < List.length ks)%nat -> total ks <> List.length l -> has_counts lab ks l = 0.
Proof.
  intros lab ks l. revert ks. induction l as [|p l IH]; intros ks B T.
  - rewrite has_counts_nil. destruct (Nat.eqb_spec (total ks) 0); [contradiction|reflexivity].
  - rewrite has_counts_cons by apply B. destruct (nth (lab p) ks O) as [|k] eqn:K; [reflexivity|]. apply IH; [rewrite set_nth_length; exact B|].
    rewrite (total_set_nth ks (lab p) k (B p) K) in T. cbn in T. lia.
Qed.

(** ** All sequences of regions with given counts *)
Fixpoint seqs (n : nat) (ks : list nat) : list (list nat) :=
  match n with
  | O => if Nat.eqb (total ks) O then [[]] else []
  | S n => flat_map (fun j => match nth j ks O with O => [] | S k => map (cons j) (seqs n (set_nth j k ks)) end) (seq 0 (List.length ks))
  end.
Lemma seqs_length : forall n ks s, In s (seqs n ks) -> List.length s = n.
Proof.
  induction n as [|n IH]; intros ks s I; cbn [seqs] in I.
  - destruct (Nat.eqb (total ks) 0); [destruct I as [<-|[]]; reflexivity|destruct I].
  - apply in_flat_map in I. destruct I as (j & _ & I). destruct (nth j ks O) as [|k]; [destruct I|]. apply in_map_iff in I. destruct I as (t & <- & I). cbn. f_equal. apply (IH _ _ I).
Qed.
Lemma expand : forall lab n l ks, List.length l = n -> (forall p, lab p < List.length ks)%nat ->
  has_counts lab ks l = total_of (fun s => prod_at (map (in_region lab) s) l) (seqs n ks).
Proof.
  intros lab n. induction n as [|n IH]; intros l ks L B; destruct l as [|p l]; try discriminate L.
  - rewrite has_counts_nil. cbn [seqs]. destruct (Nat.eqb (total ks) 0); unfold total_of, prod_at, prod; cbn; ring.
  - rewrite has_counts_cons by apply B. cbn [seqs]. rewrite total_of_flat.
    rewrite (total_of_single _ _ (lab p)).
    + destruct (nth (lab p) ks O) as [|k] eqn:K; [reflexivity|]. rewrite total_of_map. rewrite IH; [|cbn in L; lia|rewrite set_nth_length; exact B].
      apply total_of_ext. intros s _. unfold prod_at, prod. cbn [map combine fold_right fst snd]. unfold in_region at 2, indicator. rewrite Nat.eqb_refl. ring.
    + apply seq_NoDup.
    + apply in_seq. pose proof (B p). lia.
    + intros j _ NE. destruct (nth j ks O) as [|k]; [reflexivity|]. rewrite total_of_map. apply total_of_zero. intros s _. unfold prod_at, prod. cbn [map combine fold_right fst snd].
      unfold in_region at 1, indicator. destruct (Nat.eqb_spec (lab p) j) as [E|_]; [congruence|]. ring.
Qed.
Lemma weight : forall (p : nat -> R) n ks, total ks = n ->
  total_of (fun s => prod (map p s)) (seqs n ks) * over_regions (fun _ k => INR (fact k)) ks = INR (fact n) * over_regions (fun j k => p j ^ k) ks.
Proof.
  intros p n. induction n as [|n IH]; intros ks T.
  - cbn [seqs]. rewrite T. cbn [Nat.eqb]. unfold over_regions. pose proof (total_zero ks T) as Z.
    rewrite (map_ext _ (fun _ => 1)) by (intro j; rewrite Z; reflexivity). rewrite (map_ext (fun j => p j ^ nth j ks 0%nat) (fun _ => 1)) by (intro j; rewrite Z; reflexivity).
    unfold total_of, prod. cbn [map fold_right fact INR]. ring.
  - cbn [seqs]. rewrite total_of_flat. set (W := fun j => _). rewrite Rmult_comm, <- total_of_scale.
    rewrite (total_of_ext _ _ (fun j => INR (fact n) * over_regions (fun j k => p j ^ k) ks * INR (nth j ks O))).
    + rewrite total_of_scale, <- INR_total, T. change (fact (S n)) with (S n * fact n)%nat. rewrite mult_INR. ring.
    + intros j J. apply in_seq in J. destruct J as [_ J]. cbn in J. unfold W. destruct (nth j ks O) as [|k] eqn:K; [unfold total_of; cbn; ring|].
      rewrite total_of_map.
      rewrite (total_of_ext _ _ (fun s => p j * prod (map p s))) by (intros s _; reflexivity). rewrite total_of_scale.
      pose proof (total_set_nth ks j k J K) as TS. rewrite T in TS. injection TS as TS. specialize (IH (set_nth j k ks) (eq_sym TS)).
      assert (F : over_regions (fun _ k => INR (fact k)) (set_nth j k ks) * INR (S k) = over_regions (fun _ k => INR (fact k)) ks).
      { unfold over_regions. rewrite set_nth_length. apply prod_change with j; [apply seq_NoDup|apply in_seq; lia| |].
        - intros i NE. rewrite nth_set_nth by exact J. destruct (Nat.eqb_spec i j); [contradiction|reflexivity].
        - rewrite nth_set_nth, Nat.eqb_refl, K by exact J. change (fact (S k)) with (S k * fact k)%nat. rewrite mult_INR. ring. }
      assert (Pp : over_regions (fun j k => p j ^ k) (set_nth j k ks) * p j = over_regions (fun j k => p j ^ k) ks).
      { unfold over_regions. rewrite set_nth_length. apply prod_change with j; [apply seq_NoDup|apply in_seq; lia| |].
        - intros i NE. rewrite nth_set_nth by exact J. destruct (Nat.eqb_spec i j); [contradiction|reflexivity].
        - rewrite nth_set_nth, Nat.eqb_refl, K by exact J. cbn [pow]. ring. }
      rewrite <- F, <- Pp.
      transitivity (p j * INR (S k) * (total_of (fun s => prod (map p s)) (seqs n (set_nth j k ks)) * over_regions (fun _ k => INR (fact k)) (set_nth j k ks))); [ring|]. rewrite IH. ring.
Qed.
Lemma fact_regions : forall ks, over_regions (fun _ k => INR (fact k)) ks <> 0.
Proof.
  intro ks. unfold over_regions. generalize (seq 0 (List.length ks)). intro l. unfold prod. induction l as [|j l IH]; cbn; [lra|]. apply Rmult_integral_contrapositive. split; [apply INR_fact_neq_0|exact IH].
Qed.
Lemma over_regions_div : forall (p : nat -> R) ks, over_regions (fun j k => p j ^ k / INR (fact k)) ks * over_regions (fun _ k => INR (fact k)) ks = over_regions (fun j k => p j ^ k) ks.
Proof.
  intros p ks. unfold over_regions. rewrite <- prod_mult. f_equal. apply map_ext. intro j. field. apply INR_fact_neq_0.
Qed.
Lemma weight_multinomial : forall p ks, total_of (fun s => prod (map p s)) (seqs (total ks) ks) = multinomial p ks.
Proof.
  intros p ks. apply Rmult_eq_reg_r with (over_regions (fun _ k => INR (fact k)) ks); [|apply fact_regions]. rewrite (weight p (total ks) ks eq_refl). unfold multinomial. rewrite Rmult_assoc, over_regions_div. reflexivity.
Qed.

(** Several patterns. *)
Fixpoint combos (kss : list (list nat)) : list (list (list nat)) :=
  match kss with
  | [] => [[]]
  | ks :: t => flat_map (fun s => map (cons s) (combos t)) (seqs (total ks) ks)
  end.
Lemma combos_lengths : forall kss c, In c (combos kss) -> map (@List.length _) c = map total kss.
Proof.
  induction kss as [|ks kss IH]; intros c I; cbn [combos] in I.
  - destruct I as [<-|[]]. reflexivity.
  - apply in_flat_map in I. destruct I as (s & S & I). apply in_map_iff in I. destruct I as (t & <- & I). cbn [map]. rewrite (seqs_length _ _ _ S), (IH _ I). reflexivity.
Qed.
Lemma expand_all : forall lab m kss pss, (forall p, lab p < m)%nat -> Forall (fun ks => List.length ks = m) kss -> map (@List.length _) pss = map total kss ->
  all_counts lab kss pss = total_of (fun c => prod_all (map (map (in_region lab)) c) pss) (combos kss).
Proof.
  intros lab m. induction kss as [|ks kss IH]; intros pss B F E; destruct pss as [|ps pss]; try discriminate E.
  - cbn. unfold total_of, prod_all, all_counts, prod. cbn. ring.
  - apply Forall_cons_iff in F. destruct F as [F1 F2]. cbn [map] in E. injection E as E1 E2. cbn [combos]. rewrite total_of_flat.
    unfold all_counts. cbn [combine map fst snd]. change (prod (?x :: ?l)) with (x * prod l). fold (all_counts lab kss pss). rewrite (IH pss B F2 E2).
    rewrite (expand lab (total ks) ps ks E1) by (rewrite F1; exact B). rewrite Rmult_comm, <- total_of_scale. apply total_of_ext. intros s _. rewrite total_of_map. rewrite Rmult_comm, <- total_of_scale.
    apply total_of_ext. intros c _. reflexivity.
Qed.
Lemma combos_weight : forall p kss, total_of (fun c => prod (map (fun s => prod (map p s)) c)) (combos kss) = prod (map (multinomial p) kss).
Proof.
  intros p. induction kss as [|ks kss IH]; [unfold total_of, prod; cbn; ring|]. cbn [combos map]. rewrite total_of_flat. change (prod (?x :: ?l)) with (x * prod l). rewrite <- IH, <- weight_multinomial.
  rewrite Rmult_comm, <- total_of_scale. apply total_of_ext. intros s _. rewrite total_of_map. rewrite Rmult_comm, <- total_of_scale. apply total_of_ext. intros c _. reflexivity.
Qed.
Lemma all_counts_other : forall lab m kss pss, (forall p, lab p < m)%nat -> Forall (fun ks => List.length ks = m) kss -> List.length pss = List.length kss -> map (@List.length _) pss <> map total kss ->
  all_counts lab kss pss = 0.
Proof.
  intros lab m. induction kss as [|ks kss IH]; intros pss B F E N; destruct pss as [|ps pss]; try discriminate E; [contradiction|].
  apply Forall_cons_iff in F. destruct F as [F1 F2]. unfold all_counts. cbn [combine map fst snd]. change (prod (?x :: ?l)) with (x * prod l). fold (all_counts lab kss pss).
  destruct (Nat.eq_dec (total ks) (List.length ps)) as [T|T].
  - rewrite (IH pss B F2); [ring|cbn in E; lia|]. intro X. apply N. cbn [map]. rewrite T, X. reflexivity.
  - rewrite (has_counts_total lab ks ps) by (try rewrite F1; assumption). ring.
Qed.

(** ** Poisson *)
Lemma exp_total : forall (f : nat -> R) l, prod (map (fun j => exp (f j)) l) = exp (total_of f l).
Proof. intros f l. unfold prod, total_of. induction l as [|j l IH]; cbn; [symmetry; apply exp_0|]. rewrite IH, exp_plus. reflexivity. Qed.
Lemma pow_total : forall lam ks, over_regions (fun _ k => lam ^ k) ks = lam ^ total ks.
Proof.
  intros lam. induction ks as [|k ks IH]; [reflexivity|]. unfold over_regions. cbn [List.length seq map]. change (prod (?x :: ?l)) with (x * prod l). cbn [nth]. rewrite <- seq_shift, map_map. cbn [nth].
  fold (over_regions (fun _ k => lam ^ k) ks). rewrite IH. cbn [total fold_right]. rewrite pow_add. reflexivity.
Qed.
Lemma poisson_split : forall lam (p : nat -> R) ks, total_of p (seq 0 (List.length ks)) = 1 ->
  pmf lam (total ks) * multinomial p ks = over_regions (fun j k => pmf (lam * p j) k) ks.
Proof.
  intros lam p ks E. assert (X : over_regions (fun j k => pmf (lam * p j) k) ks = exp (- lam) * (lam ^ total ks * over_regions (fun j k => p j ^ k / INR (fact k)) ks)).
  { rewrite <- pow_total. replace (- lam) with (total_of (fun j => - lam * p j) (seq 0 (List.length ks))) by (rewrite total_of_scale, E; ring). rewrite <- exp_total. unfold over_regions.
    rewrite <- !prod_mult. f_equal. apply map_ext. intro j. unfold pmf. rewrite Rpow_mult_distr. replace (- (lam * p j)) with (- lam * p j) by ring. field. apply INR_fact_neq_0. }
  rewrite X. unfold pmf, multinomial. field. apply INR_fact_neq_0.
Qed.
