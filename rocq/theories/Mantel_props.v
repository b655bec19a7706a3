(** The whole call of mantel: property C154. *)
From Coq Require Import ZArith QArith Qreals Reals List Bool Arith Lia Lqa Lra Psatz Permutation.
From Verif Require Import Base BaseLemmas Spec Quadrat_model Spacetime_model Spacetime_spec Pairs_proofs Spacetime_proofs Spacetime2_proofs Hyper_proofs
  Perms_proofs Spacetime_props Spacetime3_props CenterR_model CenterR_proofs PermMean_props KnoxSym_spec StSym_spec StSym_proofs StSym_props Mantel_model Mantel_proofs.
Import ListNotations.
Local Open Scope R_scope.

(** Rows with [k] coordinates; all events at one place (or one time). *)
Definition Dimension (k : nat) (c : list vec) : Prop := Forall (fun p => List.length p = k) c.
Definition AllSame (c : list vec) : Prop := forall i j, (i < List.length c)%nat -> (j < List.length c)%nat -> Forall2 Qeq (row c i) (row c j).
Definition Repeated (c : list vec) : Prop := exists i j, (j < i < List.length c)%nat /\ Forall2 Qeq (row c i) (row c j).
(** What leaves no correlation coefficient. *)
Definition Degenerate (con pow : R) (c : list vec) : Prop := pow = 0 \/ AllSame c \/ (con = 0 /\ pow < 0 /\ Repeated c).
(** [(d + con) ** pow] when it is a number. *)
Definition strength (con pow d : R) : R := if Req_EM_T (d + con) 0 then 0 else Rpower (d + con) pow.
Definition Affine (sign : R) (n : nat) (f g : nat -> nat -> R) : Prop := exists a b, 0 < sign * a /\ forall i j, (j < i < n)%nat -> g i j = a * f i j + b.

Lemma same_place : forall k p q, (k = 1%nat \/ k = 2%nat) -> List.length p = k -> List.length q = k -> (sqdist p q == 0)%Q <-> Forall2 Qeq p q.
Proof.
  intros k p q K P Qq. destruct K as [->| ->].
  - destruct p as [|a [|b p]]; try discriminate P. destruct q as [|c [|d q]]; try discriminate Qq. cbn. split.
    + intro E. constructor; [|constructor]. assert ((a - c) == 0)%Q; [|Lqa.lra]. destruct (Qeq_dec (a - c) 0) as [Z0|Z0]; [exact Z0|]. exfalso. assert (0 < (a - c) * (a - c))%Q by (destruct (Qlt_le_dec (a - c) 0); Lqa.nra). Lqa.lra.
    + intro F. inversion F as [|u1 u2 u3 u4 E1 F1]; subst. rewrite E1. ring.
  - destruct p as [|a [|b [|? p]]]; try discriminate P. destruct q as [|c [|d [|? q]]]; try discriminate Qq. cbn. split.
    + intro E. assert (forall x y : Q, x * x + (y * y + 0) == 0 -> x == 0 /\ y == 0)%Q as G by (intros x y XY; split; Lqa.nra). apply G in E. destruct E. constructor; [Lqa.lra|]. constructor; [Lqa.lra|constructor].
    + intro F. inversion F as [|u1 u2 u3 u4 E1 F1]; subst. inversion F1 as [|v1 v2 v3 v4 E2 F2]; subst. rewrite E1, E2. ring.
Qed.
Lemma edist_eq : forall p q p' q', edist p q = edist p' q' -> (sqdist p q == sqdist p' q')%Q.
Proof.
  intros p q p' q' E. apply eqR_Qeq. apply sqrt_inj in E; [exact E| |]; replace 0 with (Q2R 0) by (unfold Q2R; cbn; field); apply Qle_Rle, sqdist_nonneg.
Qed.
Lemma edist_zero : forall p q, edist p q = 0 <-> (sqdist p q == 0)%Q.
Proof.
  intros p q. unfold edist. assert (Z0 : Q2R 0 = 0) by (unfold Q2R; cbn; field). assert (NN : 0 <= Q2R (sqdist p q)) by (rewrite <- Z0; apply Qle_Rle, sqdist_nonneg). split.
  - intro E. apply sqrt_eq_0 in E; [|exact NN]. apply eqR_Qeq. rewrite E, Z0. reflexivity.
  - intro E. apply Qeq_eqR in E. rewrite E, Z0. apply sqrt_0.
Qed.
Lemma edist_nonneg : forall p q, 0 <= edist p q.
Proof. intros. apply sqrt_pos. Qed.
Lemma third_event : forall n i j, (3 <= n)%nat -> exists k, (k < n)%nat /\ k <> i /\ k <> j.
Proof. intros n i j N. destruct (Nat.eq_dec i 0), (Nat.eq_dec j 0); [exists 1%nat; lia| | |exists 0%nat; lia]; (destruct (Nat.eq_dec i 1), (Nat.eq_dec j 1); [exists 2%nat; lia|exists 2%nat; lia|exists 2%nat; lia|exists 1%nat; lia]). Qed.
(** Three or more rational points of the line or the plane with equal distances coincide. *)
Lemma equal_distances : forall k c, (k = 1%nat \/ k = 2%nat) -> Dimension k c -> (3 <= List.length c)%nat ->
  (forall i j i' j', (j < i < List.length c)%nat -> (j' < i' < List.length c)%nat -> edist (row c i) (row c j) = edist (row c i') (row c j')) <-> AllSame c.
Proof.
  intros k c K D N. assert (LR : forall i, (i < List.length c)%nat -> List.length (row c i) = k) by (intros i I; unfold Dimension in D; rewrite Forall_forall in D; apply D, nth_In, I).
  split.
  - intros H i j Hi Hj. assert (HS : forall a b a' b', (a < List.length c)%nat -> (b < List.length c)%nat -> a <> b -> (a' < List.length c)%nat -> (b' < List.length c)%nat -> a' <> b' -> (sqdist (row c a) (row c b) == sqdist (row c a') (row c b'))%Q).
    { intros a b a' b' A B AB A' B' AB'. apply edist_eq. destruct (Nat.lt_ge_cases b a) as [X|X], (Nat.lt_ge_cases b' a') as [Y|Y].
      - apply H; lia.
      - rewrite (edist_sym (row c a')). apply H; lia.
      - rewrite (edist_sym (row c a)). apply H; lia.
      - rewrite (edist_sym (row c a)), (edist_sym (row c a')). apply H; lia. }
    destruct (Nat.eq_dec i j) as [->|D0]; [clear; induction (row c j); constructor; [reflexivity|assumption]|].
    destruct (third_event (List.length c) i j N) as [m [M1 [M2 M3]]].
    apply (same_place k); [exact K|apply LR; exact Hi|apply LR; exact Hj|].
    pose proof (HS i j i m Hi Hj D0 Hi M1 ltac:(congruence)) as E1. pose proof (HS i j j m Hi Hj D0 Hj M1 ltac:(congruence)) as E2.
    pose proof (LR i Hi) as L1. pose proof (LR j Hj) as L2. pose proof (LR m M1) as L3. destruct (row c i) as [|a [|b [|? p]]]; destruct (row c j) as [|a' [|b' [|? p']]]; destruct (row c m) as [|a2 [|b2 [|? p2]]]; cbn in L1, L2, L3; destruct K; subst k; try discriminate; cbn in E1, E2 |- *.
    + Lqa.nra.
    + apply (no_equilateral (a - a') (b - b') (a - a2) (b - b2)); [ring|rewrite E1; ring|rewrite E2; ring].
  - intros H i j i' j' A B. assert (Z0 : forall x y, (x < List.length c)%nat -> (y < List.length c)%nat -> edist (row c x) (row c y) = 0).
    { intros x y X Y. apply edist_zero. apply (same_place k); [exact K|apply LR; exact X|apply LR; exact Y|apply H; assumption]. }
    rewrite !Z0 by lia. reflexivity.
Qed.

(** The transformed entries as a table over the pairs. *)
Definition cell (con pow : R) (c : list vec) (r : list nat) (ij : nat * nat) : xr := power (edist (row c (nth (fst ij) r 0%nat)) (row c (nth (snd ij) r 0%nat)) + con) pow.
Lemma table_shuffled : forall con pow c r, perm_of (List.length c) r -> transformed con pow (shuffle_matrix 0 (matrix edist c) r) = map (cell con pow c r) (lower_idx (List.length c)).
Proof.
  intros con pow c r P. destruct (perm_facts _ _ P) as [L [B _]]. unfold transformed. rewrite tril_idx, shuffle_len, L, map_map. apply map_ext_in. intros [i j] I. apply lower_in in I. unfold cell. cbn [fst snd].
  rewrite shuffle_entry by lia. rewrite matrix_entry by (apply B; lia). reflexivity.
Qed.
Lemma table_plain : forall con pow c, transformed con pow (matrix edist c) = map (cell con pow c (seq 0 (List.length c))) (lower_idx (List.length c)).
Proof.
  intros con pow c. unfold transformed. rewrite tril_idx, matrix_len, map_map. apply map_ext_in. intros [i j] I. apply lower_in in I. unfold cell. cbn [fst snd].
  rewrite !seq_nth by lia. cbn [Nat.add]. rewrite matrix_entry by lia. reflexivity.
Qed.
Lemma pearson_len : forall rd A B (x : A -> xr) (y : B -> xr) lx ly, List.length lx <> List.length ly \/ (List.length lx < 2)%nat -> pearsonr rd (map x lx) (map y ly) = Raise ValueError.
Proof.
  intros rd A B x y lx ly H. unfold pearsonr. rewrite !map_length. destruct (Nat.eqb_spec (List.length lx) (List.length ly)) as [E|E]; [|reflexivity]. cbn [negb].
  destruct (Nat.ltb_spec (List.length lx) 2) as [L|L]; [reflexivity|]. exfalso. destruct H; lia.
Qed.
Lemma pearson_ok : forall rd A (x y : A -> xr) l, (2 <= List.length l)%nat -> pearsonr rd (map x l) (map y l) = Ok (match numbers (map x l), numbers (map y l) with Some a, Some b => coefficient rd a b | _, _ => NaN end).
Proof.
  intros rd A x y l L. unfold pearsonr. rewrite !map_length, Nat.eqb_refl. cbn [negb]. destruct (Nat.ltb_spec (List.length l) 2) as [X|X]; [lia|].
  destruct (numbers (map x l)); [destruct (numbers (map y l)); reflexivity|reflexivity].
Qed.
Definition value (rd : R -> xq) (scon spow tcon tpow : R) (s t : list vec) (r : list nat) : xq :=
  match numbers (map (cell tcon tpow t r) (lower_idx (List.length t))), numbers (map (cell scon spow s (seq 0 (List.length s))) (lower_idx (List.length t))) with
  | Some a, Some b => coefficient rd a b
  | _, _ => NaN
  end.
Lemma full_value : forall rd scon spow tcon tpow s t perms, List.length s = List.length t -> (3 <= List.length t)%nat -> Forall (perm_of (List.length t)) perms ->
  mantel_full rd scon spow tcon tpow s t perms =
  Ok (value rd scon spow tcon tpow s t (seq 0 (List.length t)),
      match perms with [] => None | _ => Some (masked_pvalue (map (value rd scon spow tcon tpow s t) perms) (value rd scon spow tcon tpow s t (seq 0 (List.length t)))) end).
Proof.
  intros rd scon spow tcon tpow s t perms L N F. assert (L2 : (2 <= List.length (lower_idx (List.length t)))%nat) by (pose proof (lower_two (List.length t)); lia).
  unfold mantel_full. rewrite !table_plain. rewrite L at 2. rewrite pearson_ok by exact L2. cbn [bind]. fold (value rd scon spow tcon tpow s t (seq 0 (List.length t))).
  destruct perms as [|p ps]; [reflexivity|]. set (q := p :: ps) in *. clearbody q.
  rewrite (mapM_map _ _ _ (value rd scon spow tcon tpow s t)); [reflexivity|]. intros r I. rewrite Forall_forall in F. rewrite table_shuffled by (apply F; exact I). rewrite L at 2. rewrite pearson_ok by exact L2. reflexivity.
Qed.

(** ** C154 *)
(** The call fails, with ValueError, exactly for lists of different lengths and for fewer than three events. *)
Theorem C154_raises : forall rd scon spow tcon tpow s t perms e, Forall (perm_of (List.length t)) perms ->
  mantel_full rd scon spow tcon tpow s t perms = Raise e <-> e = ValueError /\ (List.length s <> List.length t \/ (List.length t <= 2)%nat).
Proof.
  intros rd scon spow tcon tpow s t perms e F. destruct (Nat.eq_dec (List.length s) (List.length t)) as [L|L]; [destruct (Nat.le_gt_cases (List.length t) 2) as [N|N]|].
  - assert (X : mantel_full rd scon spow tcon tpow s t perms = Raise ValueError).
    { unfold mantel_full. rewrite !table_plain, pearson_len by (right; apply lower_two; exact N). reflexivity. }
    rewrite X. split; [intro E; injection E as <-; split; [reflexivity|right; exact N]|intros [-> _]; reflexivity].
  - rewrite full_value by (assumption || lia). split; [discriminate|]. intros [_ [X|X]]; [contradiction|lia].
  - assert (X : mantel_full rd scon spow tcon tpow s t perms = Raise ValueError).
    { unfold mantel_full. rewrite !table_plain, pearson_len; [reflexivity|].
      destruct (Nat.eq_dec (List.length (lower_idx (List.length t))) (List.length (lower_idx (List.length s)))) as [E|E]; [|left; exact E]. right. apply lower_two.
      destruct (Nat.le_gt_cases (List.length t) 2) as [Y|Y]; [exact Y|]. exfalso. apply L. apply lower_same; [lia|symmetry; exact E]. }
    rewrite X. split; [intro E; injection E as <-; split; [reflexivity|left; exact L]|intros [-> _]; reflexivity].
Qed.
Print Assumptions C154_raises.

Section Table.
Variables (con pow : R) (c : list vec) (k : nat).
Hypothesis K : k = 1%nat \/ k = 2%nat.
Hypothesis D : Dimension k c.
Hypothesis N : (3 <= List.length c)%nat.
Hypothesis C0 : 0 <= con.
Notation n := (List.length c).
Lemma table_bad : Degenerate con pow c -> forall r, perm_of n r ->
  numbers (map (cell con pow c r) (lower_idx n)) = None \/ exists v, numbers (map (cell con pow c r) (lower_idx n)) = Some (map (fun _ => v) (lower_idx n)).
Proof using K D N C0.
  intros B r P. destruct (perm_facts _ _ P) as [LR [BR IR]]. destruct B as [->|[H|[-> [PN [i [j [IJ S]]]]]]].
  - right. exists 1. apply numbers_some. intros; apply power_zero.
  - assert (Z0 : forall ij, In ij (lower_idx n) -> cell con pow c r ij = power con pow).
    { intros [i j] I. apply lower_in in I. unfold cell. cbn [fst snd]. pose proof (proj2 (equal_distances k c K D N) H) as E. clear E.
      replace (edist (row c (nth i r 0%nat)) (row c (nth j r 0%nat))) with 0; [rewrite Rplus_0_l; reflexivity|]. symmetry. apply edist_zero.
      unfold Dimension in D. rewrite Forall_forall in D. apply (same_place k); [exact K|apply D, nth_In, BR; lia|apply D, nth_In, BR; lia|apply H; apply BR; lia]. }
    destruct (power con pow) as [v| |] eqn:PW.
    + right. exists v. apply numbers_some. exact Z0.
    + left. apply (numbers_none _ _ _ (1, 0)%nat); [apply lower_in; lia|]. intros v V. rewrite Z0 in V by (apply lower_in; lia). discriminate V.
    + left. apply (numbers_none _ _ _ (1, 0)%nat); [apply lower_in; lia|]. intros v V. rewrite Z0 in V by (apply lower_in; lia). discriminate V.
  - left. assert (PRE : forall m, (m < n)%nat -> exists a, (a < n)%nat /\ nth a r 0%nat = m).
    { intros m M. assert (IM : In m r) by (apply (Permutation_in _ (Permutation_sym P)), in_seq; lia). apply (In_nth _ _ 0%nat) in IM. destruct IM as [a [A1 A2]]. exists a. split; [lia|exact A2]. }
    destruct (PRE i ltac:(lia)) as [a [A1 A2]]. destruct (PRE j ltac:(lia)) as [b [B1 B2]].
    assert (E0 : edist (row c i) (row c j) = 0) by (apply edist_zero; unfold Dimension in D; rewrite Forall_forall in D; apply (same_place k); [exact K|apply D, nth_In; lia|apply D, nth_In; lia|exact S]).
    assert (AB : a <> b) by (intros ->; lia). destruct (Nat.lt_ge_cases b a) as [X|X].
    + apply (numbers_none _ _ _ (a, b)); [apply lower_in; lia|]. intro v. unfold cell. cbn [fst snd]. rewrite A2, B2, E0, Rplus_0_r, power_at_zero by exact PN. discriminate.
    + apply (numbers_none _ _ _ (b, a)); [apply lower_in; lia|]. intro v. unfold cell. cbn [fst snd]. rewrite A2, B2, edist_sym, E0, Rplus_0_r, power_at_zero by exact PN. discriminate.
Qed.
Lemma table_good : ~ Degenerate con pow c ->
  numbers (map (cell con pow c (seq 0 n)) (lower_idx n)) = Some (map (fun ij => strength con pow (edist (row c (fst ij)) (row c (snd ij)))) (lower_idx n)) /\
  dot (dev (map (fun ij => strength con pow (edist (row c (fst ij)) (row c (snd ij)))) (lower_idx n))) (dev (map (fun ij => strength con pow (edist (row c (fst ij)) (row c (snd ij)))) (lower_idx n))) <> 0.
Proof using K D N C0.
  intro G. assert (P0 : pow <> 0) by (intro X; apply G; left; exact X). assert (LR : forall i, (i < n)%nat -> List.length (row c i) = k) by (intros i I; unfold Dimension in D; rewrite Forall_forall in D; apply D, nth_In, I).
  assert (ZB : forall i j, (j < i < n)%nat -> edist (row c i) (row c j) + con = 0 -> 0 <= pow).
  { intros i j IJ E. pose proof (edist_nonneg (row c i) (row c j)). destruct (Rle_lt_dec 0 pow) as [X|X]; [exact X|]. exfalso. apply G. right. right. split; [lra|]. split; [exact X|]. exists i, j. split; [exact IJ|].
    apply (same_place k); [exact K|apply LR; lia|apply LR; lia|]. apply edist_zero. lra. }
  assert (VAL : forall i j, (j < i < n)%nat -> power (edist (row c i) (row c j) + con) pow = Num (strength con pow (edist (row c i) (row c j)))).
  { intros i j IJ. pose proof (edist_nonneg (row c i) (row c j)). unfold strength. destruct (Req_EM_T (edist (row c i) (row c j) + con) 0) as [E|E]; [rewrite E; apply power_up_zero; pose proof (ZB i j IJ E); lra|apply power_pos; lra]. }
  split.
  - apply numbers_some. intros [i j] I. apply lower_in in I. unfold cell. cbn [fst snd]. rewrite !seq_nth by lia. apply VAL. exact I.
  - intro E0. pose proof (proj1 (spread_zero _ (fun ij : nat * nat => strength con pow (edist (row c (fst ij)) (row c (snd ij)))) (lower_idx n) ltac:(intro X; pose proof (lower_two n) as LT; rewrite X in LT; cbn in LT; lia)) E0) as E. apply G. right. left. apply (equal_distances k c K D N). intros i j i' j' IJ IJ'.
    pose proof (E (i, j) (i', j') (proj2 (lower_in n i j) IJ) (proj2 (lower_in n i' j') IJ')) as X. cbn [fst snd] in X.
    apply (f_equal Num) in X. rewrite <- !VAL in X by assumption. apply power_inj in X; [lra|exact P0| | |apply ZB; exact IJ|apply ZB; exact IJ'].
    + pose proof (edist_nonneg (row c i) (row c j)). lra.
    + pose proof (edist_nonneg (row c i') (row c j')). lra.
Qed.
End Table.
Lemma const_nan_l : forall rd A (v : R) (l : list A) y, l <> [] -> coefficient rd (map (fun _ => v) l) y = NaN.
Proof. intros rd A v l y NE. unfold coefficient. destruct (Req_EM_T _ 0) as [_|X]; [reflexivity|]. exfalso. apply X. apply spread_zero; [exact NE|]. reflexivity. Qed.
Lemma const_nan_r : forall rd A (v : R) (l : list A) x, l <> [] -> coefficient rd x (map (fun _ => v) l) = NaN.
Proof. intros rd A v l x NE. unfold coefficient. destruct (Req_EM_T _ 0) as [_|X]; [reflexivity|]. destruct (Req_EM_T _ 0) as [_|Y]; [reflexivity|]. exfalso. apply Y. apply spread_zero; [exact NE|]. reflexivity. Qed.
Lemma lower_ne : forall n, (3 <= n)%nat -> lower_idx n <> [].
Proof. intros n N X. pose proof (lower_two n). rewrite X in *. cbn in *. lia. Qed.

(** A power of zero, all events at one place or time, or a repeated place or time with the
    constant 0 and a negative power: NaN with the smallest possible p-value. *)
Theorem C154_undefined_refuted : forall rd scon spow tcon tpow s t perms, List.length s = List.length t -> (3 <= List.length t)%nat -> Forall (perm_of (List.length t)) perms ->
  Dimension 2 s -> Dimension 1 t -> 0 <= scon -> 0 <= tcon -> Degenerate scon spow s \/ Degenerate tcon tpow t ->
  (perms = [] -> mantel_full rd scon spow tcon tpow s t perms = Ok (NaN, None)) /\
  (perms <> [] -> exists p, mantel_full rd scon spow tcon tpow s t perms = Ok (NaN, Some p) /\ (p * (Qnat (List.length perms) + 1) == 1)%Q).
Proof.
  intros rd scon spow tcon tpow s t perms L N F Ds Dt Cs Ct B. rewrite full_value by assumption.
  assert (V : value rd scon spow tcon tpow s t (seq 0 (List.length t)) = NaN).
  { unfold value. assert (LI : lower_idx (List.length s) = lower_idx (List.length t)) by (rewrite L; reflexivity). destruct B as [B|B].
    - destruct (table_bad scon spow s 2 (or_intror eq_refl) Ds ltac:(lia) Cs B (seq 0 (List.length s)) (Permutation_refl _)) as [E|[v E]]; rewrite LI in E; rewrite E; [destruct (numbers (map (cell tcon tpow t _) _)); reflexivity|].
      destruct (numbers (map (cell tcon tpow t _) _)); [apply const_nan_r, lower_ne; lia|reflexivity].
    - destruct (table_bad tcon tpow t 1 (or_introl eq_refl) Dt N Ct B (seq 0 (List.length t)) (Permutation_refl _)) as [E|[v E]]; rewrite E; [reflexivity|].
      destruct (numbers (map (cell scon spow s _) _)); [apply const_nan_l, lower_ne; exact N|reflexivity]. }
  rewrite V. split; [intros ->; reflexivity|]. intro NE. destruct perms as [|p ps]; [contradiction|]. set (q := p :: ps) in *. eexists. split; [reflexivity|].
  destruct (C65_nan_refuted (map (value rd scon spow tcon tpow s t) q)) as [X _]. rewrite map_length in X. exact X.
Qed.
Print Assumptions C154_undefined_refuted.

(** Otherwise the coefficient is in [-1, 1], and an end is reached exactly by transformed
    distances on a rising (falling) line. *)
Theorem C154_defined : forall rd scon spow tcon tpow s t perms, List.length s = List.length t -> (3 <= List.length t)%nat -> Forall (perm_of (List.length t)) perms ->
  Dimension 2 s -> Dimension 1 t -> 0 <= scon -> 0 <= tcon -> ~ Degenerate scon spow s -> ~ Degenerate tcon tpow t ->
  let f i j := strength tcon tpow (edist (row t i) (row t j)) in let g i j := strength scon spow (edist (row s i) (row s j)) in
  exists r o, mantel_full rd scon spow tcon tpow s t perms = Ok (rd r, o) /\ (o = None <-> perms = []) /\ -1 <= r <= 1 /\
    (r = 1 <-> Affine 1 (List.length t) f g) /\ (r = -1 <-> Affine (-1) (List.length t) f g).
Proof.
  intros rd scon spow tcon tpow s t perms L N F Ds Dt Cs Ct Gs Gt f g. rewrite full_value by assumption.
  destruct (table_good scon spow s 2 (or_intror eq_refl) Ds ltac:(lia) Cs Gs) as [Es NZs]. destruct (table_good tcon tpow t 1 (or_introl eq_refl) Dt N Ct Gt) as [Et NZt].
  assert (LI : lower_idx (List.length s) = lower_idx (List.length t)) by (rewrite L; reflexivity). rewrite LI in NZs, Es. unfold value. rewrite Et, Es.
  set (x := fun ij : nat * nat => strength tcon tpow (edist (row t (fst ij)) (row t (snd ij)))) in *. set (y := fun ij : nat * nat => strength scon spow (edist (row s (fst ij)) (row s (snd ij)))) in *.
  exists (corr (map x (lower_idx (List.length t))) (map y (lower_idx (List.length t)))). eexists. split; [|split; [|split]].
  - unfold coefficient at 1. destruct (Req_EM_T _ 0) as [X|_]; [contradiction|]. destruct (Req_EM_T _ 0) as [X|_]; [contradiction|]. reflexivity.
  - destruct perms; split; intro X; try reflexivity; discriminate X.
  - apply corr_range; assumption.
  - assert (A : forall sign, sign * sign = 1 -> (corr (map x (lower_idx (List.length t))) (map y (lower_idx (List.length t))) = sign <-> Affine sign (List.length t) f g)).
    { intros sign S. rewrite (corr_one _ x y (lower_idx (List.length t)) NZt NZs sign S). split; intros [a [b [P H]]]; exists a, b; (split; [exact P|]).
      - intros i j IJ. apply (H (i, j)). apply lower_in. exact IJ.
      - intros [i j] I. apply H. apply lower_in in I. exact I. }
    split; apply A; ring.
Qed.
Print Assumptions C154_defined.

(** With power 1 the constant does not matter. *)
Lemma shift_dev : forall A (h : A -> R) v l, l <> [] -> dev (map (fun x => h x + v) l) = dev (map h l).
Proof.
  intros A h v l NE. rewrite !dev_map. apply map_ext. intro x. unfold rmean. rewrite (Rsum_plus A h (fun _ => v)), Rsum_const, !map_length. field. apply not_0_INR. destruct l; [contradiction|discriminate].
Qed.
Theorem C154_linear : forall rd scon spow tcon tpow s t perms, List.length s = List.length t -> (3 <= List.length t)%nat -> Forall (perm_of (List.length t)) perms ->
  mantel_full rd scon 1 tcon tpow s t perms = mantel_full rd 0 1 tcon tpow s t perms /\ mantel_full rd scon spow tcon 1 s t perms = mantel_full rd scon spow 0 1 s t perms.
Proof.
  intros rd scon spow tcon tpow s t perms L N F. rewrite !full_value by assumption.
  assert (NE : lower_idx (List.length t) <> []) by (apply lower_ne; exact N).
  assert (T1 : forall con c r, numbers (map (cell con 1 c r) (lower_idx (List.length t))) = Some (map (fun ij => edist (row c (nth (fst ij) r 0%nat)) (row c (nth (snd ij) r 0%nat)) + con) (lower_idx (List.length t)))) by (intros; apply numbers_some; intros; apply power_one).
  assert (C1 : forall con c r y, coefficient rd (map (fun ij => edist (row c (nth (fst ij) r 0%nat)) (row c (nth (snd ij) r 0%nat)) + con) (lower_idx (List.length t))) y = coefficient rd (map (fun ij => edist (row c (nth (fst ij) r 0%nat)) (row c (nth (snd ij) r 0%nat)) + 0) (lower_idx (List.length t))) y).
  { intros. unfold coefficient, corr. rewrite !(shift_dev _ (fun ij => edist (row c (nth (fst ij) r 0%nat)) (row c (nth (snd ij) r 0%nat)))) by exact NE. reflexivity. }
  assert (C2 : forall con c r x, coefficient rd x (map (fun ij => edist (row c (nth (fst ij) r 0%nat)) (row c (nth (snd ij) r 0%nat)) + con) (lower_idx (List.length t))) = coefficient rd x (map (fun ij => edist (row c (nth (fst ij) r 0%nat)) (row c (nth (snd ij) r 0%nat)) + 0) (lower_idx (List.length t)))).
  { intros. unfold coefficient, corr. rewrite !(shift_dev _ (fun ij => edist (row c (nth (fst ij) r 0%nat)) (row c (nth (snd ij) r 0%nat)))) by exact NE. reflexivity. }
  assert (V1 : forall r, value rd scon 1 tcon tpow s t r = value rd 0 1 tcon tpow s t r).
  { intro r. unfold value. rewrite !T1. destruct (numbers (map (cell tcon tpow t r) _)); [apply C2|reflexivity]. }
  assert (V2 : forall r, value rd scon spow tcon 1 s t r = value rd scon spow 0 1 s t r).
  { intro r. unfold value. rewrite !T1. destruct (numbers (map (cell scon spow s _) _)); [apply C1|reflexivity]. }
  split; [rewrite V1, (map_ext _ _ V1)|rewrite V2, (map_ext _ _ V2)]; reflexivity.
Qed.
Print Assumptions C154_linear.

(** For positive bases this is the test of C107, C128 and C137. *)
Theorem C154_positive : forall rd scon spow tcon tpow s t perms, List.length s = List.length t -> (3 <= List.length t)%nat -> Forall (perm_of (List.length t)) perms ->
  apart scon s -> apart tcon t -> mantel_full rd scon spow tcon tpow s t perms = Ok (mantel_test rd scon spow tcon tpow s t perms).
Proof.
  intros rd scon spow tcon tpow s t perms L N F As At. rewrite full_value by assumption.
  assert (CE : forall con pow c r, List.length c = List.length t -> apart con c -> perm_of (List.length t) r -> numbers (map (cell con pow c r) (lower_idx (List.length t))) = Some (below (List.length t) (fun i j => closeness con pow (edist (row c (nth i r 0%nat)) (row c (nth j r 0%nat)))))).
  { intros con pow c r LC A P. destruct (perm_facts _ _ P) as [_ [B I]]. apply (numbers_some _ _ (fun ij => closeness con pow (edist (row c (nth (fst ij) r 0%nat)) (row c (nth (snd ij) r 0%nat))))). intros [i j] IJ. apply lower_in in IJ. unfold cell, closeness. cbn [fst snd]. apply power_pos.
    pose proof (B i ltac:(lia)). pose proof (B j ltac:(lia)). assert (nth i r 0 <> nth j r 0)%nat by (intro X; apply I in X; lia).
    destruct (Nat.lt_ge_cases (nth j r 0%nat) (nth i r 0%nat)) as [X|X]; [apply A; lia|]. rewrite edist_sym. apply A. lia. }
  assert (ID : forall (h : R -> R) c, List.length c = List.length t -> below (List.length t) (fun i j => h (edist (row c (nth i (seq 0 (List.length t)) 0%nat)) (row c (nth j (seq 0 (List.length t)) 0%nat)))) = map h (tril 0 (matrix edist c))).
  { intros h c LC. rewrite (entries_plain (List.length t)) by exact LC. apply below_ext. intros i j IJ. rewrite !seq_nth by lia. reflexivity. }
  assert (V : forall r, perm_of (List.length t) r -> value rd scon spow tcon tpow s t r = coefficient rd (map (closeness tcon tpow) (tril 0 (shuffle_matrix 0 (matrix edist t) r))) (map (closeness scon spow) (tril 0 (matrix edist s)))).
  { intros r P. unfold value. rewrite (CE tcon tpow t r eq_refl At P). rewrite L at 1. rewrite (CE scon spow s _ L As (Permutation_refl _)). rewrite (ID (closeness scon spow) s L).
    rewrite (entries_shuffled (List.length t) (closeness tcon tpow) edist t r P eq_refl). reflexivity. }
  assert (V0 : value rd scon spow tcon tpow s t (seq 0 (List.length t)) = coefficient rd (map (closeness tcon tpow) (tril 0 (matrix edist t))) (map (closeness scon spow) (tril 0 (matrix edist s)))).
  { rewrite V by apply Permutation_refl. rewrite (entries_shuffled (List.length t)) by (apply Permutation_refl || reflexivity). rewrite (ID (closeness tcon tpow) t eq_refl). reflexivity. }
  unfold mantel_test, mantel. rewrite V0. f_equal. destruct perms as [|p ps]; [reflexivity|]. set (q := p :: ps) in *. clearbody q. f_equal. f_equal. f_equal. apply map_ext_in. intros r R0. apply V. rewrite Forall_forall in F. apply F. exact R0.
Qed.
Print Assumptions C154_positive.

(** A constant below minus some distance, with a power that is not an integer: NaN and the smallest p-value. *)
Definition Negative (con pow : R) (c : list vec) : Prop := (forall z, pow <> IZR z) /\ exists i j, (j < i < List.length c)%nat /\ edist (row c i) (row c j) + con < 0.
Theorem C154_negative_refuted : forall rd scon spow tcon tpow s t perms, List.length s = List.length t -> (3 <= List.length t)%nat -> Forall (perm_of (List.length t)) perms ->
  Negative scon spow s \/ Negative tcon tpow t ->
  (perms = [] -> mantel_full rd scon spow tcon tpow s t perms = Ok (NaN, None)) /\
  (perms <> [] -> exists p, mantel_full rd scon spow tcon tpow s t perms = Ok (NaN, Some p) /\ (p * (Qnat (List.length perms) + 1) == 1)%Q).
Proof.
  intros rd scon spow tcon tpow s t perms L N F B. rewrite full_value by assumption.
  assert (NB : forall con pow c, List.length c = List.length t -> Negative con pow c -> numbers (map (cell con pow c (seq 0 (List.length t))) (lower_idx (List.length t))) = None).
  { intros con pow c LC [NZ [i [j [IJ E]]]]. apply (numbers_none _ _ _ (i, j)); [apply lower_in; lia|]. intro v. unfold cell. cbn [fst snd]. rewrite !seq_nth by lia. cbn [Nat.add].
    unfold power. destruct (Req_EM_T pow 0) as [X|_]; [exfalso; apply (NZ 0%Z); exact X|]. destruct (Rlt_dec 0 _) as [X|_]; [lra|]. destruct (Req_EM_T _ 0) as [X|_]; [lra|].
    destruct (Req_EM_T pow _) as [X|_]; [exfalso; exact (NZ _ X)|discriminate]. }
  assert (V : value rd scon spow tcon tpow s t (seq 0 (List.length t)) = NaN).
  { unfold value. destruct B as [B|B].
    - pose proof (NB scon spow s L B) as E. rewrite <- L in E at 1. rewrite E. destruct (numbers (map (cell tcon tpow t _) _)); reflexivity.
    - rewrite (NB tcon tpow t eq_refl B). reflexivity. }
  rewrite V. split; [intros ->; reflexivity|]. intro NE. destruct perms as [|p ps]; [contradiction|]. set (q := p :: ps) in *. eexists. split; [reflexivity|].
  destruct (C65_nan_refuted (map (value rd scon spow tcon tpow s t) q)) as [X _]. rewrite map_length in X. exact X.
Qed.
Print Assumptions C154_negative_refuted.

(** With power 2 the constants may be negative: the correlation of squares. *)
Lemma power_two : forall b, power b 2 = Num (b * b).
Proof.
  intro b. unfold power. destruct (Req_EM_T 2 0) as [X|_]; [lra|]. destruct (Rlt_dec 0 b) as [P|P]; [f_equal; replace 2 with (INR 2) by (cbn; lra); rewrite Rpower_pow by exact P; cbn; ring|].
  destruct (Req_EM_T b 0) as [->|X]; [destruct (Rlt_dec 0 2) as [_|Y]; [f_equal; ring|lra]|].
  assert (IP : Int_part 2 = 2%Z). { unfold Int_part. rewrite <- (tech_up 2 3); [reflexivity|lra|lra]. }
  rewrite IP. destruct (Req_EM_T 2 2) as [_|Y]; [f_equal|contradiction]. change (b ^ 2 = b * b). ring.
Qed.
Theorem C154_squares : forall rd scon tcon s t perms, List.length s = List.length t -> (3 <= List.length t)%nat -> Forall (perm_of (List.length t)) perms ->
  exists o, mantel_full rd scon 2 tcon 2 s t perms =
    Ok (coefficient rd (map (fun ij => (edist (row t (fst ij)) (row t (snd ij)) + tcon) * (edist (row t (fst ij)) (row t (snd ij)) + tcon)) (lower_idx (List.length t)))
                       (map (fun ij => (edist (row s (fst ij)) (row s (snd ij)) + scon) * (edist (row s (fst ij)) (row s (snd ij)) + scon)) (lower_idx (List.length t))), o).
Proof.
  intros rd scon tcon s t perms L N F. rewrite full_value by assumption. eexists. f_equal. f_equal. unfold value.
  assert (T2 : forall con c, numbers (map (cell con 2 c (seq 0 (List.length t))) (lower_idx (List.length t))) = Some (map (fun ij => (edist (row c (fst ij)) (row c (snd ij)) + con) * (edist (row c (fst ij)) (row c (snd ij)) + con)) (lower_idx (List.length t)))).
  { intros con c. apply numbers_some. intros [i j] I. apply lower_in in I. unfold cell. cbn [fst snd]. rewrite !seq_nth by lia. apply power_two. }
  rewrite T2. rewrite L at 1. rewrite T2. reflexivity.
Qed.
Print Assumptions C154_squares.

(** ** Concrete cases *)
(** Two events: ValueError. Three events, two at the same place, constant 0 and power -1:
    NaN and, with one permutation, p = 1/2. Times proportional to places on a line, power 1: 1. *)
Example C154_case : forall rd,
  mantel_full rd 1 (-1) 1 (-1) [[0; 0]; [1; 0]]%Q [[0]; [1]]%Q [] = Raise ValueError /\
  (exists p, mantel_full rd 0 (-1) 1 (-1) [[0; 0]; [0; 0]; [1; 0]]%Q [[0]; [1]; [3]]%Q [[2; 0; 1]%nat] = Ok (NaN, Some p) /\ (p == 1 # 2)%Q) /\
  mantel_full rd 5 1 0 1 [[0; 0]; [2; 0]; [6; 0]]%Q [[0]; [1]; [3]]%Q [] = Ok (rd 1, None).
Proof.
  intro rd. split; [|split].
  - apply C154_raises; [constructor|]. split; [reflexivity|right; cbn; lia].
  - destruct (C154_undefined_refuted rd 0 (-1) 1 (-1) [[0; 0]; [0; 0]; [1; 0]]%Q [[0]; [1]; [3]]%Q [[2; 0; 1]%nat]) as [_ H].
    + reflexivity.
    + cbn. lia.
    + constructor; [|constructor]. unfold perm_of. cbn. apply (Permutation_trans (l' := [0; 2; 1]%nat)); [apply perm_swap|apply perm_skip, perm_swap].
    + repeat constructor.
    + repeat constructor.
    + lra.
    + lra.
    + left. right. right. split; [reflexivity|]. split; [lra|]. exists 1%nat, 0%nat. split; [cbn; lia|]. repeat constructor; reflexivity.
    + destruct H as [p [H P]]; [discriminate|]. exists p. split; [exact H|]. cbn in P. change (Qnat 1) with 1%Q in P. Lqa.lra.
  - assert (ND : forall c a b, (2 < List.length c)%nat -> edist (row c 1) (row c 0) = a -> a <> 0 -> edist (row c 2) (row c 0) = b -> forall con, ~ Degenerate con 1 c).
    { intros c a b LC E A _ con [X|[X|[_ [X _]]]]; [lra| |lra]. apply A. rewrite <- E. specialize (X 1%nat 0%nat ltac:(lia) ltac:(lia)). apply edist_zero. clear - X. unfold sqdist. revert X. generalize (row c 1) (row c 0). intros p q F. induction F as [|x y p q XY F IH]; [reflexivity|]. cbn. rewrite IH, XY. ring. }
    assert (S10 : edist (row [[0; 0]; [2; 0]; [6; 0]]%Q 1) (row [[0; 0]; [2; 0]; [6; 0]]%Q 0) = 2) by (rewrite (edist_val _ _ 2%Q); [unfold Q2R; cbn; field|discriminate|reflexivity]).
    assert (S20 : edist (row [[0; 0]; [2; 0]; [6; 0]]%Q 2) (row [[0; 0]; [2; 0]; [6; 0]]%Q 0) = 6) by (rewrite (edist_val _ _ 6%Q); [unfold Q2R; cbn; field|discriminate|reflexivity]).
    assert (S21 : edist (row [[0; 0]; [2; 0]; [6; 0]]%Q 2) (row [[0; 0]; [2; 0]; [6; 0]]%Q 1) = 4) by (rewrite (edist_val _ _ 4%Q); [unfold Q2R; cbn; field|discriminate|reflexivity]).
    assert (T10 : edist (row [[0]; [1]; [3]]%Q 1) (row [[0]; [1]; [3]]%Q 0) = 1) by (rewrite (edist_val _ _ 1%Q); [unfold Q2R; cbn; field|discriminate|reflexivity]).
    assert (T20 : edist (row [[0]; [1]; [3]]%Q 2) (row [[0]; [1]; [3]]%Q 0) = 3) by (rewrite (edist_val _ _ 3%Q); [unfold Q2R; cbn; field|discriminate|reflexivity]).
    assert (T21 : edist (row [[0]; [1]; [3]]%Q 2) (row [[0]; [1]; [3]]%Q 1) = 2) by (rewrite (edist_val _ _ 2%Q); [unfold Q2R; cbn; field|discriminate|reflexivity]).
    destruct (C154_defined rd 5 1 0 1 [[0; 0]; [2; 0]; [6; 0]]%Q [[0]; [1]; [3]]%Q []) as [r [o [H [O [_ [R1 _]]]]]].
    + reflexivity.
    + cbn. lia.
    + constructor.
    + repeat constructor.
    + repeat constructor.
    + lra.
    + lra.
    + apply (ND _ 2 6); [cbn; lia|exact S10|lra|exact S20].
    + apply (ND _ 1 3); [cbn; lia|exact T10|lra|exact T20].
    + rewrite H. destruct O as [_ O]. rewrite (O eq_refl). do 3 f_equal. apply R1. exists 2, 5. split; [lra|].
      assert (ST : forall con d, 0 < d + con -> strength con 1 d = d + con). { intros con d P. unfold strength. destruct (Req_EM_T (d + con) 0) as [E|_]; [lra|]. apply Rpower_1. exact P. }
      intros i j IJ. cbn [List.length] in IJ. assert (C : (i = 1 /\ j = 0 \/ i = 2 /\ j = 0 \/ i = 2 /\ j = 1)%nat) by lia. destruct C as [[-> ->]|[[-> ->]|[-> ->]]].
      * rewrite S10, T10, !ST by lra. lra.
      * rewrite S20, T20, !ST by lra. lra.
      * rewrite S21, T21, !ST by lra. lra.
Qed.
