(** Proofs about boxes, hull preparation, trees and k_neighbors. *)
From Coq Require Import ZArith QArith Qabs Qminmax List Bool String Ascii Sorted Lia Lqa.
From Verif Require Import Base BaseLemmas Quadrat_model Geometry_model Pattern_model Pattern_spec
  Pattern_proofs PatternRows_proofs PatternRing_proofs.
Import ListNotations.
Local Open Scope Q_scope.

Lemma box_contains_spec : forall b p, box_contains b p = true <-> covers b p.
Proof.
  intros. unfold box_contains, covers. rewrite !andb_true_iff, !Qle_bool_iff. tauto.
Qed.

Lemma Qmean2 : forall a b, Qmean [a; b] == (a + b) / 2.
Proof.
  intros. unfold Qmean, Qsum, Qlen. simpl fold_right. change (inject_Z (Z.of_nat (List.length [a; b]))) with 2. field.
Qed.

(** ** k_neighbors *)
Lemma filter_snd : forall (i : nat) (r : list (Q * nat)),
  map snd (filter (fun di => negb (Nat.eqb (snd di) i)) r) =
  filter (fun j => negb (Nat.eqb j i)) (map snd r).
Proof. induction r; simpl; auto. destruct (negb _); simpl; congruence. Qed.
Lemma filter_none : forall (i : nat) l, ~ In i l -> filter (fun j => negb (Nat.eqb j i)) l = l.
Proof.
  induction l; simpl; intros H; auto. destruct (Nat.eqb_spec a i); [tauto|]. simpl. rewrite IHl; auto.
Qed.
Lemma map_removelast : forall A B (f : A -> B) l, map f (removelast l) = removelast (map f l).
Proof.
  induction l; simpl; auto. destruct l; simpl in *; auto. rewrite IHl. reflexivity.
Qed.
Lemma removelast_in : forall A (l : list A) x, In x (removelast l) -> In x l.
Proof.
  induction l; simpl; auto. destruct l; simpl in *; [tauto|]. intros x [H|H]; auto.
Qed.

Lemma kn_row_spec : forall n k i dist r, nearest n (k + 1) dist (map snd r) ->
  nearest_others n k i dist (map snd (kn_row k i r)) /\
  (forall x, In x (kn_row k i r) -> In x r).
Proof.
  intros n k i dist r [L [ND [R [S F]]]].
  set (ids := map snd r) in *. apply order_sorted in S.
  assert (Len : List.length (filter (fun di : Q * nat => negb (Nat.eqb (snd di) i)) r) =
                List.length (filter (fun j => negb (Nat.eqb j i)) ids)).
  { rewrite <- (map_length snd), filter_snd. reflexivity. }
  pose proof (filter_neq_length i ids ND) as FL.
  unfold kn_row.
  destruct (in_dec Nat.eq_dec i ids) as [I|I].
  - assert (E : Nat.eqb (List.length (filter (fun di : Q * nat => negb (Nat.eqb (snd di) i)) r)) (k + 1) = false).
    { apply Nat.eqb_neq. rewrite Len, FL, L. lia. }
    rewrite E. rewrite filter_snd. fold ids. split; [|intros x X; apply filter_In in X; tauto].
    assert (LK : List.length (filter (fun j => negb (Nat.eqb j i)) ids) = k) by lia.
    split; [exact LK|]. split; [apply NoDup_filter'; auto|]. split.
    { intros X. apply filter_In in X. destruct X as [_ X]. rewrite Nat.eqb_refl in X. discriminate. }
    split; [intros j X; apply filter_In in X; apply R; tauto|]. split.
    + intros a b H.
      apply (proj2 (order_sorted dist (filter (fun j => negb (Nat.eqb j i)) ids))); [|lia].
      apply sorted_filter; auto.
    + intros j l Hj Hl Hn Hr. apply filter_In in Hj. apply F; auto; [tauto|].
      intros X. apply Hr. apply filter_In. split; auto. apply negb_true_iff, Nat.eqb_neq. auto.
  - assert (E : Nat.eqb (List.length (filter (fun di : Q * nat => negb (Nat.eqb (snd di) i)) r)) (k + 1) = true).
    { apply Nat.eqb_eq. rewrite Len, FL, L. lia. }
    rewrite E. rewrite filter_snd, map_removelast. fold ids.
    assert (I' : ~ In i (removelast ids)) by (intros X; apply I; apply removelast_in; auto).
    rewrite filter_none by auto.
    split; [|intros x X; apply filter_In in X; apply removelast_in; tauto].
    assert (NE : ids <> []) by (intros X; rewrite X in L; simpl in L; lia).
    pose proof (app_removelast_last 0%nat NE) as SP.
    assert (LK : List.length (removelast ids) = k).
    { rewrite SP in L. rewrite app_length in L. simpl in L. lia. }
    assert (ND' : NoDup (removelast ids)).
    { rewrite SP in ND. apply NoDup_remove_1 in ND. rewrite app_nil_r in ND. auto. }
    split; [exact LK|]. split; [exact ND'|]. split; [exact I'|].
    split; [intros j X; apply R; apply removelast_in; auto|].
    pose proof (proj2 (order_sorted dist ids) S) as S0. clear S. rename S0 into S. split.
    + intros a b H. specialize (S a b). rewrite SP in S. rewrite app_length in S.
      rewrite !app_nth1 in S by lia. apply S. lia.
    + intros j l Hj Hl Hn Hr.
      destruct (Nat.eq_dec l (last ids 0%nat)) as [El|El].
      * subst l. apply (In_nth _ _ 0%nat) in Hj. destruct Hj as [q [Q1 Q2]].
        specialize (S q k). rewrite SP in S. rewrite app_length in S.
        rewrite app_nth1 in S by lia. rewrite app_nth2 in S by lia. rewrite LK, Nat.sub_diag in S.
        simpl in S. rewrite Q2 in S. apply S. lia.
      * apply F; auto; [apply removelast_in; auto|].
        rewrite SP. intros X. apply in_app_iff in X. destruct X as [X|[X|[]]]; auto.
Qed.

Lemma chunks_concat : forall A k (rows : list (list A)), (forall r, In r rows -> List.length r = k) ->
  chunks (List.length rows) k (List.concat rows) = rows.
Proof.
  induction rows as [|r rows IH]; intros H; [reflexivity|]. simpl.
  assert (E : List.length r = k) by (apply H; simpl; auto).
  rewrite firstn_app, skipn_app, E, Nat.sub_diag. simpl. rewrite app_nil_r.
  rewrite <- E at 1. rewrite firstn_all. f_equal.
  rewrite <- E at 2. rewrite skipn_all. simpl. apply IH. intros; apply H; simpl; auto.
Qed.
Lemma concat_length : forall A k (rows : list (list A)), (forall r, In r rows -> List.length r = k) ->
  List.length (List.concat rows) = (List.length rows * k)%nat.
Proof.
  induction rows as [|r rows IH]; intros H; [reflexivity|]. simpl.
  rewrite app_length, (H r) by (simpl; auto). rewrite IH; auto. intros; apply H; simpl; auto.
Qed.

Lemma k_neighbors_rows : forall query rows n k (D : nat -> nat -> Q),
  (forall i, (i < rows)%nat -> nearest n (k + 1) (D i) (map snd (query i))) ->
  k_neighbors query rows k = Ok (map (fun i => kn_row k i (query i)) (seq 0 rows)).
Proof.
  intros query rows n k D H. unfold k_neighbors.
  assert (E : forallb (fun i => Nat.eqb (List.length (query i)) (k + 1)) (seq 0 rows) = true).
  { apply forallb_forall. intros i Hi. apply in_seq in Hi. apply Nat.eqb_eq.
    destruct (H i) as [L _]; [lia|]. rewrite map_length in L. auto. }
  rewrite E.
  assert (W : forall r, In r (map (fun i => kn_row k i (query i)) (seq 0 rows)) -> List.length r = k).
  { intros r R. apply in_map_iff in R. destruct R as [i [<- Hi]]. apply in_seq in Hi.
    destruct (kn_row_spec n k i (D i) (query i)) as [[L _] _]; [apply H; lia|].
    rewrite map_length in L. auto. }
  rewrite (concat_length _ k) by auto. rewrite map_length, seq_length, Nat.eqb_refl.
  f_equal. rewrite <- (seq_length rows 0) at 1. rewrite <- (map_length (fun i => kn_row k i (query i))).
  apply chunks_concat. auto.
Qed.

Lemma k_neighbors_ok : forall query n k (D : nat -> nat -> Q),
  (forall i, (i < n)%nat -> nearest n (k + 1) (D i) (map snd (query i))) ->
  k_neighbors query n k = Ok (map (fun i => kn_row k i (query i)) (seq 0 n)).
Proof. intros query n k D H. exact (k_neighbors_rows query n n k D H). Qed.
