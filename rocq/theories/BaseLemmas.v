(** Generic lemmas about the vocabulary of [Base]. *)
From Coq Require Import ZArith QArith Qround Qminmax List Bool Lia Lqa String Permutation Setoid Morphisms.
From Verif Require Import Base.
Import ListNotations.
Local Open Scope Q_scope.

(** * Results *)
Lemma bind_ok : forall A B (r : res A) (f : A -> res B) b,
  bind r f = Ok b -> exists a, r = Ok a /\ f a = Ok b.
Proof. intros A B [a|e] f b H; simpl in H; [eauto|discriminate]. Qed.

Lemma foldM_app : forall A B (f : B -> A -> res B) l1 l2 acc,
  foldM f (l1 ++ l2) acc = bind (foldM f l1 acc) (fun a => foldM f l2 a).
Proof.
  induction l1; intros; simpl; [reflexivity|].
  destruct (f acc a); simpl; auto.
Qed.

(** * Boolean comparisons on Q *)
Lemma Qltb_lt : forall a b, Qltb a b = true <-> a < b.
Proof.
  intros. unfold Qltb. rewrite negb_true_iff. split; intros H.
  - apply Qnot_le_lt. intro H1. apply Qle_bool_iff in H1. congruence.
  - destruct (Qle_bool b a) eqn:E; auto. apply Qle_bool_iff in E. lra.
Qed.
Lemma Qltb_ge : forall a b, Qltb a b = false <-> b <= a.
Proof.
  intros. unfold Qltb. rewrite negb_false_iff. apply Qle_bool_iff.
Qed.
Lemma Qleb_le : forall a b, Qle_bool a b = true <-> a <= b.
Proof. intros; apply Qle_bool_iff. Qed.
Lemma Qleb_gt : forall a b, Qle_bool a b = false <-> b < a.
Proof.
  intros. split; intros H.
  - apply Qnot_le_lt. intro H1. apply Qle_bool_iff in H1. congruence.
  - destruct (Qle_bool a b) eqn:E; auto. apply Qle_bool_iff in E. lra.
Qed.
Lemma Qeqb_eq : forall a b, Qeq_bool a b = true <-> a == b.
Proof. intros; apply Qeq_bool_iff. Qed.
Lemma Qeqb_neq : forall a b, Qeq_bool a b = false <-> ~ a == b.
Proof.
  intros. rewrite <- Qeqb_eq. destruct (Qeq_bool a b); split; intuition congruence.
Qed.

Global Instance Qltb_proper : Proper (Qeq ==> Qeq ==> eq) Qltb.
Proof.
  intros a b H c d H1. apply eq_true_iff_eq. rewrite !Qltb_lt. rewrite H, H1. tauto.
Qed.

Ltac qb := repeat match goal with
  | H : Qltb _ _ = true |- _ => apply Qltb_lt in H
  | H : Qltb _ _ = false |- _ => apply Qltb_ge in H
  | H : Qle_bool _ _ = true |- _ => apply Qleb_le in H
  | H : Qle_bool _ _ = false |- _ => apply Qleb_gt in H
  | H : Qeq_bool _ _ = true |- _ => apply Qeqb_eq in H
  | H : Qeq_bool _ _ = false |- _ => apply Qeqb_neq in H
  | H : (_ && _)%bool = true |- _ => apply andb_true_iff in H; destruct H
  | H : (_ || _)%bool = false |- _ => apply orb_false_iff in H; destruct H
  | H : negb _ = true |- _ => apply negb_true_iff in H
  | H : negb _ = false |- _ => apply negb_false_iff in H
  | H : Z.eqb _ _ = true |- _ => apply Z.eqb_eq in H
  | H : Z.eqb _ _ = false |- _ => apply Z.eqb_neq in H
  | H : Z.leb _ _ = true |- _ => apply Z.leb_le in H
  | H : Z.leb _ _ = false |- _ => apply Z.leb_gt in H
  | H : Z.ltb _ _ = true |- _ => apply Z.ltb_lt in H
  | H : Z.ltb _ _ = false |- _ => apply Z.ltb_ge in H
  | H : Nat.eqb _ _ = true |- _ => apply Nat.eqb_eq in H
  | H : Nat.eqb _ _ = false |- _ => apply Nat.eqb_neq in H
  | H : Nat.leb _ _ = true |- _ => apply Nat.leb_le in H
  | H : Nat.leb _ _ = false |- _ => apply Nat.leb_gt in H
  | H : Nat.ltb _ _ = true |- _ => apply Nat.ltb_lt in H
  | H : Nat.ltb _ _ = false |- _ => apply Nat.ltb_ge in H
  end.

(** * Integers inside Q *)
Lemma inject_Z_le : forall a b, inject_Z a <= inject_Z b <-> (a <= b)%Z.
Proof. intros. rewrite <- Zle_Qle. tauto. Qed.
Lemma inject_Z_lt : forall a b, inject_Z a < inject_Z b <-> (a < b)%Z.
Proof. intros. rewrite <- Zlt_Qlt. tauto. Qed.
Lemma inject_Z_le_inv : forall a b, inject_Z a <= inject_Z b -> (a <= b)%Z.
Proof. intros. apply inject_Z_le; auto. Qed.
Lemma inject_Z_lt_inv : forall a b, inject_Z a < inject_Z b -> (a < b)%Z.
Proof. intros. apply inject_Z_lt; auto. Qed.
Lemma inject_Z_eq : forall a b, inject_Z a == inject_Z b <-> a = b.
Proof.
  intros; split; intros H; [|subst; reflexivity].
  apply Z.le_antisymm; apply inject_Z_le; rewrite H; apply Qle_refl.
Qed.
Lemma inject_Z_eq_inv : forall a b, inject_Z a == inject_Z b -> a = b.
Proof. intros. apply inject_Z_eq; auto. Qed.
Lemma inject_Z_pos : forall a, (0 < a)%Z -> 0 < inject_Z a.
Proof. intros. change 0 with (inject_Z 0). apply inject_Z_lt; auto. Qed.
Lemma inject_Z_nonneg : forall a, (0 <= a)%Z -> 0 <= inject_Z a.
Proof. intros. change 0 with (inject_Z 0). apply inject_Z_le; auto. Qed.

Lemma inject_Z_succ : forall z, inject_Z (z + 1) == inject_Z z + 1.
Proof. intros. rewrite inject_Z_plus. reflexivity. Qed.

(** Characterisation of floor and ceiling. *)
Lemma Qfloor_spec : forall q z, Qfloor q = z <-> inject_Z z <= q /\ q < inject_Z z + 1.
Proof.
  intros; split.
  - intros <-. split. apply Qfloor_le. rewrite <- inject_Z_succ. apply Qlt_floor.
  - intros [H1 H2].
    pose proof (Qfloor_le q) as H3. pose proof (Qlt_floor q) as H4.
    rewrite <- inject_Z_succ in H2.
    assert (Qfloor q < z + 1)%Z by (apply inject_Z_lt; lra).
    assert (z < Qfloor q + 1)%Z by (apply inject_Z_lt; lra). lia.
Qed.
Lemma Qceiling_spec : forall q z, Qceiling q = z <-> inject_Z z - 1 < q /\ q <= inject_Z z.
Proof.
  assert (Z1: forall z, inject_Z (z - 1) == inject_Z z - 1).
  { intros. unfold Zminus. rewrite inject_Z_plus. reflexivity. }
  intros; split.
  - intros <-. split. rewrite <- Z1. apply Qceiling_lt. apply Qle_ceiling.
  - intros [H1 H2].
    pose proof (Qle_ceiling q) as H3. pose proof (Qceiling_lt q) as H4.
    rewrite <- Z1 in H1.
    assert (z - 1 < Qceiling q)%Z by (apply inject_Z_lt; lra).
    assert (Qceiling q - 1 < z)%Z by (apply inject_Z_lt; lra). lia.
Qed.

Lemma Qfloor_bounds : forall q, inject_Z (Qfloor q) <= q /\ q < inject_Z (Qfloor q) + 1.
Proof. intros; apply Qfloor_spec; reflexivity. Qed.
Lemma Qceiling_bounds : forall q, inject_Z (Qceiling q) - 1 < q /\ q <= inject_Z (Qceiling q).
Proof. intros; apply Qceiling_spec; reflexivity. Qed.

Lemma Qfloor_nonneg : forall q, 0 <= q -> (0 <= Qfloor q)%Z.
Proof.
  intros. pose proof (Qfloor_bounds q) as [_ H1]. rewrite <- inject_Z_succ in H1.
  assert (inject_Z 0 < inject_Z (Qfloor q + 1)) by (change (inject_Z 0) with 0; lra).
  apply inject_Z_lt_inv in H0. lia.
Qed.

Lemma Qtrunc_inject : forall z, Qtrunc (inject_Z z) = z.
Proof.
  intros. unfold Qtrunc. destruct (Qle_bool 0 (inject_Z z)).
  apply Qfloor_Z. apply Qceiling_Z.
Qed.
Lemma Qtrunc_nonneg : forall q, 0 <= q -> Qtrunc q = Qfloor q.
Proof. intros. unfold Qtrunc. apply Qle_bool_iff in H. rewrite H. reflexivity. Qed.

Global Instance Qtrunc_proper : Proper (Qeq ==> eq) Qtrunc.
Proof.
  intros a b H. unfold Qtrunc.
  replace (Qle_bool 0 a) with (Qle_bool 0 b).
  - destruct (Qle_bool 0 b); rewrite H; reflexivity.
  - apply eq_true_iff_eq. rewrite !Qle_bool_iff. rewrite H. tauto.
Qed.

(** Division by a positive number. *)
Lemma Qdiv_le : forall a b c, 0 < b -> (a / b <= c <-> a <= c * b).
Proof.
  intros. split; intros.
  - apply (Qmult_le_compat_r _ _ b) in H0; [|lra].
    assert (a / b * b == a) by (field; lra). lra.
  - apply Qle_shift_div_r; auto.
Qed.
Lemma Qdiv_lt : forall a b c, 0 < b -> (a / b < c <-> a < c * b).
Proof.
  intros. split; intros.
  - apply Qnot_le_lt. intro H1.
    assert (c <= a / b) by (apply Qle_shift_div_l; auto). lra.
  - apply Qlt_shift_div_r; auto.
Qed.
Lemma Qle_div : forall a b c, 0 < b -> (c <= a / b <-> c * b <= a).
Proof.
  intros. split; intros.
  - apply Qnot_lt_le. intro H1. apply (Qdiv_lt a b c) in H1; auto. lra.
  - apply Qle_shift_div_l; auto.
Qed.
Lemma Qlt_div : forall a b c, 0 < b -> (c < a / b <-> c * b < a).
Proof.
  intros. split; intros.
  - apply Qnot_le_lt. intro H1. apply (Qdiv_le a b c) in H1; auto. lra.
  - apply Qlt_shift_div_l; auto.
Qed.
(** One-directional versions, convenient with [apply ... in]. *)
Lemma Qdiv_le_mul : forall a b c, 0 < b -> a / b <= c -> a <= c * b.
Proof. intros. apply Qdiv_le; auto. Qed.
Lemma Qdiv_lt_mul : forall a b c, 0 < b -> a / b < c -> a < c * b.
Proof. intros. apply Qdiv_lt; auto. Qed.
Lemma Qle_div_mul : forall a b c, 0 < b -> c <= a / b -> c * b <= a.
Proof. intros. apply Qle_div; auto. Qed.
Lemma Qlt_div_mul : forall a b c, 0 < b -> c < a / b -> c * b < a.
Proof. intros. apply Qlt_div; auto. Qed.
Lemma Qdiv_nonneg : forall a b, 0 <= a -> 0 < b -> 0 <= a / b.
Proof. intros. apply Qle_div; auto. lra. Qed.
Lemma Qdiv_pos : forall a b, 0 < a -> 0 < b -> 0 < a / b.
Proof. intros. apply Qlt_div; auto. lra. Qed.

(** * min / max of lists *)
Lemma Qmin_list_le : forall l x, Qmin_list x l <= x /\ (forall y, In y l -> Qmin_list x l <= y).
Proof.
  unfold Qmin_list. induction l as [|a l IH]; simpl; intros x.
  - split; [lra|tauto].
  - destruct (IH (Qmin x a)) as [H1 H2]. split.
    + pose proof (Q.le_min_l x a). lra.
    + intros y [->|H]; auto. pose proof (Q.le_min_r x y). lra.
Qed.
Lemma Qmax_list_ge : forall l x, x <= Qmax_list x l /\ (forall y, In y l -> y <= Qmax_list x l).
Proof.
  unfold Qmax_list. induction l as [|a l IH]; simpl; intros x.
  - split; [lra|tauto].
  - destruct (IH (Qmax x a)) as [H1 H2]. split.
    + pose proof (Q.le_max_l x a). lra.
    + intros y [->|H]; auto. pose proof (Q.le_max_r x y). lra.
Qed.
Lemma Qmin_list_in : forall l x, exists y, In y (x :: l) /\ y == Qmin_list x l.
Proof.
  unfold Qmin_list. induction l as [|a l IH]; simpl; intros x.
  - exists x; split; auto; reflexivity.
  - destruct (IH (Qmin x a)) as [y [[H|H] H1]].
    + subst y. destruct (Q.min_spec x a) as [[_ E]|[_ E]].
      * exists x. split; auto. rewrite <- H1. symmetry; auto.
      * exists a. split; auto. rewrite <- H1. symmetry; auto.
    + exists y; split; auto.
Qed.
Lemma Qmax_list_in : forall l x, exists y, In y (x :: l) /\ y == Qmax_list x l.
Proof.
  unfold Qmax_list. induction l as [|a l IH]; simpl; intros x.
  - exists x; split; auto; reflexivity.
  - destruct (IH (Qmax x a)) as [y [[H|H] H1]].
    + subst y. destruct (Q.max_spec x a) as [[_ E]|[_ E]].
      * exists a. split; auto. rewrite <- H1. symmetry; auto.
      * exists x. split; auto. rewrite <- H1. symmetry; auto.
    + exists y; split; auto.
Qed.

(** * Sums *)
Lemma Qsum_app : forall l1 l2, Qsum (l1 ++ l2) == Qsum l1 + Qsum l2.
Proof. induction l1; simpl; intros; [lra|]. rewrite IHl1. lra. Qed.
Lemma Qsum_perm : forall l1 l2, Permutation l1 l2 -> Qsum l1 == Qsum l2.
Proof. induction 1; simpl; try lra. Qed.
Lemma Qsum_nonneg : forall l, (forall x, In x l -> 0 <= x) -> 0 <= Qsum l.
Proof.
  induction l; simpl; intros; [lra|].
  assert (0 <= a) by auto. assert (0 <= Qsum l) by auto. lra.
Qed.
Lemma Qsum_map_plus : forall A (f g : A -> Q) l,
  Qsum (map (fun x => f x + g x) l) == Qsum (map f l) + Qsum (map g l).
Proof. induction l; simpl; [lra|]. rewrite IHl. lra. Qed.
Lemma Qsum_map_scale : forall A (f : A -> Q) c l,
  Qsum (map (fun x => c * f x) l) == c * Qsum (map f l).
Proof. induction l; simpl; [lra|]. rewrite IHl. lra. Qed.
Lemma Qlen_cons : forall A (a : A) l, Qlen (a :: l) == Qlen l + 1.
Proof.
  intros. unfold Qlen. simpl List.length. rewrite Nat2Z.inj_succ. unfold Z.succ.
  rewrite inject_Z_plus. reflexivity.
Qed.
Lemma Qlen_nonneg : forall A (l : list A), 0 <= Qlen l.
Proof. intros. apply inject_Z_nonneg. lia. Qed.
Lemma Qlen_pos : forall A (l : list A), l <> [] -> 0 < Qlen l.
Proof. intros A [|a l]; intros; [congruence|]. apply inject_Z_pos. simpl. lia. Qed.
Lemma Qsum_map_const : forall A c (l : list A), Qsum (map (fun _ => c) l) == c * Qlen l.
Proof.
  induction l; simpl. unfold Qlen; simpl. change (inject_Z 0) with 0. lra.
  rewrite IHl, Qlen_cons. lra.
Qed.
Lemma Qsum_map_ext : forall A (f g : A -> Q) l,
  (forall x, In x l -> f x == g x) -> Qsum (map f l) == Qsum (map g l).
Proof.
  induction l; simpl; intros; [reflexivity|]. rewrite IHl; auto. rewrite (H a); auto. reflexivity.
Qed.
Lemma Qsum_map_le : forall A (f g : A -> Q) l,
  (forall x, In x l -> f x <= g x) -> Qsum (map f l) <= Qsum (map g l).
Proof.
  induction l; simpl; intros; [lra|].
  assert (f a <= g a) by auto.
  assert (Qsum (map f l) <= Qsum (map g l)) by auto. lra.
Qed.

Lemma Zsum_app : forall l1 l2, Zsum (l1 ++ l2) = (Zsum l1 + Zsum l2)%Z.
Proof. induction l1; simpl; intros; [lia|]. rewrite IHl1. lia. Qed.

(** * Counting *)
Lemma count_nil : forall A (f : A -> bool), count f [] = 0%nat.
Proof. reflexivity. Qed.
Lemma count_cons : forall A (f : A -> bool) x l,
  count f (x :: l) = ((if f x then 1 else 0) + count f l)%nat.
Proof. intros. unfold count. simpl. destruct (f x); reflexivity. Qed.
Lemma count_app : forall A (f : A -> bool) l1 l2, count f (l1 ++ l2) = (count f l1 + count f l2)%nat.
Proof. intros. unfold count. rewrite filter_app, app_length. reflexivity. Qed.
Lemma count_le_length : forall A (f : A -> bool) l, (count f l <= List.length l)%nat.
Proof. induction l; [reflexivity|]. rewrite count_cons. simpl. destruct (f a); lia. Qed.
Lemma count_ext : forall A (f g : A -> bool) l,
  (forall x, In x l -> f x = g x) -> count f l = count g l.
Proof.
  induction l; intros; [reflexivity|]. rewrite !count_cons. rewrite (H a); simpl; auto.
  rewrite IHl; auto. intros; apply H; simpl; auto.
Qed.
Lemma count_mono : forall A (f g : A -> bool) l,
  (forall x, In x l -> f x = true -> g x = true) -> (count f l <= count g l)%nat.
Proof.
  induction l; intros; [reflexivity|]. rewrite !count_cons.
  assert (count f l <= count g l)%nat by (apply IHl; intros; apply H; simpl; auto).
  specialize (H a). simpl in H. destruct (f a); [rewrite H; auto; lia|]. destruct (g a); lia.
Qed.
Lemma count_perm : forall A (f : A -> bool) l1 l2, Permutation l1 l2 -> count f l1 = count f l2.
Proof. induction 1; rewrite ?count_cons; try lia. Qed.
Lemma count_all : forall A (f : A -> bool) l,
  (forall x, In x l -> f x = true) -> count f l = List.length l.
Proof.
  induction l; intros; [reflexivity|]. rewrite count_cons, H; simpl; auto.
  rewrite IHl; auto. intros; apply H; simpl; auto.
Qed.
Lemma count_none : forall A (f : A -> bool) l,
  (forall x, In x l -> f x = false) -> count f l = 0%nat.
Proof.
  induction l; intros; [reflexivity|]. rewrite count_cons, H; simpl; auto.
  rewrite IHl; auto. intros; apply H; simpl; auto.
Qed.
Lemma count_map : forall A B (g : A -> B) (f : B -> bool) l,
  count f (map g l) = count (fun x => f (g x)) l.
Proof. induction l; simpl; [reflexivity|]. rewrite !count_cons, IHl. reflexivity. Qed.
Lemma count_split : forall A (f g : A -> bool) l,
  count f l = (count (fun x => f x && g x) l + count (fun x => f x && negb (g x)) l)%nat.
Proof.
  induction l; [reflexivity|]. rewrite !count_cons, IHl. destruct (f a), (g a); simpl; lia.
Qed.
Lemma count_pos_iff : forall A (f : A -> bool) l,
  (0 < count f l)%nat <-> exists x, In x l /\ f x = true.
Proof.
  induction l; simpl.
  - rewrite count_nil. split; [lia|]. intros [x [[] _]].
  - rewrite count_cons. destruct (f a) eqn:E.
    + split; [|lia]. intros. exists a; auto.
    + rewrite Nat.add_0_l, IHl. split; intros [x [H1 H2]]; exists x; auto.
      destruct H1; [congruence|auto].
Qed.

(** * Integer ranges *)
Lemma zrange_length : forall n, List.length (zrange n) = Z.to_nat n.
Proof. intros. unfold zrange. rewrite map_length, seq_length. reflexivity. Qed.
Lemma in_zrange : forall n z, In z (zrange n) <-> (0 <= z < n)%Z.
Proof.
  intros. unfold zrange. rewrite in_map_iff. split.
  - intros [k [H1 H2]]. apply in_seq in H2. lia.
  - intros. exists (Z.to_nat z). split; [lia|]. apply in_seq. lia.
Qed.
Lemma zrange_nodup : forall n, NoDup (zrange n).
Proof.
  intros. unfold zrange. apply FinFun.Injective_map_NoDup; [|apply seq_NoDup].
  intros a b H. lia.
Qed.
Lemma zrange_succ : forall n, (0 <= n)%Z -> zrange (n + 1) = zrange n ++ [n].
Proof.
  intros. unfold zrange. replace (Z.to_nat (n + 1)) with (S (Z.to_nat n)) by lia.
  rewrite seq_S, map_app. simpl. do 2 f_equal. lia.
Qed.

(** * Dictionaries *)
Lemma dget_none : forall d k, dget d k = None <-> ~ In k (dkeys d).
Proof.
  induction d as [|[k' v] d IH]; simpl; intros.
  - tauto.
  - destruct (Z.eqb_spec k k').
    + subst. split; [discriminate|tauto].
    + rewrite IH. intuition.
Qed.
Lemma dincr_ok : forall d k, In k (dkeys d) ->
  exists d', dincr d k = Ok d' /\ dkeys d' = dkeys d /\
    Zsum (dvals d') = (Zsum (dvals d) + 1)%Z /\
    (forall j, dget d' j = option_map (fun v => if Z.eqb j k then v + 1 else v)%Z (dget d j)).
Proof.
  induction d as [|[k' v] d IH]; simpl; intros k H; [tauto|].
  destruct (Z.eqb_spec k k').
  - subst k'. eexists; split; [reflexivity|]. simpl. split; [reflexivity|]. split; [lia|].
    intros j. destruct (Z.eqb_spec j k); simpl; [reflexivity|].
    destruct (dget d j); reflexivity.
  - destruct H; [congruence|]. destruct (IH k H) as [d' [H1 [H2 [H3 H4]]]].
    rewrite H1. simpl. eexists; split; [reflexivity|]. simpl. rewrite H2, H3.
    split; [reflexivity|]. split; [lia|]. intros j.
    destruct (Z.eqb_spec j k'); simpl; [|apply H4].
    subst. destruct (Z.eqb_spec k' k); congruence.
Qed.
Lemma dincr_keyerror : forall d k, ~ In k (dkeys d) -> dincr d k = Raise KeyError.
Proof.
  induction d as [|[k' v] d IH]; simpl; intros; [reflexivity|].
  destruct (Z.eqb_spec k k'); [subst; tauto|]. rewrite IH; auto.
Qed.
Lemma dincr_ok_inv : forall d k d', dincr d k = Ok d' -> In k (dkeys d).
Proof.
  intros. destruct (in_dec Z.eq_dec k (dkeys d)); auto.
  rewrite dincr_keyerror in H; auto. discriminate.
Qed.

(** Counting loop: [for p in l: d[key p] += 1]. *)
Lemma fold_dincr_ok : forall A (key : A -> res Z) (f : A -> Z) (l : list A) d,
  (forall p, In p l -> key p = Ok (f p)) ->
  (forall p, In p l -> In (f p) (dkeys d)) ->
  exists d', foldM (fun d p => bind (key p) (fun k => dincr d k)) l d = Ok d' /\
    dkeys d' = dkeys d /\
    Zsum (dvals d') = (Zsum (dvals d) + Z.of_nat (List.length l))%Z /\
    (forall j, dget d' j =
       option_map (fun v => v + Z.of_nat (count (fun p => Z.eqb j (f p)) l))%Z (dget d j)).
Proof.
  induction l as [|p l IH]; intros d H1 H2.
  - exists d. simpl. repeat split; auto. lia. intros. unfold count; simpl.
    destruct (dget d j); simpl; f_equal; lia.
  - simpl. rewrite H1 by (simpl; auto). simpl.
    destruct (dincr_ok d (f p)) as [d1 [E1 [E2 [E3 E4]]]]. { apply H2; simpl; auto. }
    rewrite E1. simpl.
    destruct (IH d1) as [d' [F1 [F2 [F3 F4]]]].
    { intros; apply H1; simpl; auto. } { intros; rewrite E2; apply H2; simpl; auto. }
    exists d'. rewrite F1, F2, E2. repeat split; auto. lia.
    intros j. rewrite F4, E4, count_cons. destruct (dget d j); simpl; auto.
    destruct (Z.eqb j (f p)); simpl; f_equal; lia.
Qed.
