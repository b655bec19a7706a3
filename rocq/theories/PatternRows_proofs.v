(** Proofs about the rows of point patterns: construction, unique, superimpose,
    explode, add_marks. *)
From Coq Require Import ZArith QArith Qabs List Bool String Ascii Sorted Permutation Lia Lqa.
From Coq Require Import DecimalString DecimalNat.
From Verif Require Import Base BaseLemmas Quadrat_model Pattern_model Pattern_spec Pattern_proofs.
Import ListNotations.
Local Open Scope Q_scope.

(** ** Equality of rows *)
Lemma cell_eqb_spec : forall a b, cell_eqb a b = true <-> cell_same a b.
Proof.
  intros [x|x|] [y|y|]; simpl; split; intros H; try discriminate; try tauto; auto.
  - apply Qeq_bool_iff; auto.
  - apply Qeq_bool_iff; auto.
  - apply String.eqb_eq; auto.
  - apply String.eqb_eq; auto.
Qed.
Lemma cell_same_refl : forall a, cell_same a a.
Proof. intros [x|x|]; simpl; auto. reflexivity. Qed.
Lemma cell_same_sym : forall a b, cell_same a b -> cell_same b a.
Proof. intros [x|x|] [y|y|]; simpl; auto. intros; symmetry; auto. Qed.
Lemma cell_same_trans : forall a b c, cell_same a b -> cell_same b c -> cell_same a c.
Proof.
  intros [x|x|] [y|y|] [z|z|]; simpl; intros; try tauto; try congruence.
  transitivity y; auto.
Qed.

Lemma row_eqb_spec : forall a b, row_eqb a b = true <-> row_same a b.
Proof.
  unfold row_same. induction a; destruct b; simpl; split; intros H; try discriminate; auto; try (inversion H; fail).
  - apply andb_true_iff in H. destruct H. constructor; [apply cell_eqb_spec|apply IHa]; auto.
  - inversion H; subst. apply andb_true_iff. split; [apply cell_eqb_spec|apply IHa]; auto.
Qed.
Lemma row_same_refl : forall a, row_same a a.
Proof. unfold row_same. induction a; constructor; auto using cell_same_refl. Qed.
Lemma row_same_sym : forall a b, row_same a b -> row_same b a.
Proof. unfold row_same. induction 1; constructor; auto using cell_same_sym. Qed.
Lemma row_same_trans : forall a b c, row_same a b -> row_same b c -> row_same a c.
Proof.
  unfold row_same. intros a b c H. revert c. induction H; intros c Hc; inversion Hc; subst; constructor; auto.
  eapply cell_same_trans; eauto.
Qed.
Lemma seen_spec : forall r l, existsb (row_eqb r) l = true <-> has_row l r.
Proof.
  intros r l. rewrite existsb_exists. unfold has_row. split; intros [x [A B]]; exists x; split; auto; apply row_eqb_spec; auto.
Qed.
Lemma seen_false : forall r l, existsb (row_eqb r) l = false <-> ~ has_row l r.
Proof.
  intros r l. rewrite <- seen_spec. destruct (existsb (row_eqb r) l); split; intros; congruence.
Qed.
Lemma has_row_same : forall l r r', row_same r r' -> has_row l r -> has_row l r'.
Proof.
  intros l r r' E [x [A B]]. exists x. split; auto. eapply row_same_trans; eauto. apply row_same_sym; auto.
Qed.
Lemma has_row_app : forall a b r, has_row (a ++ b) r <-> has_row a r \/ has_row b r.
Proof.
  intros. unfold has_row. split.
  - intros [x [A B]]. apply in_app_iff in A. destruct A; [left|right]; eauto.
  - intros [[x [A B]]|[x [A B]]]; exists x; rewrite in_app_iff; auto.
Qed.
Lemma has_row_cons : forall a b r, has_row (a :: b) r <-> row_same r a \/ has_row b r.
Proof.
  intros. unfold has_row. split.
  - intros [x [[->|A] B]]; eauto.
  - intros [A|[x [A B]]]; [exists a|exists x]; simpl; auto.
Qed.
Lemma has_row_in : forall l r, In r l -> has_row l r.
Proof. intros. exists r. split; auto. apply row_same_refl. Qed.
Lemma has_row_perm : forall l l' r, (forall x, In x l -> In x l') -> has_row l r -> has_row l' r.
Proof. intros l l' r H [x [A B]]. exists x; auto. Qed.

Lemma subseq_refl : forall A (l : list A), subseq l l.
Proof. induction l; constructor; auto. Qed.
Lemma subseq_in : forall A (a b : list A), subseq a b -> forall x, In x a -> In x b.
Proof. induction 1; simpl; intros; intuition. Qed.
Lemma subseq_filter : forall A (f : A -> bool) l, subseq (filter f l) l.
Proof. induction l; simpl; [constructor|]. destruct (f a); constructor; auto. Qed.

(** ** drop_duplicates *)
Lemma dedup_subseq : forall l seen, subseq (dedup seen l) l.
Proof. induction l; simpl; intros; [constructor|]. destruct (existsb _ _); constructor; auto. Qed.

Lemma dedup_not_seen : forall l seen r, In r (dedup seen l) -> ~ has_row seen r.
Proof.
  induction l; simpl; intros seen r H; [tauto|].
  destruct (existsb (row_eqb a) seen) eqn:E; [eauto|].
  destruct H as [->|H]; [apply seen_false; auto|].
  apply IHl in H. intros X. apply H. apply has_row_cons. auto.
Qed.

Lemma dedup_no_dups : forall l seen, no_dups (dedup seen l).
Proof.
  induction l; simpl; intros seen; [constructor|].
  destruct (existsb (row_eqb a) seen) eqn:E; [apply IHl|].
  constructor; [|apply IHl].
  apply Forall_forall. intros x Hx X. apply dedup_not_seen in Hx. apply Hx.
  apply has_row_cons. left. apply row_same_sym; auto.
Qed.

Lemma dedup_rows : forall l seen r, has_row (seen ++ dedup seen l) r <-> has_row (seen ++ l) r.
Proof.
  induction l; simpl; intros seen r; [tauto|].
  destruct (existsb (row_eqb a) seen) eqn:E.
  - rewrite IHl, !has_row_app, has_row_cons. apply seen_spec in E.
    split; [tauto|]. intros [H|[H|H]]; auto. left. eapply has_row_same; [|exact E]. apply row_same_sym; auto.
  - specialize (IHl (a :: seen) r). simpl in IHl. rewrite !has_row_cons, !has_row_app in IHl.
    rewrite !has_row_app, !has_row_cons. tauto.
Qed.

(** What has been seen after a list. *)
Lemma dedup_app : forall l1 l2 seen,
  dedup seen (l1 ++ l2) = dedup seen l1 ++ dedup (rev (dedup seen l1) ++ seen) l2.
Proof.
  induction l1; simpl; intros l2 seen; auto.
  destruct (existsb (row_eqb a) seen) eqn:E; auto.
  simpl. rewrite IHl1. rewrite <- app_assoc. reflexivity.
Qed.

Lemma dedup_all_seen : forall l seen, (forall r, In r l -> has_row seen r) -> dedup seen l = [].
Proof.
  induction l; simpl; intros seen H; auto.
  assert (E : existsb (row_eqb a) seen = true) by (apply seen_spec; auto).
  rewrite E. auto.
Qed.

Lemma dedup_id : forall l seen, no_dups l -> (forall r, In r l -> ~ has_row seen r) -> dedup seen l = l.
Proof.
  induction l; simpl; intros seen N H; auto.
  inversion N; subst.
  assert (E : existsb (row_eqb a) seen = false) by (apply seen_false; auto).
  rewrite E. f_equal. apply IHl; auto.
  intros r Hr X. apply has_row_cons in X. destruct X as [X|X]; [|apply (H r); auto].
  rewrite Forall_forall in H2. apply (H2 r Hr). apply row_same_sym; auto.
Qed.

Lemma dedup_nil_rows : forall l, same_rows (dedup [] l) l.
Proof. intros l r. apply (dedup_rows l []). Qed.

Lemma rev_has_row : forall l r, has_row (rev l ++ []) r <-> has_row l r.
Proof.
  intros. rewrite app_nil_r. split; apply has_row_perm; intros x; rewrite <- in_rev; auto.
Qed.

Lemma dedup_first : forall pre r post, ~ has_row pre r ->
  exists t, dedup [] (pre ++ r :: post) = dedup [] pre ++ r :: t.
Proof.
  intros pre r post H. rewrite dedup_app. simpl.
  assert (E : existsb (row_eqb r) (rev (dedup [] pre) ++ []) = false).
  { apply seen_false. rewrite rev_has_row. rewrite (dedup_nil_rows pre r). auto. }
  rewrite E. eauto.
Qed.
Lemma dedup_later : forall pre r, has_row pre r -> dedup [] (pre ++ [r]) = dedup [] pre.
Proof.
  intros pre r H. rewrite dedup_app. rewrite (dedup_all_seen [r]); [apply app_nil_r|].
  intros x [<-|[]]. apply rev_has_row. apply dedup_nil_rows; auto.
Qed.

Lemma dedup_union : forall l1 l2, exists t,
  dedup [] (l1 ++ l2) = dedup [] l1 ++ t /\ subseq t l2 /\ no_dups t /\
  (forall r, In r t -> ~ has_row l1 r) /\
  (forall r, has_row l2 r -> has_row l1 r \/ has_row t r).
Proof.
  intros l1 l2. rewrite dedup_app. eexists. split; [reflexivity|].
  split; [apply dedup_subseq|]. split; [apply dedup_no_dups|]. split.
  - intros r H X. apply dedup_not_seen in H. apply H. apply rev_has_row. apply dedup_nil_rows; auto.
  - intros r H.
    pose proof (rev_has_row (dedup [] l1) r) as V. pose proof (dedup_nil_rows l1 r) as W.
    revert V. generalize (rev (dedup [] l1) ++ []) as seen. intros seen V.
    pose proof (dedup_rows l2 seen r) as D. rewrite !has_row_app in D. tauto.
Qed.

Lemma Forall2_weaken : forall A B (P P' : A -> B -> Prop) l l', (forall a b, P a b -> P' a b) ->
  Forall2 P l l' -> Forall2 P' l l'.
Proof. intros. induction H0; constructor; auto. Qed.

(** ** mapM *)
Lemma mapM_ok_in : forall A B (f : A -> res B) l ys, mapM f l = Ok ys ->
  forall x, In x l -> exists y, f x = Ok y /\ In y ys.
Proof.
  induction l; simpl; intros ys H x Hx; [tauto|].
  apply bind_ok in H. destruct H as [y [H1 H2]]. apply bind_ok in H2. destruct H2 as [t [H2 H3]].
  inversion H3; subst. destruct Hx as [<-|Hx]; [exists y; simpl; auto|].
  destruct (IHl t H2 x Hx) as [z [Z1 Z2]]. exists z; simpl; auto.
Qed.
Lemma mapM_total : forall A B (f : A -> res B) l, (forall x, In x l -> exists y, f x = Ok y) ->
  exists ys, mapM f l = Ok ys.
Proof.
  induction l; simpl; intros H; [eauto|].
  destruct (H a) as [y Y]; auto. destruct IHl as [ys E]; auto.
  rewrite Y. simpl. rewrite E. simpl. eauto.
Qed.
Lemma mapM_forall2 : forall A B (f : A -> res B) l ys, mapM f l = Ok ys ->
  Forall2 (fun x y => f x = Ok y) l ys.
Proof.
  induction l; simpl; intros ys H; [inversion H; constructor|].
  apply bind_ok in H. destruct H as [y [H1 H2]]. apply bind_ok in H2. destruct H2 as [t [H2 H3]].
  inversion H3; subst. constructor; auto.
Qed.
Lemma mapM_len : forall A B (f : A -> res B) l ys, mapM f l = Ok ys -> List.length ys = List.length l.
Proof. intros A B f l ys H. apply mapM_forall2 in H. induction H; simpl; auto. Qed.

(** ** Constructed patterns *)
Definition built (s : pattern) : Prop :=
  exists p rows w names cn, fst (pattern_init p rows w names cn) = Ok s.

Lemma init_fields : forall p rows w names cn s, fst (pattern_init p rows w names cn) = Ok s ->
  exists x y, p_coord s = [x; y] /\ p_x s = x /\ p_y s = y /\
    f_rows (p_df s) = rows /\ List.length (f_cols (p_df s)) = p /\ p_nmarks s = (p - 2)%nat /\
    frame_points (p_df s) x y = Ok (p_pts s) /\
    f_cols (p_df s) =
      match names with
      | Some n => n
      | None => match cn with Some c => c | None => ["x"; "y"]%string end ++ map mark_name (seq 0 (p - 2))
      end /\
    p_win s = Some (match w with Some w => w | None => default_window (mbb_of (p_pts s)) end).
Proof.
  intros p rows w names cn s H. unfold pattern_init in H.
  assert (G : forall cols coord,
    match coord with
    | [x; y] =>
       if Nat.eqb (List.length cols) p then
         let f := mkframe cols rows in
         let! pts := frame_points f x y in
         let s := mkpattern f (p - 2) coord x y pts None no_cache in
         Ok (match w with
             | Some _ => set_window s w
             | None => let (b, s) := read_mbb s in set_window s (Some (default_window b))
             end)
       else Raise ValueError
    | _ => Raise ValueError
    end = Ok s ->
    exists x y, p_coord s = [x; y] /\ p_x s = x /\ p_y s = y /\
    f_rows (p_df s) = rows /\ List.length (f_cols (p_df s)) = p /\ p_nmarks s = (p - 2)%nat /\
    frame_points (p_df s) x y = Ok (p_pts s) /\ f_cols (p_df s) = cols /\
    p_win s = Some (match w with Some w => w | None => default_window (mbb_of (p_pts s)) end)).
  { intros cols coord K. destruct coord as [|x [|y [|]]]; try discriminate.
    destruct (Nat.eqb_spec (List.length cols) p); try discriminate.
    cbv zeta in K. apply bind_ok in K. destruct K as [pts [P1 P2]]. inversion P2; subst; clear P2.
    exists x, y. destruct w; simpl; repeat split; auto. }
  destruct names as [n|]; simpl in H; apply G in H;
    destruct H as [x [y [A [B [C [D [E [F [I [J K]]]]]]]]]]; exists x, y;
    repeat (split; [assumption|]); assumption.
Qed.

Lemma rebuild : forall s rows w, built s -> (forall r, In r rows -> In r (f_rows (p_df s))) ->
  exists s', fst (pattern_init (List.length (f_cols (p_df s))) rows w
                    (Some (f_cols (p_df s))) (Some (p_coord s))) = Ok s' /\
    p_df s' = mkframe (f_cols (p_df s)) rows /\ p_coord s' = p_coord s /\
    p_win s' = Some (match w with Some w => w | None => default_window (mbb_of (p_pts s')) end) /\
    List.length (p_pts s') = List.length rows.
Proof.
  intros s rows w B Hr. destruct B as [p [rs [w0 [names [cn B]]]]].
  destruct (init_fields _ _ _ _ _ _ B) as [x [y [A1 [A2 [A3 [A4 [A5 [A6 [A7 [A8 A9]]]]]]]]]].
  unfold pattern_init. simpl. rewrite A1. rewrite Nat.eqb_refl.
  unfold frame_points in *. simpl.
  destruct (col_index x (f_cols (p_df s))) as [i|] eqn:Ei; [|discriminate].
  destruct (col_index y (f_cols (p_df s))) as [j|] eqn:Ej; [|discriminate].
  destruct (mapM_total _ _ (fun r => let! a := cell_num (get_cell i r) in
                     let! b := cell_num (get_cell j r) in Ok (a, b)) rows) as [ys E].
  { intros r R. destruct (mapM_ok_in _ _ _ _ _ A7 r (Hr r R)) as [v [V _]]. eauto. }
  rewrite E. simpl. eexists. split; [reflexivity|].
  apply mapM_len in E.
  destruct w; simpl; repeat split; auto.
Qed.

(** ** unique and superimpose *)
Lemma unique_ok : forall s, built s -> exists u, unique s = Ok u /\
  p_df u = mkframe (f_cols (p_df s)) (dedup [] (f_rows (p_df s))) /\ p_coord u = p_coord s /\
  p_win u = Some WMethod.
Proof.
  intros s B. unfold unique.
  destruct (rebuild s (dedup [] (f_rows (p_df s))) (Some WMethod) B) as [u [U1 [U2 [U3 [U4 U5]]]]].
  { apply subseq_in. apply dedup_subseq. }
  exists u. auto.
Qed.

Lemma strings_eqb_spec : forall a b, strings_eqb a b = true <-> a = b.
Proof. intros. unfold strings_eqb. destruct (list_eq_dec string_dec a b); split; congruence. Qed.

Lemma built_mix : forall s1 s2 rows w, built s1 -> built s2 ->
  f_cols (p_df s1) = f_cols (p_df s2) -> p_coord s1 = p_coord s2 ->
  (forall r, In r rows -> In r (f_rows (p_df s1)) \/ In r (f_rows (p_df s2))) ->
  exists s', fst (pattern_init (List.length (f_cols (p_df s1))) rows w
                    (Some (f_cols (p_df s1))) (Some (p_coord s1))) = Ok s' /\
    p_df s' = mkframe (f_cols (p_df s1)) rows /\ p_coord s' = p_coord s1.
Proof.
  intros s1 s2 rows w B1 B2 EC EN Hr.
  destruct B1 as [p1 [rs1 [w1 [n1 [cn1 B1]]]]]. destruct B2 as [p2 [rs2 [w2 [n2 [cn2 B2]]]]].
  destruct (init_fields _ _ _ _ _ _ B1) as [x [y [A1 [A2 [A3 [A4 [A5 [A6 [A7 [A8 A9]]]]]]]]]].
  destruct (init_fields _ _ _ _ _ _ B2) as [x' [y' [C1 [C2 [C3 [C4 [C5 [C6 [C7 [C8 C9]]]]]]]]]].
  rewrite EN in A1. rewrite A1 in C1. inversion C1 as [[X1 X2]]. rewrite <- X1, <- X2 in C7. clear C1 C2 C3 X1 X2.
  unfold pattern_init. simpl. rewrite EN, A1, Nat.eqb_refl.
  unfold frame_points in *. simpl. rewrite <- EC in C7.
  destruct (col_index x (f_cols (p_df s1))) as [i|] eqn:Ei; [|discriminate].
  destruct (col_index y (f_cols (p_df s1))) as [j|] eqn:Ej; [|discriminate].
  destruct (mapM_total _ _ (fun r => let! a := cell_num (get_cell i r) in
                     let! b := cell_num (get_cell j r) in Ok (a, b)) rows) as [ys E].
  { intros r R. destruct (Hr r R) as [R'|R'].
    - destruct (mapM_ok_in _ _ _ _ _ A7 r R') as [v [V _]]. eauto.
    - destruct (mapM_ok_in _ _ _ _ _ C7 r R') as [v [V _]]. eauto. }
  rewrite E. simpl. eexists. split; [reflexivity|].
  destruct w; simpl; split; auto; congruence.
Qed.

Lemma superimpose_ok : forall s1 s2, built s1 -> built s2 ->
  f_cols (p_df s1) = f_cols (p_df s2) -> p_coord s1 = p_coord s2 ->
  exists u, superimpose s1 s2 = Ok u /\ built u /\
  p_df u = mkframe (f_cols (p_df s1)) (dedup [] (f_rows (p_df s1) ++ f_rows (p_df s2))) /\
  p_coord u = p_coord s1.
Proof.
  intros s1 s2 B1 B2 EC EN. unfold superimpose.
  rewrite (proj2 (strings_eqb_spec _ _) EC), (proj2 (strings_eqb_spec _ _) EN). simpl.
  destruct (built_mix s1 s2 (dedup [] (f_rows (p_df s1) ++ f_rows (p_df s2))) None B1 B2 EC EN)
    as [u [U1 [U2 U3]]].
  { intros r R. apply in_app_iff. eapply subseq_in; [apply dedup_subseq|exact R]. }
  exists u. split; [exact U1|]. split; [|auto]. unfold built. eauto 10.
Qed.

(** ** Order of marks *)
Lemma string_compare_trans : forall a b c, String.compare a b = Lt -> String.compare b c = Lt ->
  String.compare a c = Lt.
Proof.
  induction a as [|x a IH]; destruct b as [|y b]; destruct c as [|z c]; simpl; try discriminate; auto.
  unfold Ascii.compare.
  destruct (N.compare_spec (N_of_ascii x) (N_of_ascii y)) as [E1|E1|E1]; try discriminate;
  destruct (N.compare_spec (N_of_ascii y) (N_of_ascii z)) as [E2|E2|E2]; try discriminate;
  destruct (N.compare_spec (N_of_ascii x) (N_of_ascii z)) as [E3|E3|E3]; intros H1 H2; try lia; eauto.
Qed.
Lemma string_compare_refl : forall a, String.compare a a = Eq.
Proof.
  induction a; simpl; auto. unfold Ascii.compare. rewrite N.compare_refl. auto.
Qed.

Lemma cell_lt_trans : forall a b c, cell_lt a b -> cell_lt b c -> cell_lt a c.
Proof.
  unfold cell_lt. intros [x|x|] [y|y|] [z|z|]; simpl; auto; try discriminate.
  - intros. qb. apply Qltb_lt. lra.
  - unfold String.ltb. destruct (String.compare x y) eqn:E1; try discriminate.
    destruct (String.compare y z) eqn:E2; try discriminate.
    rewrite (string_compare_trans _ _ _ E1 E2). auto.
Qed.
Lemma cell_lt_irrefl : forall a b, cell_lt a b -> ~ cell_same a b.
Proof.
  unfold cell_lt. intros [x|x|] [y|y|]; simpl; intros H; try tauto; try discriminate.
  - qb. lra.
  - intros ->. unfold String.ltb in H. rewrite string_compare_refl in H. discriminate.
Qed.
(** Comparable cells: both strings or both not strings. *)
Lemma cell_lt_total : forall a b, is_str a = is_str b -> ~ cell_same a b -> ~ cell_lt a b -> cell_lt b a.
Proof.
  unfold cell_lt. intros [x|x|] [y|y|]; simpl; intros E S H; try discriminate; try tauto.
  - destruct (Qltb x y) eqn:A; [tauto|]. apply Qltb_lt. qb.
    destruct (Q_dec x y) as [[K|K]|K]; [exfalso; lra|lra|tauto].
  - unfold String.ltb in *. destruct (String.compare x y) eqn:A; try tauto.
    + apply String.compare_eq_iff in A. tauto.
    + rewrite String.compare_antisym, A. auto.
Qed.
Lemma cell_lt_same : forall a b c, cell_same a b -> cell_lt b c -> cell_lt a c.
Proof.
  unfold cell_lt. intros [x|x|] [y|y|] [z|z|]; simpl; intros E H; try tauto; try discriminate.
  - qb. apply Qltb_lt. lra.
  - subst. auto.
Qed.

Definition all_str (b : bool) (l : list cell) : Prop := forall c, In c l -> is_str c = b.

Lemma insert_cell_in : forall l c x, In x (insert_cell c l) -> x = c \/ In x l.
Proof.
  induction l; simpl; intros c x H; [intuition|].
  destruct (cell_eqb c a); [auto|]. destruct (cell_ltb c a); simpl in H; [intuition|].
  destruct H as [->|H]; auto. apply IHl in H. tauto.
Qed.
Lemma insert_cell_keeps : forall l c x, In x l -> In x (insert_cell c l).
Proof.
  induction l; simpl; intros c x H; [tauto|].
  destruct (cell_eqb c a); [auto|]. destruct (cell_ltb c a); simpl; [tauto|].
  destruct H; auto.
Qed.
Lemma insert_cell_has : forall l c, exists d, In d (insert_cell c l) /\ cell_same c d.
Proof.
  induction l; simpl; intros c; [exists c; simpl; auto using cell_same_refl|].
  destruct (cell_eqb c a) eqn:E; [exists a; simpl; split; auto; apply cell_eqb_spec; auto|].
  destruct (cell_ltb c a); [exists c; simpl; auto using cell_same_refl|].
  destruct (IHl c) as [d [D1 D2]]. exists d; simpl; auto.
Qed.
Lemma insert_cell_sorted : forall l c b, is_str c = b -> all_str b l ->
  StronglySorted cell_lt l -> StronglySorted cell_lt (insert_cell c l).
Proof.
  induction l; simpl; intros c b Hc Hl S; [repeat constructor|].
  inversion S; subst.
  destruct (cell_eqb c a) eqn:E; [auto|].
  destruct (cell_ltb c a) eqn:L.
  - constructor; auto. constructor; [exact L|].
    eapply Forall_impl; [|exact H2]. intros x X. eapply cell_lt_trans; [exact L|exact X].
  - constructor.
    + apply (IHl c (is_str c)); auto. intros x X. apply Hl. simpl; auto.
    + apply Forall_forall. intros x X. apply insert_cell_in in X. destruct X as [->|X].
      * apply cell_lt_total.
        -- symmetry. apply Hl. simpl; auto.
        -- intros K. apply cell_eqb_spec in K. congruence.
        -- unfold cell_lt. rewrite L. discriminate.
      * rewrite Forall_forall in H2. auto.
Qed.

Lemma sorted_distinct_spec : forall l b, all_str b l ->
  StronglySorted cell_lt (sorted_distinct l) /\ (forall x, In x (sorted_distinct l) -> In x l) /\
  (forall x, In x l -> exists d, In d (sorted_distinct l) /\ cell_same x d).
Proof.
  induction l; simpl; intros b H; [repeat split; auto; [constructor|tauto]|].
  assert (Hl : all_str b l) by (intros x X; apply H; simpl; auto).
  destruct (IHl b Hl) as [S [I J]]. split; [|split].
  - apply (insert_cell_sorted _ _ b); [apply H; simpl; auto| |auto].
    intros x X. apply Hl; auto.
  - intros x X. apply insert_cell_in in X. destruct X as [->|X]; auto.
  - intros x [<-|X]; [apply insert_cell_has|].
    destruct (J x X) as [d [D1 D2]]. exists d. split; auto. apply insert_cell_keeps; auto.
Qed.

Lemma np_unique_spec : forall l, (exists b, all_str b l) -> np_unique l = Ok (sorted_distinct l).
Proof.
  intros l [b H]. unfold np_unique. destruct b.
  - rewrite (proj2 (forallb_forall is_str l)); auto.
  - rewrite (proj2 (forallb_forall (fun c => negb (is_str c)) l)), orb_true_r; auto.
    intros x X. rewrite (H x X). reflexivity.
Qed.
Lemma np_unique_mixed : forall l, ~ (exists b, all_str b l) -> np_unique l = Raise TypeError.
Proof.
  intros l H. unfold np_unique.
  destruct (forallb is_str l) eqn:A.
  - exfalso. apply H. exists true. intros x X. rewrite forallb_forall in A. auto.
  - destruct (forallb (fun c => negb (is_str c)) l) eqn:B; auto.
    exfalso. apply H. exists false. intros x X. rewrite forallb_forall in B.
    specialize (B x X). apply negb_true_iff in B. auto.
Qed.

(** ** explode *)
Lemma py_eqb_spec : forall a b, cell_py_eqb a b = true <-> cell_same a b /\ a <> CNaN.
Proof.
  intros a b. pose proof (cell_eqb_spec a b) as K. unfold cell_py_eqb.
  destruct a; [| |split; [discriminate|intros [_ H]; congruence]];
    (split; [intros H; split; [apply K; exact H|discriminate]|intros [H _]; apply K; exact H]).
Qed.

Lemma filter_or_perm : forall A (f g : A -> bool) l,
  (forall x, In x l -> f x = true -> g x = true -> False) ->
  Permutation (filter f l ++ filter g l) (filter (fun x => f x || g x) l).
Proof.
  induction l; simpl; intros H; auto.
  assert (IH := IHl (fun x X => H x (or_intror X))).
  destruct (f a) eqn:F; destruct (g a) eqn:G; simpl.
  - exfalso. eapply H; eauto.
  - constructor; auto.
  - eapply Permutation_trans; [apply Permutation_sym, Permutation_middle|]. constructor; auto.
  - auto.
Qed.

Lemma groups_perm : forall i rows keys, StronglySorted cell_lt keys ->
  Permutation (List.concat (map (fun v => filter (fun r => cell_py_eqb (get_cell i r) v) rows) keys))
    (filter (fun r => existsb (fun v => cell_py_eqb (get_cell i r) v) keys) rows).
Proof.
  induction keys; simpl; intros S.
  - induction rows; simpl; auto.
  - inversion S; subst.
    eapply Permutation_trans; [apply Permutation_app_head, IHkeys; auto|].
    apply filter_or_perm. intros r R F G.
    apply existsb_exists in G. destruct G as [v [V1 V2]].
    apply py_eqb_spec in F. apply py_eqb_spec in V2. destruct F as [F _]. destruct V2 as [V2 _].
    rewrite Forall_forall in H2. specialize (H2 v V1).
    apply (cell_lt_irrefl _ _ H2). eapply cell_same_trans; [apply cell_same_sym; exact F|exact V2].
Qed.

Definition is_nan (c : cell) : bool := match c with CNaN => true | _ => false end.

Lemma filter_ext_in' : forall A (f g : A -> bool) l, (forall x, In x l -> f x = g x) -> filter f l = filter g l.
Proof. intros. apply filter_ext_in. auto. Qed.

Lemma explode_ok : forall s mark i, built s -> col_index mark (f_cols (p_df s)) = Some i ->
  (exists b, all_str b (map (get_cell i) (f_rows (p_df s)))) ->
  exists keys ps, explode s mark = Ok ps /\ StronglySorted cell_lt keys /\
    (forall v, In v keys -> exists r, In r (f_rows (p_df s)) /\ get_cell i r = v) /\
    (forall r, In r (f_rows (p_df s)) -> exists v, In v keys /\ cell_same (get_cell i r) v) /\
    Permutation (List.concat (map (fun q => f_rows (p_df q)) ps))
      (filter (fun r => negb (is_nan (get_cell i r))) (f_rows (p_df s))) /\
    Forall2 (fun v q => f_cols (p_df q) = f_cols (p_df s) /\ p_coord q = p_coord s /\
                        subseq (f_rows (p_df q)) (f_rows (p_df s)) /\
                        p_win q = Some (default_window (mbb_of (p_pts q))) /\
                        List.length (p_pts q) = List.length (f_rows (p_df q)) /\
                        (forall r, In r (f_rows (p_df q)) -> cell_same (get_cell i r) v) /\
                        (f_rows (p_df q) = [] <-> v = CNaN)) keys ps.
Proof.
  intros s mark i B Hi Hs. unfold explode, explode_rows. rewrite Hi.
  rewrite (np_unique_spec _ Hs). destruct Hs as [b Hb].
  destruct (sorted_distinct_spec _ _ Hb) as [S [I J]].
  set (keys := sorted_distinct (map (get_cell i) (f_rows (p_df s)))) in *.
  set (rows := f_rows (p_df s)) in *.
  assert (K1 : forall v, In v keys -> exists r, In r rows /\ get_cell i r = v).
  { intros v V. apply I in V. apply in_map_iff in V. destruct V as [r [R1 R2]]. eauto. }
  assert (K2 : forall r, In r rows -> exists v, In v keys /\ cell_same (get_cell i r) v).
  { intros r R. apply J. apply in_map; auto. }
  cbn [bind].
  set (g := map (fun v => (v, filter (fun r => cell_py_eqb (get_cell i r) v) rows)) keys).
  set (F := fun vr : cell * list drow => fst (pattern_init (List.length (f_cols (p_df s))) (snd vr) None
                         (Some (f_cols (p_df s))) (Some (p_coord s)))).
  destruct (mapM_total _ _ F g) as [ps E].
  { intros [v rs] X. apply in_map_iff in X. destruct X as [v' [X1 X2]]. inversion X1; subst.
    destruct (rebuild s (filter (fun r => cell_py_eqb (get_cell i r) v) rows) None B) as [q [Q1 _]].
    { intros r R. apply filter_In in R. tauto. }
    exists q. exact Q1. }
  rewrite E. exists keys, ps. split; [reflexivity|]. split; [exact S|]. split; [exact K1|]. split; [exact K2|].
  apply mapM_forall2 in E.
  assert (E2 : Forall2 (fun v q => f_rows (p_df q) = filter (fun r => cell_py_eqb (get_cell i r) v) rows /\
              f_cols (p_df q) = f_cols (p_df s) /\ p_coord q = p_coord s /\
              p_win q = Some (default_window (mbb_of (p_pts q))) /\
              List.length (p_pts q) = List.length (f_rows (p_df q))) keys ps).
  { unfold g in E. clear -E B. revert ps E. induction keys; simpl; intros ps E; inversion E; subst; constructor; auto.
    destruct (rebuild s (filter (fun r => cell_py_eqb (get_cell i r) a) rows) None B) as [q [Q1 [Q2 [Q3 [Q4 Q5]]]]].
    { intros r R. apply filter_In in R. tauto. }
    unfold F in H1. cbn [snd] in H1. rewrite Q1 in H1. inversion H1; subst y.
    rewrite Q2. simpl. auto. }
  split.
  - assert (E3 : map (fun q => f_rows (p_df q)) ps = map (fun v => filter (fun r => cell_py_eqb (get_cell i r) v) rows) keys).
    { clear -E2. induction E2; simpl; auto. destruct H as [H _]. rewrite H, IHE2. reflexivity. }
    rewrite E3. eapply Permutation_trans; [apply groups_perm; auto|].
    erewrite filter_ext_in'; [apply Permutation_refl|].
    intros r R. simpl. destruct (is_nan (get_cell i r)) eqn:N; simpl.
    + destruct (get_cell i r); try discriminate. 
      clear. induction keys; simpl; auto.
    + apply existsb_exists. destruct (K2 r R) as [v [V1 V2]]. exists v. split; auto.
      apply py_eqb_spec. split; auto. intros X. rewrite X in N. discriminate.
  - assert (E4 : Forall2 (fun v q => In v keys /\ (f_rows (p_df q) = filter (fun r => cell_py_eqb (get_cell i r) v) rows /\
              f_cols (p_df q) = f_cols (p_df s) /\ p_coord q = p_coord s /\
              p_win q = Some (default_window (mbb_of (p_pts q))) /\
              List.length (p_pts q) = List.length (f_rows (p_df q)))) keys ps).
    { clear -E2. assert (G : forall l, (forall v, In v l -> In v keys) -> forall ps0,
        Forall2 (fun v q => f_rows (p_df q) = filter (fun r => cell_py_eqb (get_cell i r) v) rows /\
              f_cols (p_df q) = f_cols (p_df s) /\ p_coord q = p_coord s /\
              p_win q = Some (default_window (mbb_of (p_pts q))) /\
              List.length (p_pts q) = List.length (f_rows (p_df q))) l ps0 ->
        Forall2 (fun v q => In v keys /\ (f_rows (p_df q) = filter (fun r => cell_py_eqb (get_cell i r) v) rows /\
              f_cols (p_df q) = f_cols (p_df s) /\ p_coord q = p_coord s /\
              p_win q = Some (default_window (mbb_of (p_pts q))) /\
              List.length (p_pts q) = List.length (f_rows (p_df q)))) l ps0).
      { intros l Hl ps0 H. induction H; constructor; auto.
        - split; [apply Hl; simpl; auto|exact H].
        - apply IHForall2. intros; apply Hl; simpl; auto. }
      apply G; auto. }
    eapply Forall2_weaken; [|exact E4]. cbn beta.
    intros v q [V [Q1 [Q2 [Q3 [Q4 Q5]]]]].
    split; [auto|]. split; [auto|]. split; [rewrite Q1; apply subseq_filter|]. split; [auto|]. split; [auto|].
    split.
    { intros r R. rewrite Q1 in R. apply filter_In in R. destruct R as [_ R]. apply py_eqb_spec in R. tauto. }
    rewrite Q1. split.
    + intros X. destruct (K1 v V) as [r [R1 R2]].
      destruct v as [q'|q'|]; auto; exfalso;
      (assert (Y : In r (filter (fun r => cell_py_eqb (get_cell i r) (get_cell i r)) rows));
       [apply filter_In; split; auto; apply py_eqb_spec; split; [apply cell_same_refl|rewrite R2; discriminate]|]);
      rewrite <- R2 in X;
      assert (Z : In r (filter (fun r0 => cell_py_eqb (get_cell i r0) (get_cell i r)) rows))
        by (apply filter_In; split; auto; apply py_eqb_spec; split; [apply cell_same_refl|rewrite R2; discriminate]);
      rewrite X in Z; destruct Z.
    + intros ->. clear. induction rows as [|r rows IH]; simpl; auto.
      destruct (get_cell i r); simpl; auto.
Qed.

(** ** add_marks *)
Lemma col_index_in : forall l c, In c l <-> exists i, col_index c l = Some i.
Proof.
  induction l; simpl; intros c; [split; [tauto|intros [i H]; discriminate]|].
  destruct (String.eqb_spec c a).
  - subst. split; eauto.
  - rewrite IHl. split.
    + intros [->|[i H]]; [tauto|]. rewrite H. simpl. eauto.
    + intros [i H]. destruct (col_index c l); [eauto|discriminate].
Qed.
Lemma col_index_none : forall l c, ~ In c l -> col_index c l = None.
Proof.
  intros. destruct (col_index c l) eqn:E; auto. exfalso. apply H. apply col_index_in. eauto.
Qed.
Lemma col_index_lt : forall l c i, col_index c l = Some i -> (i < List.length l)%nat.
Proof.
  induction l; simpl; intros c i H; [discriminate|].
  destruct (String.eqb c a); [inversion H; lia|].
  destruct (col_index c l) eqn:E; [|discriminate]. inversion H; subst. apply IHl in E. lia.
Qed.
Lemma col_index_app : forall l l' c i, col_index c l = Some i -> col_index c (l ++ l') = Some i.
Proof.
  induction l; simpl; intros l' c i H; [discriminate|].
  destruct (String.eqb c a); auto.
  destruct (col_index c l) eqn:E; [|discriminate]. rewrite (IHl l' c n E). auto.
Qed.
Lemma col_index_last : forall l c, ~ In c l -> col_index c (l ++ [c]) = Some (List.length l).
Proof.
  induction l; simpl; intros c H; [rewrite String.eqb_refl; auto|].
  destruct (String.eqb_spec c a); [subst; tauto|]. rewrite IHl; auto.
Qed.

Lemma to_uint_inj : forall a b, Nat.to_uint a = Nat.to_uint b -> a = b.
Proof. intros a b H. rewrite <- (DecimalNat.Unsigned.of_to a), <- (DecimalNat.Unsigned.of_to b), H. reflexivity. Qed.
Lemma string_of_uint_inj : forall a b, NilEmpty.string_of_uint a = NilEmpty.string_of_uint b -> a = b.
Proof.
  intros a b H. assert (E := NilEmpty.usu a). rewrite H, NilEmpty.usu in E. congruence.
Qed.
Lemma mark_name_inj : forall a b, mark_name a = mark_name b -> a = b.
Proof.
  unfold mark_name. intros a b H. simpl in H. inversion H. apply to_uint_inj, string_of_uint_inj. auto.
Qed.
Lemma mark_name_xy : forall k, mark_name k <> "x"%string /\ mark_name k <> "y"%string.
Proof. intros; split; unfold mark_name; simpl; discriminate. Qed.

(** Frames whose rows all have the width of the header. *)
Definition rect (f : frame) : Prop := forall r, In r (f_rows f) -> List.length r = List.length (f_cols f).

Lemma zip_app_rows : forall rows col, List.length col = List.length rows ->
  forall i, (forall r, In r rows -> (i < List.length r)%nat) ->
  map (get_cell i) (zip_with (fun r c => r ++ [c]) rows col) = map (get_cell i) rows.
Proof.
  induction rows; destruct col; simpl; intros E i H; try discriminate; auto.
  f_equal; [|apply IHrows; auto]. unfold get_cell. rewrite app_nth1; auto.
Qed.
Lemma zip_app_last : forall rows col n, List.length col = List.length rows ->
  (forall r, In r rows -> List.length r = n) ->
  map (get_cell n) (zip_with (fun r c => r ++ [c]) rows col) = col.
Proof.
  induction rows; destruct col; simpl; intros n E H; try discriminate; auto.
  f_equal; [|apply IHrows; auto]. unfold get_cell. rewrite app_nth2 by (rewrite (H a); auto).
  rewrite (H a), Nat.sub_diag; auto.
Qed.
Lemma zip_app_width : forall (rows : list drow) (col : list cell) n, List.length col = List.length rows ->
  (forall r, In r rows -> List.length r = n) ->
  forall r, In r (zip_with (fun r c => r ++ [c]) rows col) -> List.length r = S n.
Proof.
  induction rows; destruct col; simpl; intros n E H r R; try discriminate; try tauto.
  destruct R as [<-|R]; [rewrite app_length, (H a) by auto; simpl; lia|eapply IHrows; eauto].
Qed.
Lemma zip_app_len : forall (rows : list drow) (col : list cell), List.length col = List.length rows ->
  List.length (zip_with (fun r c => r ++ [c : cell]) rows col) = List.length rows.
Proof. induction rows; destruct col; simpl; intros; try discriminate; auto. Qed.

Lemma set_column_fresh : forall f name col f', rect f -> ~ In name (f_cols f) ->
  set_column f name col = Ok f' ->
  f_cols f' = f_cols f ++ [name] /\ rect f' /\ List.length (f_rows f') = List.length (f_rows f) /\
  column f' name = Some col /\ forall c, In c (f_cols f) -> column f' c = column f c.
Proof.
  intros f name col f' R N H. unfold set_column in H.
  destruct (Nat.eqb_spec (List.length col) (List.length (f_rows f))); [|discriminate].
  rewrite col_index_none in H by auto. inversion H; subst; clear H. simpl.
  split; [auto|]. split; [|split; [apply zip_app_len; auto|split]].
  - intros r Hr. simpl in Hr. simpl f_cols. rewrite app_length. simpl.
    erewrite (zip_app_width _ _ (List.length (f_cols f))); eauto. lia.
  - unfold column. simpl. rewrite col_index_last by auto. simpl. rewrite zip_app_last; auto.
  - intros c C. unfold column. simpl. apply col_index_in in C. destruct C as [i Hi].
    rewrite (col_index_app _ _ _ _ Hi), Hi. simpl. rewrite zip_app_rows; auto.
    intros r Hr. rewrite (R r Hr). eapply col_index_lt; eauto.
Qed.

(** The invariant: numbered columns have numbers at most [p_nmarks]. *)
Definition numbered (s : pattern) : Prop :=
  rect (p_df s) /\ NoDup (f_cols (p_df s)) /\
  forall k, In (mark_name k) (f_cols (p_df s)) -> (k <= p_nmarks s)%nat.

(** [s'] extends [s] by new columns only. *)
Definition extends (s s' : pattern) : Prop :=
  exists new, f_cols (p_df s') = f_cols (p_df s) ++ new /\ NoDup (f_cols (p_df s')) /\
    List.length (f_rows (p_df s')) = List.length (f_rows (p_df s)) /\
    (forall c, In c (f_cols (p_df s)) -> column (p_df s') c = column (p_df s) c) /\
    p_pts s' = p_pts s /\ p_win s' = p_win s /\ p_coord s' = p_coord s.

Lemma extends_refl : forall s, NoDup (f_cols (p_df s)) -> extends s s.
Proof. intros s H. exists []. rewrite app_nil_r. repeat split; auto. Qed.
Lemma extends_trans : forall a b c, extends a b -> extends b c -> extends a c.
Proof.
  intros a b c [n1 [A1 [A2 [A3 [A4 [A5 [A6 A7]]]]]]] [n2 [B1 [B2 [B3 [B4 [B5 [B6 B7]]]]]]].
  exists (n1 ++ n2). rewrite app_assoc, <- A1. repeat split; auto; try congruence.
  intros x X. rewrite B4; auto. rewrite A1. apply in_app_iff; auto.
Qed.

Lemma NoDup_snoc : forall (l : list string) x, NoDup l -> ~ In x l -> NoDup (l ++ [x]).
Proof.
  intros l x N H. apply NoDup_rev in N. rewrite <- (rev_involutive (l ++ [x])).
  apply NoDup_rev. rewrite rev_app_distr. simpl. constructor; auto. rewrite <- in_rev. auto.
Qed.

Lemma store_marks_fresh : forall marks s, numbered s ->
  let s' := fst (store_marks s (map (fun j => mark_name (p_nmarks s + 1 + j)) (seq 0 (List.length marks))) marks) in
  numbered s' /\ extends s s'.
Proof.
  assert (G : forall (marks : list (list cell)) s j0, numbered s -> forall base, (p_nmarks s = base + j0)%nat ->
    let s' := fst (store_marks s (map (fun j => mark_name (base + 1 + j)) (seq j0 (List.length marks))) marks) in
    numbered s' /\ extends s s').
  { induction marks as [|m marks IH]; intros s j0 N base E; simpl.
    - split; auto. apply extends_refl. apply N.
    - destruct (set_column (p_df s) (mark_name (base + 1 + j0)) m) as [f|] eqn:SC; simpl.
      + destruct N as [R [ND K]].
        assert (Fr : ~ In (mark_name (base + 1 + j0)) (f_cols (p_df s))).
        { intros X. apply K in X. lia. }
        destruct (set_column_fresh _ _ _ _ R Fr SC) as [F1 [F2 [F3 [F4 F5]]]].
        set (s1 := with_df s f (p_nmarks s + 1)).
        assert (N1 : numbered s1).
        { split; [exact F2|]. split; simpl; rewrite F1; [apply NoDup_snoc; auto|].
          intros k Hk. apply in_app_iff in Hk. destruct Hk as [Hk|[Hk|[]]].
          - apply K in Hk. lia.
          - apply mark_name_inj in Hk. lia. }
        destruct (IH s1 (S j0) N1 base) as [H1 H2]; [simpl; lia|].
        split; [exact H1|].
        eapply extends_trans; [|exact H2].
        exists [mark_name (base + 1 + j0)]. simpl. rewrite F1.
        repeat split; auto. apply NoDup_snoc; auto.
      + split; auto. apply extends_refl. apply N. }
  intros marks s N. apply (G marks s 0%nat N (p_nmarks s)). lia.
Qed.

Lemma add_marks_default : forall marks s, numbered s ->
  numbered (fst (add_marks s marks None)) /\ extends s (fst (add_marks s marks None)).
Proof. intros. unfold add_marks. apply store_marks_fresh. auto. Qed.

Lemma add_marks_many : forall calls s, numbered s ->
  numbered (fold_left (fun s m => fst (add_marks s m None)) calls s) /\
  extends s (fold_left (fun s m => fst (add_marks s m None)) calls s).
Proof.
  induction calls; simpl; intros s N; [split; auto; apply extends_refl, N|].
  destruct (add_marks_default a s N) as [N1 E1]. destruct (IHcalls _ N1) as [N2 E2].
  split; auto. eapply extends_trans; eauto.
Qed.

Lemma NoDup_map_inj' : forall A B (f : A -> B) l, (forall x y, f x = f y -> x = y) -> NoDup l -> NoDup (map f l).
Proof.
  intros A B f l I N. induction N; simpl; constructor; auto.
  intros X. apply in_map_iff in X. destruct X as [y [Y1 Y2]]. apply I in Y1. subst. auto.
Qed.

Lemma init_numbered : forall p (rows : list drow) w s, (forall r, In r rows -> List.length r = p) ->
  fst (pattern_init p rows w None None) = Ok s -> numbered s.
Proof.
  intros p rows w s Hr H. destruct (init_fields _ _ _ _ _ _ H) as [x [y [A1 [A2 [A3 [A4 [A5 [A6 [A7 [A8 A9]]]]]]]]]].
  split; [|split].
  - intros r R. rewrite A4 in R. rewrite A5. auto.
  - rewrite A8. simpl. constructor; [|constructor].
    + intros [X|X]; [discriminate|]. apply in_map_iff in X. destruct X as [k [K _]].
      destruct (mark_name_xy k) as [Z1 Z2]. congruence.
    + intros X. apply in_map_iff in X. destruct X as [k [K _]].
      destruct (mark_name_xy k) as [Z1 Z2]. congruence.
    + apply NoDup_map_inj'; [apply mark_name_inj|apply seq_NoDup].
  - intros k. rewrite A8, A6. simpl. intros [X|[X|X]].
    + destruct (mark_name_xy k) as [Z1 Z2]. congruence.
    + destruct (mark_name_xy k) as [Z1 Z2]. congruence.
    + apply in_map_iff in X. destruct X as [j [J1 J2]]. apply mark_name_inj in J1. apply in_seq in J2. lia.
Qed.

(** A successful call stores the given columns under the new names. *)
Lemma add_marks_stores : forall marks s, numbered s -> snd (add_marks s marks None) = None ->
  f_cols (p_df (fst (add_marks s marks None))) =
    f_cols (p_df s) ++ map (fun j => mark_name (p_nmarks s + 1 + j)) (seq 0 (List.length marks)) /\
  forall j, (j < List.length marks)%nat ->
    column (p_df (fst (add_marks s marks None))) (mark_name (p_nmarks s + 1 + j)) = Some (nth j marks []).
Proof.
  assert (G : forall (marks : list (list cell)) s j0, numbered s -> forall base, (p_nmarks s = base + j0)%nat ->
    let r := store_marks s (map (fun j => mark_name (base + 1 + j)) (seq j0 (List.length marks))) marks in
    snd r = None ->
    numbered (fst r) /\ extends s (fst r) /\
    f_cols (p_df (fst r)) = f_cols (p_df s) ++ map (fun j => mark_name (base + 1 + j)) (seq j0 (List.length marks)) /\
    forall j, (j < List.length marks)%nat ->
      column (p_df (fst r)) (mark_name (base + 1 + (j0 + j))) = Some (nth j marks [])).
  { induction marks as [|m marks IH]; intros s j0 N base E; simpl.
    - intros _. split; auto. split; [apply extends_refl, N|]. rewrite app_nil_r. split; auto. intros; lia.
    - destruct (set_column (p_df s) (mark_name (base + 1 + j0)) m) as [f|] eqn:SC; simpl; [|discriminate].
      destruct N as [R [ND K]].
      assert (Fr : ~ In (mark_name (base + 1 + j0)) (f_cols (p_df s))).
      { intros X. apply K in X. lia. }
      destruct (set_column_fresh _ _ _ _ R Fr SC) as [F1 [F2 [F3 [F4 F5]]]].
      set (s1 := with_df s f (p_nmarks s + 1)).
      assert (N1 : numbered s1).
      { split; [exact F2|]. split; simpl; rewrite F1; [apply NoDup_snoc; auto|].
        intros k Hk. apply in_app_iff in Hk. destruct Hk as [Hk|[Hk|[]]].
        - apply K in Hk. lia.
        - apply mark_name_inj in Hk. lia. }
      intros SN. destruct (IH s1 (S j0) N1 base) as [H1 [H2 [H3 H4]]]; [simpl; lia|exact SN|].
      split; [exact H1|]. split; [|split].
      + eapply extends_trans; [|exact H2].
        exists [mark_name (base + 1 + j0)]. simpl. rewrite F1.
        repeat split; auto. apply NoDup_snoc; auto.
      + rewrite H3. simpl. rewrite F1, <- app_assoc. reflexivity.
      + intros [|j] Hj.
        * rewrite Nat.add_0_r. destruct H2 as [new [X1 [X2 [X3 [X4 X5]]]]].
          rewrite X4; [exact F4|]. simpl. rewrite F1. apply in_app_iff. simpl; auto.
        * rewrite <- (Nat.add_succ_comm j0 j). apply H4. lia. }
  intros marks s N H. destruct (G marks s 0%nat N (p_nmarks s)) as [_ [_ [A B]]]; [lia|exact H|].
  split; [exact A|]. intros j Hj. apply (B j Hj).
Qed.
