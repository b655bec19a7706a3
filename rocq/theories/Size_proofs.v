(** Ranks in a drawn list, and sums over all drawn lists. *)
From Coq Require Import ZArith QArith List Bool Arith Lia Permutation Factorial.
From Verif Require Import Base BaseLemmas Spacetime_model Spacetime_spec Pairs_proofs Spacetime_proofs Hyper_proofs Perms_proofs Size_spec.
Import ListNotations.
Local Open Scope nat_scope.

Definition tot {A : Type} (L : list A) (f : A -> nat) : nat := list_sum (map f L).
Lemma tot_nil : forall A (f : A -> nat), tot [] f = 0.
Proof. reflexivity. Qed.
Lemma tot_cons : forall A (x : A) L f, tot (x :: L) f = f x + tot L f.
Proof. reflexivity. Qed.
Lemma tot_app : forall A (L M : list A) f, tot (L ++ M) f = tot L f + tot M f.
Proof. intros. unfold tot. rewrite map_app. apply list_sum_app. Qed.
Lemma tot_ext : forall A (L : list A) f g, (forall x, In x L -> f x = g x) -> tot L f = tot L g.
Proof. intros A L f g H. unfold tot. f_equal. apply map_ext_in, H. Qed.
Lemma tot_le : forall A (L : list A) f g, (forall x, In x L -> f x <= g x) -> tot L f <= tot L g.
Proof.
  induction L as [|x L IH]; intros f g H; [apply le_n|]. rewrite !tot_cons.
  apply Nat.add_le_mono; [apply H; left; auto|apply IH; intros; apply H; right; auto].
Qed.
Lemma tot_map : forall A B (h : A -> B) L f, tot (map h L) f = tot L (fun x => f (h x)).
Proof. intros. unfold tot. rewrite map_map. reflexivity. Qed.
Lemma tot_flat : forall A B (h : A -> list B) L f, tot (flat_map h L) f = tot L (fun x => tot (h x) f).
Proof. induction L as [|x L IH]; intro f; [reflexivity|]. cbn [flat_map]. rewrite tot_app, tot_cons, IH. reflexivity. Qed.
Lemma tot_plus : forall A (L : list A) f g, tot L (fun x => f x + g x) = tot L f + tot L g.
Proof. induction L as [|x L IH]; intros f g; [reflexivity|]. rewrite !tot_cons, IH. lia. Qed.
Lemma tot_scale : forall A (L : list A) c f, tot L (fun x => c * f x) = c * tot L f.
Proof. induction L as [|x L IH]; intros c f; [rewrite !tot_nil; lia|]. rewrite !tot_cons, IH. lia. Qed.
Lemma tot_const : forall A (L : list A) c, tot L (fun _ => c) = length L * c.
Proof. induction L as [|x L IH]; intro c; [reflexivity|]. rewrite tot_cons, IH. cbn [length]. lia. Qed.
Lemma tot_swap : forall A B (L : list A) (M : list B) f, tot L (fun x => tot M (f x)) = tot M (fun y => tot L (fun x => f x y)).
Proof. intros. apply list_sum_swap. Qed.
Lemma tot_perm : forall A (L M : list A) f, Permutation L M -> tot L f = tot M f.
Proof. intros A L M f H. induction H; rewrite ?tot_cons; lia || reflexivity. Qed.
Lemma tot_count : forall A (L : list A) f, tot L (fun x => ind (f x)) = count f L.
Proof. intros. symmetry. apply count_sum. Qed.
Lemma tot_prod : forall A B (L : list A) (M : list B) f, tot (list_prod L M) f = tot L (fun x => tot M (fun y => f (x, y))).
Proof.
  induction L as [|x L IH]; intros M f; [reflexivity|]. cbn [list_prod]. rewrite tot_app, tot_cons, tot_map, IH. reflexivity.
Qed.

(** ** Drawn lists *)
Lemma tuples_S : forall A m (E : list A) f, tot (tuples (S m) E) f = tot E (fun x => tot (tuples m E) (fun l => f (x :: l))).
Proof. intros. cbn [tuples]. rewrite tot_flat. apply tot_ext. intros x _. apply tot_map. Qed.
Lemma flat_length : forall A B (h : A -> list B) L, length (flat_map h L) = tot L (fun x => length (h x)).
Proof. induction L as [|x L IH]; [reflexivity|]. cbn [flat_map]. rewrite app_length, IH, tot_cons. reflexivity. Qed.
Lemma tuples_length : forall A m (E : list A), length (tuples m E) = length E ^ m.
Proof.
  induction m as [|m IH]; intro E; [reflexivity|]. cbn [tuples]. rewrite flat_length.
  rewrite (tot_ext _ _ _ (fun _ => length E ^ m)); [|intros; rewrite map_length; apply IH]. rewrite tot_const. reflexivity.
Qed.
Lemma tuples_in : forall A m (E : list A) l, In l (tuples m E) <-> length l = m /\ forall x, In x l -> In x E.
Proof.
  induction m as [|m IH]; intros E l.
  - cbn [tuples]. split.
    + intros [<-|[]]. split; [reflexivity|]. intros x [].
    + intros [L _]. destruct l; [left; reflexivity|discriminate].
  - cbn [tuples]. rewrite in_flat_map. split.
    + intros [x [X H]]. apply in_map_iff in H. destruct H as [l' [<- H]]. apply IH in H. destruct H as [L H].
      split; [cbn [length]; lia|]. intros y [<-|Y]; auto.
    + intros [L H]. destruct l as [|x l]; [discriminate|]. exists x. split; [apply H; left; auto|].
      apply in_map. apply IH. split; [cbn [length] in L; lia|]. intros; apply H; right; auto.
Qed.
Lemma draws_length : forall A (E : list A) P, length (draws E P) = length E ^ S P.
Proof. intros. unfold draws. rewrite prod_length, tuples_length. reflexivity. Qed.
Lemma tuples_map : forall A B (h : A -> B) m E, tuples m (map h E) = map (map h) (tuples m E).
Proof.
  induction m as [|m IH]; intro E; [reflexivity|]. cbn [tuples]. rewrite IH. generalize (tuples m E) as T. intro T.
  induction E as [|x E IE]; [reflexivity|]. cbn [map flat_map]. rewrite map_app, IE. f_equal. rewrite !map_map. reflexivity.
Qed.
Lemma tuples_perm : forall A m (E E' : list A) f, Permutation E E' -> tot (tuples m E) f = tot (tuples m E') f.
Proof.
  induction m as [|m IH]; intros E E' f H; [reflexivity|]. rewrite !tuples_S. rewrite (tot_perm _ _ _ _ H).
  apply tot_ext. intros x _. apply IH, H.
Qed.

(** Ways to single out one entry. *)
Fixpoint picks {A : Type} (l : list A) : list (A * list A) :=
  match l with
  | [] => []
  | x :: t => (x, t) :: map (fun p => (fst p, x :: snd p)) (picks t)
  end.
Lemma picks_perm : forall A (l : list A) p, In p (picks l) -> Permutation (fst p :: snd p) l.
Proof.
  induction l as [|x l IH]; intros p H; [destruct H|]. cbn [picks] in H. destruct H as [<-|H]; [reflexivity|].
  apply in_map_iff in H. destruct H as [q [<- H]]. cbn [fst snd]. apply perm_trans with (x :: fst q :: snd q); [apply perm_swap|].
  apply perm_skip, IH, H.
Qed.
Lemma picks_fst : forall A (l : list A) f, tot (picks l) (fun p => f (fst p)) = tot l f.
Proof. induction l as [|x l IH]; intro f; [reflexivity|]. cbn [picks]. rewrite !tot_cons, tot_map. cbn [fst]. rewrite IH. reflexivity. Qed.

(** Every entry of a drawn list is as good as the first. *)
Lemma symmetry_sum : forall A P (E : list A) G,
  S P * tot (draws E P) (fun d => G (fst d) (snd d)) = tot (tuples (S P) E) (fun l => tot (picks l) (fun p => G (fst p) (snd p))).
Proof.
  intros A P E. unfold draws.
  assert (X : forall P G, S P * tot E (fun x => tot (tuples P E) (fun l => G x l)) =
              tot (tuples (S P) E) (fun l => tot (picks l) (fun p => G (fst p) (snd p)))).
  { clear P. induction P as [|P IH]; intro G.
    - rewrite tuples_S. cbn [tuples]. rewrite Nat.mul_1_l. apply tot_ext. intros x _. unfold tot. cbn. lia.
    - symmetry. rewrite (tuples_S _ (S P)).
      rewrite (tot_ext _ _ _ (fun x => tot (tuples (S P) E) (fun l => G x l) +
                 tot (tuples (S P) E) (fun l => tot (picks l) (fun p => G (fst p) (x :: snd p))))).
      2:{ intros x _. rewrite <- tot_plus. apply tot_ext. intros l _. cbn [picks]. rewrite tot_cons, tot_map. reflexivity. }
      rewrite tot_plus.
      rewrite (tot_ext _ E (fun x => tot (tuples (S P) E) (fun l => tot (picks l) (fun p => G (fst p) (x :: snd p))))
                 (fun x => S P * tot E (fun y => tot (tuples P E) (fun l => G y (x :: l))))).
      2:{ intros x _. rewrite (IH (fun y l => G y (x :: l))). reflexivity. }
      rewrite tot_scale. rewrite (tot_swap _ _ E E).
      rewrite (tot_ext _ E (fun y => tot E (fun x => tot (tuples P E) (fun l => G y (x :: l)))) (fun y => tot (tuples (S P) E) (fun l => G y l))).
      2:{ intros y _. rewrite tuples_S. reflexivity. }
      lia. }
  intro G. rewrite tot_prod. cbn [fst snd]. apply X.
Qed.

(** ** Ranks *)
Section Ranks.
Context {V : Type} (ge : V -> V -> bool).
(** Number of entries at least [x]. *)
Definition above (x : V) (l : list V) : nat := count (fun y => ge y x) l.

Lemma order_sub : forall L M, total_order ge L -> (forall x, In x M -> In x L) -> total_order ge M.
Proof. intros L M [T1 T2] H. split; intros; eauto. Qed.
Lemma order_refl : forall L x, total_order ge L -> In x L -> ge x x = true.
Proof. intros L x [T _] H. destruct (T x x H H); auto. Qed.
Lemma least : forall l, l <> [] -> total_order ge l -> exists x, In x l /\ forall y, In y l -> ge y x = true.
Proof.
  induction l as [|a l IH]; intros N T; [contradiction|]. destruct l as [|b l].
  - exists a. split; [left; auto|]. intros y [<-|[]]. apply (order_refl _ a T). left; auto.
  - destruct IH as [x [X H]]; [discriminate|apply (order_sub _ _ T); intros; right; auto|].
    destruct T as [T1 T2].
    destruct (T1 a x (or_introl eq_refl) (or_intror X)) as [G|G].
    + exists x. split; [right; auto|]. intros y [<-|Y]; auto.
    + exists a. split; [left; auto|]. intros y [<-|Y]; [destruct (T1 a a (or_introl eq_refl) (or_introl eq_refl)); auto|].
      apply (T2 y x a); auto; [right; auto|right; auto|left; auto].
Qed.
Lemma above_pick : forall l p, total_order ge l -> In p (picks l) -> above (fst p) l = S (above (fst p) (snd p)).
Proof.
  intros l p T H. pose proof (picks_perm _ _ _ H) as X. unfold above. rewrite <- (count_perm _ _ _ _ X). rewrite count_cons.
  rewrite (order_refl l); auto. apply (Permutation_in _ X). left; auto.
Qed.
(** At most [k] entries have at most [k] entries above. *)
Lemma few_top : forall l k, total_order ge l -> count (fun x => Nat.leb (above x l) k) l <= k.
Proof.
  intros l k T. unfold count. set (s := filter _ l). destruct s as [|a s'] eqn:Es; [cbn; lia|]. rewrite <- Es.
  assert (SUB : forall x, In x s -> In x l) by (intros x X; apply filter_In in X; apply X).
  destruct (least s) as [x [X H]]; [rewrite Es; discriminate|apply (order_sub _ _ T SUB)|].
  assert (LE : above x l <= k) by (apply filter_In in X; apply Nat.leb_le, X).
  apply Nat.le_trans with (above x l); auto.
  rewrite <- (count_all _ (fun y => ge y x) s H). unfold above, count. subst s.
  clear - l. generalize (fun x => above x l <=? k). intro q. induction l as [|a l IH]; [apply le_n|].
  cbn [filter]. destruct (q a); cbn [filter]; destruct (ge a x); cbn [length]; lia.
Qed.
Lemma picks_rank : forall l (f : nat -> bool), total_order ge l ->
  tot (picks l) (fun p => ind (f (S (above (fst p) (snd p))))) = count (fun x => f (above x l)) l.
Proof.
  intros l f T. rewrite (tot_ext _ _ _ (fun p => ind (f (above (fst p) l)))).
  - rewrite (picks_fst _ l (fun x => ind (f (above x l)))). apply tot_count.
  - intros p H. rewrite (above_pick l p T H). reflexivity.
Qed.

(** Without ties the ranks are 1 .. length. *)
Lemma untied_pairs : forall l, untied ge l = true -> forall i j d, i < j < length l -> ge (nth i l d) (nth j l d) && ge (nth j l d) (nth i l d) = false.
Proof.
  induction l as [|x l IH]; intros U i j d H; [cbn in H; lia|]. cbn [untied] in U. apply andb_true_iff in U. destruct U as [U1 U2].
  rewrite forallb_forall in U1. destruct j as [|j]; [lia|]. cbn [length] in H. destruct i as [|i]; cbn [nth].
  - apply negb_true_iff, U1, nth_In. lia.
  - apply IH; auto. lia.
Qed.
Lemma count_strict : forall (f g : V -> bool) l z, (forall y, In y l -> f y = true -> g y = true) -> In z l -> f z = false -> g z = true ->
  count f l < count g l.
Proof.
  induction l as [|a l IH]; intros z H Z Fz Gz; [destruct Z|]. destruct Z as [E|Z].
  - subst a. rewrite !count_cons, Fz, Gz. apply (Nat.lt_succ_r (0 + count f l)). apply count_mono. intros y Y. apply H; right; auto.
  - rewrite !count_cons. specialize (IH z (fun y Y => H y (or_intror Y)) Z Fz Gz). specialize (H a (or_introl eq_refl)).
    destruct (f a); [rewrite H by auto; lia|]. destruct (g a); lia.
Qed.
Lemma rank_injective : forall l i j d, total_order ge l -> untied ge l = true -> i < j < length l ->
  above (nth i l d) l <> above (nth j l d) l.
Proof.
  intros l i j d T U H. pose proof (untied_pairs l U i j d H) as X.
  assert (Ii : In (nth i l d) l) by (apply nth_In; lia). assert (Ij : In (nth j l d) l) by (apply nth_In; lia).
  assert (G : forall x y, In x l -> In y l -> ge x y = true -> ge y x = false -> above x l < above y l).
  { intros x y X1 Y1 XY YX. unfold above. apply (count_strict _ _ l y); auto.
    - intros z Z ZX. destruct T as [_ T]. apply (T z x y); auto.
    - apply (order_refl l); auto. }
  apply andb_false_iff in X. destruct (proj1 T _ _ Ii Ij) as [D|D]; destruct X as [X|X]; try congruence.
  - specialize (G _ _ Ii Ij D X). lia.
  - specialize (G _ _ Ij Ii D X). lia.
Qed.
Lemma ranks : forall l, total_order ge l -> untied ge l = true -> Permutation (map (fun x => above x l) l) (seq 1 (length l)).
Proof.
  intros l T U. destruct l as [|d l0]; [constructor|]. set (l := d :: l0) in *. clearbody l.
  apply NoDup_Permutation_bis.
  - apply (NoDup_nth _ 0). intros i j Hi Hj. rewrite map_length in Hi, Hj.
    assert (X : forall i, i < length l -> nth i (map (fun x => above x l) l) 0 = above (nth i l d) l).
    { intros m Hm. rewrite (nth_indep _ 0 (above d l)) by (rewrite map_length; auto). apply (map_nth (fun x => above x l)). }
    rewrite !X by auto. intro E. destruct (Nat.lt_trichotomy i j) as [L|[L|L]]; auto; exfalso.
    + apply (rank_injective l i j d T U); auto.
    + apply (rank_injective l j i d T U); auto.
  - rewrite map_length, seq_length. apply le_n.
  - intros r R. apply in_map_iff in R. destruct R as [x [<- X]]. apply in_seq. split.
    + unfold above. apply (proj2 (count_pos_iff _ _ _)). exists x. split; auto. apply (order_refl l); auto.
    + unfold above. pose proof (count_le_length _ (fun y => ge y x) l). lia.
Qed.
Lemma count_seq : forall k a n, count (fun r => Nat.leb r k) (seq a n) = Nat.min n (S k - a).
Proof.
  intros k a n. revert a. induction n as [|n IH]; intro a; [reflexivity|]. cbn [seq]. rewrite count_cons, IH.
  destruct (Nat.leb_spec a k); lia.
Qed.
Lemma rank_law : forall l (f : nat -> bool), total_order ge l -> untied ge l = true ->
  count (fun x => f (above x l)) l = count f (seq 1 (length l)).
Proof. intros l f T U. rewrite <- (count_perm _ _ _ _ (ranks l T U)). symmetry. apply count_map. Qed.
Lemma untied_perm : forall l l', Permutation l l' -> untied ge l = untied ge l'.
Proof.
  intros l l' H. induction H.
  - reflexivity.
  - cbn [untied]. rewrite IHPermutation. f_equal. apply eq_true_iff_eq. rewrite !forallb_forall.
    split; intros Q y Y; apply Q; [apply (Permutation_in _ (Permutation_sym H))|apply (Permutation_in _ H)]; auto.
  - cbn [untied forallb]. rewrite (andb_comm (ge y x)). destruct (ge x y && ge y x); cbn [negb andb]; [reflexivity|].
    rewrite !andb_assoc. f_equal. apply andb_comm.
  - congruence.
Qed.
End Ranks.

(** ** Draws from one list *)
Section Iid.
Context {V : Type} (ge : V -> V -> bool).
(** The number of draws where the rank of the first satisfies [f]. *)
Lemma rank_draws : forall E P (f : nat -> bool), total_order ge E ->
  S P * count (fun d => f (S (above ge (fst d) (snd d)))) (draws E P) = tot (tuples (S P) E) (fun l => count (fun x => f (above ge x l)) l).
Proof.
  intros E P f T. rewrite <- tot_count. rewrite (symmetry_sum _ P E (fun x l => ind (f (S (above ge x l))))).
  apply tot_ext. intros l H. apply tuples_in in H. apply picks_rank. apply (order_sub ge E); auto. apply H.
Qed.
Lemma rank_upper : forall E P k, total_order ge E ->
  S P * count (fun d => Nat.leb (S (above ge (fst d) (snd d))) k) (draws E P) <= k * length E ^ S P.
Proof.
  intros E P k T. rewrite (rank_draws E P (fun r => Nat.leb r k) T). rewrite <- (tuples_length _ (S P) E), Nat.mul_comm, <- tot_const.
  apply tot_le. intros l H. apply tuples_in in H. apply few_top. apply (order_sub ge E); auto. apply H.
Qed.
(** Ranks of the other end: at least [k] draws of [S P]. *)
Lemma rank_lower : forall E P k, total_order ge E -> k <= S P ->
  k * length E ^ S P <= S P * count (fun d => Nat.leb (S P - k) (above ge (fst d) (snd d))) (draws E P).
Proof.
  intros E P k T K.
  assert (X := rank_upper E P (S P - k) T).
  assert (Y : count (fun d => Nat.leb (S (above ge (fst d) (snd d))) (S P - k)) (draws E P) +
              count (fun d => Nat.leb (S P - k) (above ge (fst d) (snd d))) (draws E P) = length E ^ S P).
  { rewrite <- draws_length. generalize (draws E P). induction l as [|d l IH]; [reflexivity|].
    rewrite !count_cons. cbn [length]. destruct (Nat.leb_spec (S (above ge (fst d) (snd d))) (S P - k)); destruct (Nat.leb_spec (S P - k) (above ge (fst d) (snd d))); lia. }
  set (a := count _ (draws E P)) in X, Y. set (b := count _ _) in Y |- *. clearbody a b. rewrite <- Y in *.
  replace k with (S P - (S P - k)) at 1 by lia. rewrite Nat.mul_sub_distr_r. nia.
Qed.
(** Without ties. *)
Lemma rank_untied : forall E P (f : nat -> bool), total_order ge E ->
  S P * count (fun d => f (S (above ge (fst d) (snd d)))) (filter (no_tie ge) (draws E P)) =
  count f (seq 1 (S P)) * length (filter (no_tie ge) (draws E P)).
Proof.
  intros E P f T.
  assert (CF : forall (q : V * list V -> bool) L, count q (filter (no_tie ge) L) = tot L (fun d => ind (no_tie ge d && q d))).
  { intros q L. induction L as [|d L IH]; [reflexivity|]. cbn [filter]. rewrite tot_cons. destruct (no_tie ge d); cbn [andb ind]; [|exact IH].
    rewrite count_cons, IH. destruct (q d); reflexivity. }
  rewrite <- (count_all _ (fun _ => true) (filter (no_tie ge) (draws E P))) by auto. rewrite !CF. unfold no_tie.
  rewrite (symmetry_sum _ P E (fun x l => ind (untied ge (x :: l) && f (S (above ge x l))))).
  assert (B := symmetry_sum _ P E (fun x l => ind (untied ge (x :: l) && true))).
  apply (f_equal (fun z => count f (seq 1 (S P)) * z)) in B.
  apply (Nat.mul_cancel_l _ _ (S P)); [lia|].
  rewrite (Nat.mul_assoc (S P) (count f (seq 1 (S P)))), (Nat.mul_comm (S P) (count f (seq 1 (S P)))), <- Nat.mul_assoc.
  etransitivity; [|symmetry; exact B].
  rewrite <- !tot_scale. apply tot_ext. intros l H. apply tuples_in in H. destruct H as [LL H].
  assert (TL : total_order ge l) by (apply (order_sub ge E); auto).
  rewrite (tot_ext _ (picks l) _ (fun p => ind (untied ge l && f (S (above ge (fst p) (snd p)))))).
  2:{ intros p Hp. rewrite (untied_perm ge _ _ (picks_perm _ _ _ Hp)). reflexivity. }
  rewrite (tot_ext _ (picks l) (fun p => ind (untied ge (fst p :: snd p) && true)) (fun p => ind (untied ge l))).
  2:{ intros p Hp. rewrite (untied_perm ge _ _ (picks_perm _ _ _ Hp)), andb_true_r. reflexivity. }
  destruct (untied ge l) eqn:U; cbn [andb ind].
  - rewrite (picks_rank ge l f TL), (rank_law ge l f TL U), LL.
    rewrite (picks_fst _ l (fun _ => 1)), tot_const, LL. lia.
  - rewrite !tot_const. lia.
Qed.
End Iid.

(** ** Relabellings *)
Section Group.
Context {A V : Type} (ge : V -> V -> bool) (op : A -> A -> A) (c : A -> A) (E : list A).
Hypothesis right_ok : forall g, In g E -> Permutation (map (fun r => op r (c g)) E) E.
Hypothesis left_ok : forall g, In g E -> Permutation (map (fun r => op (c g) (c r)) E) (map c E).
Hypothesis assoc_ok : forall r g h, In r E -> In g E -> In h E -> op (op r (c g)) (c h) = op r (op (c g) (c h)).

Lemma relabel_upper : forall (W : A -> V) P k, (forall r, In r E -> total_order ge (map (fun g => W (op r (c g))) E)) ->
  S P * count (fun d => Nat.leb (S (above ge (W (fst d)) (map (fun r => W (op (fst d) (c r))) (snd d)))) k) (draws E P) <= k * length E ^ S P.
Proof using right_ok left_ok assoc_ok.
  intros W P k T.
  destruct E as [|e0 E0] eqn:EE; [unfold draws; cbn; lia|]. rewrite <- EE in *. assert (NE : 0 < length E) by (rewrite EE; cbn; lia). clear EE e0 E0.
  rewrite <- tot_count. unfold draws. rewrite tot_prod. cbn [fst snd].
  set (F := fun x (l : list V) => ind (Nat.leb (S (above ge x l)) k)).
  set (H := fun r => tot (tuples P E) (fun rs => F (W r) (map (fun g => W (op r (c g))) rs))).
  change (S P * tot E H <= k * length E ^ S P).
  assert (AV : length E * tot E H = tot E (fun r => tot E (fun g => H (op r (c g))))).
  { rewrite tot_swap. rewrite <- tot_const. apply tot_ext. intros g G. rewrite <- (tot_map _ _ (fun r => op r (c g))). symmetry. apply tot_perm, right_ok, G. }
  assert (ST : forall r, In r E -> tot E (fun g => H (op r (c g))) =
     count (fun d => Nat.leb (S (above ge (fst d) (snd d))) k) (draws (map (fun g => W (op r (c g))) E) P)).
  { intros r Hr. rewrite <- tot_count. unfold draws. rewrite tot_prod, tot_map. cbn [fst snd]. apply tot_ext. intros g G.
    unfold H. rewrite <- (tot_map _ _ (map (fun h => W (op (op r (c g)) (c h))))).
    rewrite <- tuples_map.
    rewrite (map_ext_in _ (fun h => W (op r (op (c g) (c h)))) E) by (intros h Hh; rewrite assoc_ok; auto).
    rewrite <- (map_map (fun h => op (c g) (c h)) (fun x => W (op r x))).
    rewrite (tuples_perm _ P _ (map (fun x => W (op r x)) (map c E))) by (apply Permutation_map, left_ok, G).
    rewrite map_map. reflexivity. }
  rewrite (tot_ext _ _ _ _ ST) in AV. clear ST.
  apply (Nat.mul_le_mono_pos_l _ _ (length E) NE). rewrite Nat.mul_assoc, (Nat.mul_comm (length E) (S P)), <- Nat.mul_assoc, AV.
  rewrite <- tot_scale, <- tot_const. apply tot_le. intros r Hr.
  pose proof (rank_upper ge (map (fun g => W (op r (c g))) E) P k (T r Hr)) as X. rewrite map_length in X. exact X.
Qed.
End Group.
