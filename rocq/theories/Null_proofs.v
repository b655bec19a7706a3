(** Lemmas about the law of data and simulations drawn from one stream. *)
From Coq Require Import Reals ZArith QArith List Bool Arith Lia Lra Psatz Permutation.
From Verif Require Import Base BaseLemmas Quadrat_model Geometry_model Random_model Random_spec Random_proofs Joint_spec Joint_proofs
  Spacetime_model Spacetime_proofs Size_spec Size_proofs Null_spec.
Import ListNotations.
Local Open Scope R_scope.

(** ** Finite sums *)
Definition rsum {A : Type} (L : list A) (f : A -> R) : R := fold_right Rplus 0 (map f L).
Lemma rsum_cons : forall A (x : A) L f, rsum (x :: L) f = f x + rsum L f.
Proof. reflexivity. Qed.
Lemma rsum_ext : forall A (L : list A) f g, (forall x, In x L -> f x = g x) -> rsum L f = rsum L g.
Proof.
  intros A L f g H. unfold rsum. f_equal. apply map_ext_in, H.
Qed.
Lemma rsum_map : forall A B (h : A -> B) L f, rsum (map h L) f = rsum L (fun x => f (h x)).
Proof. intros. unfold rsum. rewrite map_map. reflexivity. Qed.
Lemma rsum_tot : forall A (L : list A) (f : A -> nat), rsum L (fun x => INR (f x)) = INR (tot L f).
Proof. induction L as [|x L IH]; intro f; [reflexivity|]. rewrite rsum_cons, tot_cons, plus_INR, IH. reflexivity. Qed.

(** ** Repeated draws from one source *)
Section Source.
Context {A : Type} (E : (A -> R) -> R) (D : A -> Prop).
Hypothesis E_ext : forall f g, (forall x, D x -> f x = g x) -> E f = E g.
Hypothesis E_lin : forall a b f g, E (fun x => a * f x + b * g x) = a * E f + b * E g.
Hypothesis E_le : forall f g, (forall x, D x -> f x <= g x) -> E f <= E g.
Hypothesis E_swap : forall f, E (fun x => E (fun y => f x y)) = E (fun y => E (fun x => f x y)).

Fixpoint iter (m : nat) (F : list A -> R) : R :=
  match m with O => F [] | S m' => E (fun x => iter m' (fun l => F (x :: l))) end.
Definition all_of (m : nat) (l : list A) : Prop := List.length l = m /\ forall x, In x l -> D x.
Lemma all_cons : forall m x l, D x -> all_of m l -> all_of (S m) (x :: l).
Proof. intros m x l H [L F]. split; [cbn; lia|]. intros y [<-|Y]; auto. Qed.
Lemma iter_ext : forall m F F', (forall l, all_of m l -> F l = F' l) -> iter m F = iter m F'.
Proof using E_ext.
  clear E_lin E_le E_swap. induction m as [|m IH]; intros F F' H; cbn [iter].
  - apply H. split; [reflexivity|]. intros x [].
  - apply E_ext. intros x X. apply IH. intros l L. apply H, all_cons; auto.
Qed.
Lemma iter_le : forall m F F', (forall l, all_of m l -> F l <= F' l) -> iter m F <= iter m F'.
Proof using E_le.
  clear E_lin E_ext E_swap. induction m as [|m IH]; intros F F' H; cbn [iter].
  - apply H. split; [reflexivity|]. intros x [].
  - apply E_le. intros x X. apply IH. intros l L. apply H, all_cons; auto.
Qed.
Lemma iter_lin : forall m a b F F', iter m (fun l => a * F l + b * F' l) = a * iter m F + b * iter m F'.
Proof using E_lin E_ext.
  clear E_le E_swap. induction m as [|m IH]; intros a b F F'; cbn [iter]; [reflexivity|].
  rewrite <- E_lin. apply E_ext. intros x _. apply IH.
Qed.
Lemma iter_plus : forall m F F', iter m (fun l => F l + F' l) = iter m F + iter m F'.
Proof using E_lin E_ext.
  clear E_le E_swap. intros m F F'. replace (iter m F + iter m F') with (1 * iter m F + 1 * iter m F') by ring. rewrite <- iter_lin. apply iter_ext. intros; ring.
Qed.
Lemma iter_scale : forall m c F, iter m (fun l => c * F l) = c * iter m F.
Proof using E_lin E_ext.
  clear E_le E_swap. intros m c F. replace (c * iter m F) with (c * iter m F + 0 * iter m F) by ring. rewrite <- iter_lin. apply iter_ext. intros; ring.
Qed.
Lemma E_plus : forall f g, E (fun x => f x + g x) = E f + E g.
Proof using E_lin E_ext.
  clear E_le E_swap. intros f g. replace (E f + E g) with (1 * E f + 1 * E g) by ring. rewrite <- E_lin. apply E_ext. intros; ring.
Qed.
Lemma E_scale : forall c f, E (fun x => c * f x) = c * E f.
Proof using E_lin E_ext.
  clear E_le E_swap. intros c f. replace (c * E f) with (c * E f + 0 * E f) by ring. rewrite <- E_lin. apply E_ext. intros; ring.
Qed.
(** Every draw is as good as the first. *)
Lemma iter_symmetry : forall m H,
  INR (S m) * E (fun x => iter m (fun l => H x l)) = iter (S m) (fun l => rsum (picks l) (fun p => H (fst p) (snd p))).
Proof using E_lin E_ext E_swap.
  clear E_le. induction m as [|m IH]; intro H.
  - cbn [iter]. rewrite Rmult_1_l. apply E_ext. intros x _. unfold rsum. cbn. ring.
  - symmetry. change (iter (S (S m)) (fun l => rsum (picks l) (fun p => H (fst p) (snd p)))) with
      (E (fun x => iter (S m) (fun l => rsum (picks (x :: l)) (fun p => H (fst p) (snd p))))).
    rewrite (E_ext _ (fun x => iter (S m) (fun l => H x l) + iter (S m) (fun l => rsum (picks l) (fun p => H (fst p) (x :: snd p))))).
    2:{ intros x _. rewrite <- iter_plus. apply iter_ext. intros l _. cbn [picks]. rewrite rsum_cons, rsum_map. reflexivity. }
    rewrite E_plus.
    rewrite (E_ext (fun x => iter (S m) (fun l => rsum (picks l) (fun p => H (fst p) (x :: snd p))))
                   (fun x => INR (S m) * E (fun y => iter m (fun l => H y (x :: l))))).
    2:{ intros x _. rewrite (IH (fun y l => H y (x :: l))). reflexivity. }
    rewrite E_scale. rewrite (E_swap (fun x y => iter m (fun l => H y (x :: l)))).
    change (E (fun y => E (fun x => iter m (fun l => H y (x :: l))))) with (E (fun x => iter (S m) (fun l => H x l))).
    rewrite (S_INR (S m)). ring.
Qed.

(** Ranks of the first draw. *)
Context {V : Type} (ge : V -> V -> bool) (score : A -> V).
Hypothesis ordered : forall l, (forall x, In x l -> D x) -> total_order ge (map score l).
Definition place (l : list A) : nat := match l with [] => 0 | x :: _ => above ge (score x) (map score l) end.
Lemma place_cons : forall x l, D x -> (forall y, In y l -> D y) -> place (x :: l) = S (above ge (score x) (map score l)).
Proof using ordered.
  intros x l X L. unfold place, above. cbn [map]. rewrite count_cons. rewrite (order_refl ge [score x]); [reflexivity| |left; reflexivity].
  apply (ordered [x]). intros y [<-|[]]. exact X.
Qed.
Lemma picks_map : forall B C (h : B -> C) l, picks (map h l) = map (fun p => (h (fst p), map h (snd p))) (picks l).
Proof.
  clear. induction l as [|x l IH]; [reflexivity|]. cbn [map picks]. rewrite IH, !map_map. reflexivity.
Qed.
Lemma place_sum : forall m (f : nat -> bool) (T : list V -> bool), (forall l l', Permutation l l' -> T l = T l') ->
  INR (S m) * iter (S m) (fun l => yes (T (map score l) && f (place l))) =
  iter (S m) (fun l => INR (ind (T (map score l)) * count (fun v => f (above ge v (map score l))) (map score l))).
Proof using E_lin E_ext E_swap ordered.
  clear E_le. intros m f T PT. cbn [iter].
  rewrite (E_ext _ (fun x => iter m (fun l => yes (T (score x :: map score l) && f (S (above ge (score x) (map score l))))))).
  2:{ intros x X. apply iter_ext. intros l [_ L]. rewrite (place_cons x l X L). reflexivity. }
  rewrite (iter_symmetry m (fun x l => yes (T (score x :: map score l) && f (S (above ge (score x) (map score l)))))).
  change (iter (S m) (fun l => rsum (picks l) (fun p => yes (T (score (fst p) :: map score (snd p)) && f (S (above ge (score (fst p)) (map score (snd p))))))) =
          iter (S m) (fun l => INR (ind (T (map score l)) * count (fun v => f (above ge v (map score l))) (map score l)))).
  apply iter_ext. intros l [_ L]. pose proof (ordered l L) as TO.
  transitivity (rsum (picks (map score l)) (fun p => yes (T (fst p :: snd p) && f (S (above ge (fst p) (snd p)))))).
  { rewrite picks_map, rsum_map. reflexivity. }
  revert TO. generalize (map score l). clear l L. intros l TO.
  rewrite (rsum_ext _ _ _ (fun p => INR (ind (T l) * ind (f (S (above ge (fst p) (snd p))))))).
  2:{ intros p P. rewrite (PT _ _ (picks_perm _ _ _ P)). destruct (T l); cbn [andb ind Nat.mul]; [|reflexivity]. destruct (f _); reflexivity. }
  rewrite (rsum_tot _ _ (fun p => (ind (T l) * ind (f (S (above ge (fst p) (snd p)))))%nat)), tot_scale. rewrite (picks_rank ge l f TO). reflexivity.
Qed.
Lemma yes_and : forall b, yes (true && b) = yes b.
Proof. intros []; reflexivity. Qed.
Lemma place_upper : forall m k, INR (S m) * iter (S m) (fun l => yes (Nat.leb (place l) k)) <= INR k * iter (S m) (fun _ => 1).
Proof using E_lin E_ext E_swap E_le ordered.
  intros m k. pose proof (place_sum m (fun r => Nat.leb r k) (fun _ => true) (fun _ _ _ => eq_refl)) as X.
  cbn [andb] in X. rewrite X. rewrite <- iter_scale. apply iter_le. intros l [_ L].
  rewrite Rmult_1_r. apply le_INR. cbn [ind]. rewrite Nat.mul_1_l. apply few_top, ordered, L.
Qed.
Lemma place_lower : forall m k, (k <= S m)%nat ->
  INR k * iter (S m) (fun _ => 1) <= INR (S m) * iter (S m) (fun l => yes (Nat.leb (S (S m - k)) (place l))).
Proof using E_lin E_ext E_swap E_le ordered.
  intros m k K. pose proof (place_upper m (S m - k)) as X.
  assert (Y : iter (S m) (fun l => yes (Nat.leb (place l) (S m - k))) + iter (S m) (fun l => yes (Nat.leb (S (S m - k)) (place l))) = iter (S m) (fun _ => 1)).
  { rewrite <- iter_plus. apply iter_ext. intros l _. unfold yes. destruct (Nat.leb_spec (place l) (S m - k)); destruct (Nat.leb_spec (S (S m - k)) (place l)); try lia; lra. }
  rewrite minus_INR in X by exact K. set (a := iter _ _) in X, Y. set (b := iter (S m) (fun l => yes (Nat.leb (S _) _))) in *. set (c := iter _ (fun _ => 1)) in *.
  replace a with (c - b) in X by lra. lra.
Qed.
Lemma place_untied : forall m (f : nat -> bool),
  INR (S m) * iter (S m) (fun l => yes (untied ge (map score l) && f (place l))) =
  INR (count f (seq 1 (S m))) * iter (S m) (fun l => yes (untied ge (map score l))).
Proof using E_lin E_ext E_swap ordered.
  clear E_le. intros m f. rewrite (place_sum m f (untied ge) (untied_perm ge)). rewrite <- iter_scale. apply iter_ext. intros l [LL L].
  destruct (untied ge (map score l)) eqn:U; cbn [ind yes]; [|rewrite Nat.mul_0_l; cbn; ring].
  rewrite (rank_law ge _ f (ordered l L) U), map_length, LL, Nat.mul_1_l. ring.
Qed.
(** The same given any property of the scores that does not depend on their order. *)
Section Given.
Variable T : list V -> bool.
Hypothesis T_perm : forall l l', Permutation l l' -> T l = T l'.
Lemma given_upper : forall m k, INR (S m) * iter (S m) (fun l => yes (T (map score l) && Nat.leb (place l) k)) <= INR k * iter (S m) (fun l => yes (T (map score l))).
Proof using E_lin E_ext E_swap E_le ordered T_perm.
  intros m k. rewrite (place_sum m (fun r => Nat.leb r k) T T_perm), <- iter_scale. apply iter_le. intros l [_ L].
  destruct (T (map score l)); cbn [ind yes]; [|rewrite Nat.mul_0_l; cbn; lra].
  rewrite Rmult_1_r, Nat.mul_1_l. apply le_INR. apply few_top, ordered, L.
Qed.
Lemma given_folded : forall m k, (k <= m)%nat ->
  INR (S k) * iter (S m) (fun l => yes (T (map score l))) <=
  INR (S m) * iter (S m) (fun l => yes (T (map score l) && (Nat.leb (place l) k || Nat.leb (S m - k) (place l)))).
Proof using E_lin E_ext E_swap E_le ordered T_perm.
  intros m k K. rewrite (place_sum m (fun r => Nat.leb r k || Nat.leb (S m - k) r) T T_perm), <- iter_scale. apply iter_le. intros l [LL L].
  destruct (T (map score l)); cbn [ind yes]; [|rewrite Nat.mul_0_l; cbn [INR]; lra].
  rewrite Rmult_1_r, Nat.mul_1_l. apply le_INR.
  pose proof (few_top ge (map score l) (m - k) (ordered l L)) as X.
  assert (LM : List.length (map score l) = S m) by (rewrite map_length; exact LL).
  assert (Y : forall v, (ind (Nat.leb (above ge v (map score l)) (m - k)) + ind (Nat.leb (above ge v (map score l)) k || Nat.leb (S m - k) (above ge v (map score l))) >= 1)%nat).
  { intro v. generalize (above ge v (map score l)). intro r. destruct (Nat.leb_spec r (m - k)); destruct (Nat.leb_spec r k); destruct (Nat.leb_spec (S m - k) r); cbn [orb ind]; lia. }
  rewrite <- !tot_count in X |- *. cut (S m <= tot (map score l) (fun v => ind (Nat.leb (above ge v (map score l)) (m - k))) +
    tot (map score l) (fun v => ind (Nat.leb (above ge v (map score l)) k || Nat.leb (S m - k) (above ge v (map score l)))))%nat; [lia|].
  rewrite <- tot_plus. apply Nat.le_trans with (tot (map score l) (fun _ => 1%nat)); [rewrite tot_const; lia|]. apply tot_le. intros v _. apply Y.
Qed.
Lemma given_untied : forall m (f : nat -> bool),
  INR (S m) * iter (S m) (fun l => yes (T (map score l) && untied ge (map score l) && f (place l))) =
  INR (count f (seq 1 (S m))) * iter (S m) (fun l => yes (T (map score l) && untied ge (map score l))).
Proof using E_lin E_ext E_swap ordered T_perm.
  clear E_le. intros m f.
  rewrite (place_sum m f (fun l => T l && untied ge l)) by (intros l l' P; rewrite (T_perm _ _ P), (untied_perm ge _ _ P); reflexivity).
  rewrite <- iter_scale. apply iter_ext. intros l [LL L].
  destruct (T (map score l)); cbn [andb ind yes]; [|rewrite Nat.mul_0_l; cbn [INR]; ring].
  destruct (untied ge (map score l)) eqn:U; cbn [ind yes]; [|rewrite Nat.mul_0_l; cbn [INR]; ring].
  rewrite (rank_law ge _ f (ordered l L) U), map_length, LL, Nat.mul_1_l. ring.
Qed.
End Given.
End Source.

(** ** The law of accepted points *)
Section Law.
Variables (G : list Q) (w : Q -> R) (ok : pt -> bool).
Notation mean1 := (mean1 G w).
Notation mean := (mean G w).
Notation kept mk := (Joint_spec.kept G w mk ok).
Notation kept_all := (kept_all G w ok).
Lemma kept_lin : forall mk a b f g, kept mk (fun p => a * f p + b * g p) = a * kept mk f + b * kept mk g.
Proof.
  intros mk a b f g. unfold Joint_spec.kept. rewrite <- mean1_lin. apply mean1_ext. intro u. rewrite <- mean1_lin. apply mean1_ext. intro v. destruct (ok _); ring.
Qed.
Lemma kept_ext : forall mk f g, (forall p, ok p = true -> f p = g p) -> kept mk f = kept mk g.
Proof.
  intros mk f g H. unfold Joint_spec.kept. apply mean1_ext. intro u. apply mean1_ext. intro v. destruct (ok (mk u v)) eqn:O; [apply H; exact O|reflexivity].
Qed.
Lemma kept_scale : forall mk c f, kept mk (fun p => c * f p) = c * kept mk f.
Proof. intros mk c f. replace (c * kept mk f) with (c * kept mk f + 0 * kept mk f) by ring. rewrite <- kept_lin. apply kept_ext. intros; ring. Qed.
Lemma kept_le : is_law G w -> forall mk f g, (forall p, ok p = true -> f p <= g p) -> kept mk f <= kept mk g.
Proof.
  intros LW mk f g H. unfold Joint_spec.kept. apply mean1_le; [exact LW|]. intro u. apply mean1_le; [exact LW|]. intro v. destruct (ok (mk u v)) eqn:O; [apply H; exact O|lra].
Qed.
Lemma mean1_two : forall l m F, Joint_spec.mean1 l w (fun u => Joint_spec.mean1 m w (fun v => F u v)) = Joint_spec.mean1 m w (fun v => Joint_spec.mean1 l w (fun u => F u v)).
Proof.
  clear. induction l as [|x l IH]; intros m F.
  - change (0 = Joint_spec.mean1 m w (fun _ => 0)). rewrite (mean1_ext m w _ (fun _ => 0 * 1)) by (intro; ring). rewrite mean1_scale. ring.
  - change (w x * Joint_spec.mean1 m w (fun v => F x v) + Joint_spec.mean1 l w (fun u => Joint_spec.mean1 m w (fun v => F u v)) =
            Joint_spec.mean1 m w (fun v => w x * F x v + Joint_spec.mean1 l w (fun u => F u v))).
    rewrite IH. rewrite <- (Rmult_1_l (Joint_spec.mean1 m w (fun v => Joint_spec.mean1 l w (fun u => F u v)))). rewrite <- mean1_lin. apply mean1_ext. intro v. ring.
Qed.
Lemma mean1_swap : forall F, mean1 (fun u => mean1 (fun v => F u v)) = mean1 (fun v => mean1 (fun u => F u v)).
Proof. intro F. apply mean1_two. Qed.
Lemma kept_swap : forall mk mk' f, kept mk (fun p => kept mk' (fun q => f p q)) = kept mk' (fun q => kept mk (fun p => f p q)).
Proof.
  intros mk mk' f. unfold Joint_spec.kept.
  transitivity (mean1 (fun u => mean1 (fun v => mean1 (fun u' => mean1 (fun v' => if ok (mk u v) && ok (mk' u' v') then f (mk u v) (mk' u' v') else 0))))).
  { apply mean1_ext. intro u. apply mean1_ext. intro v. destruct (ok (mk u v)); cbn [andb]; [reflexivity|]. symmetry.
    rewrite (mean1_ext _ _ _ (fun _ => 0 * 1)); [rewrite mean1_scale; ring|]. intro. rewrite (mean1_ext _ _ _ (fun _ => 0 * 1)) by (intro; ring). rewrite mean1_scale. ring. }
  transitivity (mean1 (fun u' => mean1 (fun v' => mean1 (fun u => mean1 (fun v => if ok (mk u v) && ok (mk' u' v') then f (mk u v) (mk' u' v') else 0))))).
  { rewrite (mean1_ext _ _ _ (fun u => mean1 (fun u' => mean1 (fun v => mean1 (fun v' => if ok (mk u v) && ok (mk' u' v') then f (mk u v) (mk' u' v') else 0))))) by (intro u; apply mean1_swap).
    rewrite mean1_swap. apply mean1_ext. intro u'.
    rewrite (mean1_ext _ _ _ (fun u => mean1 (fun v' => mean1 (fun v => if ok (mk u v) && ok (mk' u' v') then f (mk u v) (mk' u' v') else 0)))) by (intro u; apply mean1_swap).
    apply mean1_swap. }
  apply mean1_ext. intro u'. apply mean1_ext. intro v'. destruct (ok (mk' u' v')).
  - apply mean1_ext. intro u. apply mean1_ext. intro v. rewrite andb_true_r. reflexivity.
  - rewrite (mean1_ext _ _ _ (fun _ => 0 * 1)); [rewrite mean1_scale; ring|]. intro u. rewrite (mean1_ext _ _ _ (fun _ => 0 * 1)); [rewrite mean1_scale; ring|]. intro v. rewrite andb_false_r. ring.
Qed.

(** Lists of as many acceptable points as there are generators. *)
Definition fits (mks : list (Q -> Q -> pt)) (l : list pt) : Prop := List.length l = List.length mks /\ forall p, In p l -> ok p = true.
Lemma fits_cons : forall mk mks p l, ok p = true -> fits mks l -> fits (mk :: mks) (p :: l).
Proof. intros mk mks p l H [L F]. split; [cbn; lia|]. intros q [<-|X]; auto. Qed.
Lemma all_ext : forall mks F F', (forall l, fits mks l -> F l = F' l) -> kept_all mks F = kept_all mks F'.
Proof.
  induction mks as [|mk mks IH]; intros F F' H; cbn [Null_spec.kept_all]; [apply H; split; [reflexivity|intros x []]|].
  apply kept_ext. intros p P. apply IH. intros l L. apply H, fits_cons; auto.
Qed.
Lemma all_lin : forall mks a b F F', kept_all mks (fun l => a * F l + b * F' l) = a * kept_all mks F + b * kept_all mks F'.
Proof.
  induction mks as [|mk mks IH]; intros a b F F'; cbn [Null_spec.kept_all]; [reflexivity|]. rewrite <- kept_lin. apply kept_ext. intros p _. apply IH.
Qed.
Lemma all_le : is_law G w -> forall mks F F', (forall l, fits mks l -> F l <= F' l) -> kept_all mks F <= kept_all mks F'.
Proof.
  intro LW. induction mks as [|mk mks IH]; intros F F' H; cbn [Null_spec.kept_all]; [apply H; split; [reflexivity|intros x []]|].
  apply kept_le; [exact LW|]. intros p P. apply IH. intros l L. apply H, fits_cons; auto.
Qed.
Lemma all_scale : forall mks c F, kept_all mks (fun l => c * F l) = c * kept_all mks F.
Proof. intros mks c F. replace (c * kept_all mks F) with (c * kept_all mks F + 0 * kept_all mks F) by ring. rewrite <- all_lin. apply all_ext. intros; ring. Qed.
Lemma kept_all_swap : forall mk mks f, kept mk (fun p => kept_all mks (fun l => f p l)) = kept_all mks (fun l => kept mk (fun p => f p l)).
Proof.
  intros mk. induction mks as [|mk' mks IH]; intro f; cbn [Null_spec.kept_all]; [reflexivity|].
  rewrite kept_swap. apply kept_ext. intros q _. apply (IH (fun p l => f p (q :: l))).
Qed.
Lemma all_swap : forall mks mks' f, kept_all mks (fun l => kept_all mks' (fun l' => f l l')) = kept_all mks' (fun l' => kept_all mks (fun l => f l l')).
Proof.
  induction mks as [|mk mks IH]; intros mks' f; cbn [Null_spec.kept_all]; [reflexivity|].
  rewrite (kept_ext mk _ (fun p => kept_all mks' (fun l' => kept_all mks (fun l => f (p :: l) l')))) by (intros p _; apply (IH mks' (fun l l' => f (p :: l) l'))).
  apply kept_all_swap.
Qed.
Lemma all_app : forall mks mks' F, kept_all (mks ++ mks') F = kept_all mks (fun l => kept_all mks' (fun l' => F (l ++ l'))).
Proof. induction mks as [|mk mks IH]; intros mks' F; [reflexivity|]. cbn [app Null_spec.kept_all]. apply kept_ext. intros p _. rewrite IH. reflexivity. Qed.
Lemma all_power : forall mk N, kept_all (repeat mk N) (fun _ => 1) = kept mk always ^ N.
Proof.
  intros mk. induction N as [|N IH]; [reflexivity|]. cbn [repeat Null_spec.kept_all pow]. rewrite (kept_ext mk _ (fun p => (kept mk always ^ N) * always p)) by (intros p _; rewrite IH; unfold always; ring).
  rewrite kept_scale. ring.
Qed.

Definition law (L : nat) (mks : list (Q -> Q -> pt)) (F : list pt -> R) : R := mean (2 * L) (fun us => of_run (staged ok us mks) F).
Lemma law_nil : is_law G w -> forall L F, law L [] F = F [].
Proof. intros LW L F. unfold law. rewrite <- (mean_const G w LW (2 * L) (F [])). apply mean_ext. intro us. rewrite staged_nil. reflexivity. Qed.
Lemma law_S : is_law G w -> forall L mk mks F,
  law (S L) (mk :: mks) F = kept mk (fun p => law L mks (fun l => F (p :: l))) + (1 - kept mk always) * law L (mk :: mks) F.
Proof.
  intros LW L mk mks F. unfold law at 1. replace (2 * S L)%nat with (S (S (2 * L))) by lia. cbn [Joint_spec.mean].
  set (B := law L (mk :: mks) F).
  assert (E : forall u v, mean (2 * L) (fun us => of_run (staged ok (u :: v :: us) (mk :: mks)) F) =
    1 * (if ok (mk u v) then law L mks (fun l => F (mk u v :: l)) else 0) + B * (1 - (if ok (mk u v) then always (mk u v) else 0))).
  { intros u v. unfold always. destruct (ok (mk u v)) eqn:O.
    - unfold law. rewrite Rmult_1_l. replace (B * (1 - 1)) with 0 by ring. rewrite Rplus_0_r. apply mean_ext. intro us. cbn [staged]. rewrite O. destruct (staged ok us mks); reflexivity.
    - unfold B, law. replace (1 * 0 + _ * (1 - 0)) with (mean (2 * L) (fun us => of_run (staged ok us (mk :: mks)) F)) by ring. apply mean_ext. intro us. cbn [staged]. rewrite O. reflexivity. }
  pose proof LW as [_ T].
  rewrite (mean1_ext _ _ _ (fun u => 1 * mean1 (fun v => if ok (mk u v) then law L mks (fun l => F (mk u v :: l)) else 0) + B * mean1 (fun v => 1 - (if ok (mk u v) then always (mk u v) else 0)))).
  - rewrite mean1_lin. unfold Joint_spec.kept. rewrite (mean1_ext G w (fun u => mean1 (fun v => 1 - _)) (fun u => 1 * 1 + (-1) * mean1 (fun v => if ok (mk u v) then always (mk u v) else 0))).
    + rewrite mean1_lin, T. ring.
    + intro u. rewrite (mean1_ext _ _ _ (fun v => 1 * 1 + (-1) * (if ok (mk u v) then always (mk u v) else 0))) by (intro; ring). rewrite mean1_lin, T. ring.
  - intro u. rewrite (mean1_ext _ _ _ _ (E u)). apply mean1_lin.
Qed.
(** Whether the run ends says nothing about the points. *)
Lemma law_joint : is_law G w -> forall L mks F,
  law L mks F * kept_all mks (fun _ => 1) = kept_all mks F * law L mks (fun _ => 1).
Proof.
  intro LW. induction L as [|L IH]; intros mks F.
  - destruct mks as [|mk mks]; [rewrite !law_nil by exact LW; cbn; ring|]. unfold law. cbn. ring.
  - destruct mks as [|mk mks]; [rewrite !law_nil by exact LW; cbn; ring|]. rewrite !law_S by exact LW.
    pose proof (IH (mk :: mks) F) as I1.
    set (A := kept mk always) in *. set (P := kept_all mks (fun _ => 1)) in *.
    assert (K1 : kept_all (mk :: mks) (fun _ => 1) = P * A).
    { cbn [Null_spec.kept_all]. rewrite (kept_ext mk _ (fun p => P * always p)) by (intros; unfold P, always; ring). apply kept_scale. }
    set (q := law L mks (fun _ => 1)) in *.
    rewrite (kept_ext mk (fun _ => q) (fun p => q * always p)) by (intros; unfold always; ring). rewrite kept_scale. fold A.
    assert (K2 : kept mk (fun p => law L mks (fun l => F (p :: l))) * P = q * kept_all (mk :: mks) F).
    { rewrite Rmult_comm, <- kept_scale. cbn [Null_spec.kept_all]. rewrite <- kept_scale. apply kept_ext. intros p _. pose proof (IH mks (fun l => F (p :: l))) as I. fold P q in I. rewrite Rmult_comm, I. ring. }
    rewrite K1 in *. set (X := kept mk (fun p => law L mks _)) in *. set (Y := kept_all (mk :: mks) F) in *. set (Z1 := law L (mk :: mks) F) in *. set (Z2 := law L (mk :: mks) (fun _ => 1)) in *.
    replace ((X + (1 - A) * Z1) * (P * A)) with (A * (X * P) + (1 - A) * (Z1 * (P * A))) by ring. rewrite K2, I1. ring.
Qed.

(** ** Patterns *)
Variables (mk : Q -> Q -> pt) (n : nat).
Definition source (F : list pt -> R) : R := kept_all (repeat mk n) F.
Definition D (l : list pt) : Prop := List.length l = n /\ forall p, In p l -> ok p = true.
Lemma fits_D : forall l, fits (repeat mk n) l <-> D l.
Proof. intro l. unfold fits, D. rewrite repeat_length. reflexivity. Qed.
Lemma source_ext : forall f g, (forall x, D x -> f x = g x) -> source f = source g.
Proof. intros f g H. apply all_ext. intros l L. apply H, fits_D, L. Qed.
Lemma source_le : is_law G w -> forall f g, (forall x, D x -> f x <= g x) -> source f <= source g.
Proof. intros LW f g H. apply all_le; [exact LW|]. intros l L. apply H, fits_D, L. Qed.
Lemma chunks_iter : forall s F, kept_all (repeat mk (s * n)) (fun l => F (chunks n s l)) = iter source s F.
Proof.
  induction s as [|s IH]; intro F; [reflexivity|]. cbn [Nat.mul iter]. rewrite repeat_app, all_app. apply all_ext. intros l [L _].
  rewrite repeat_length in L. rewrite <- IH. apply all_ext. intros l' _. cbn [chunks].
  rewrite firstn_app, skipn_app, <- L, firstn_all, skipn_all, Nat.sub_diag. cbn [firstn skipn app]. rewrite app_nil_r. reflexivity.
Qed.
End Law.
