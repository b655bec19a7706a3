(** The hypergeometric distribution counts subsets. *)
From Coq Require Import ZArith QArith List Bool Arith Lia Lqa.
From Verif Require Import Base BaseLemmas Spacetime_model Spacetime_spec Spacetime_proofs.
Import ListNotations.
Local Open Scope Q_scope.

Lemma choose_0 : forall A (l : list A), choose 0 l = [[]].
Proof. destruct l; reflexivity. Qed.
Lemma choose_length : forall A (l : list A) k, List.length (choose k l) = binom (List.length l) k.
Proof.
  induction l as [|a l IH]; intros [|k]; try reflexivity.
  cbn [choose List.length binom]. rewrite app_length, map_length, !IH. reflexivity.
Qed.
Lemma choose_sub : forall A (l : list A) k S, In S (choose k l) -> List.length S = k /\ incl S l.
Proof.
  induction l as [|a l IH]; intros [|k] S H; cbn [choose] in H.
  - destruct H as [<-|[]]. split; [reflexivity|intros x []].
  - destruct H.
  - destruct H as [<-|[]]. split; [reflexivity|intros x []].
  - apply in_app_or in H. destruct H as [H|H].
    + apply in_map_iff in H. destruct H as [T [<- H]]. apply IH in H. destruct H as [H1 H2]. split; [simpl; auto|].
      intros x [<-|X]; simpl; auto.
    + apply IH in H. destruct H as [H1 H2]. split; auto. intros x X. right. auto.
Qed.
Lemma binom_pos : forall n k, (k <= n)%nat -> (0 < binom n k)%nat.
Proof.
  induction n; intros [|k] H; simpl; try lia. specialize (IHn k ltac:(lia)). lia.
Qed.
Lemma count_map' : forall A B (g : A -> B) (f : B -> bool) l, count f (map g l) = count (fun x => f (g x)) l.
Proof. intros. apply count_map. Qed.
Lemma count_false : forall A (f : A -> bool) l, (forall x, f x = false) -> count f l = 0%nat.
Proof. intros. apply count_none. auto. Qed.
Lemma hyper_count : forall A (f : A -> bool) l N k,
  count (fun S => Nat.eqb (count f S) k) (choose N l) =
  if Nat.leb k N then (binom (count f l) k * binom (List.length l - count f l) (N - k))%nat else 0%nat.
Proof.
  intros A f. induction l as [|a l IH]; intros N k.
  - destruct N as [|N]; cbn [choose].
    + destruct k; reflexivity.
    + destruct k as [|k]; [reflexivity|]. cbn [Nat.leb]. destruct (Nat.leb k N); reflexivity.
  - destruct N as [|N].
    + rewrite choose_0. destruct k; cbn [Nat.leb].
      * cbn [Nat.sub]. generalize (count f (a :: l)). intro c. generalize (List.length (a :: l) - c)%nat. intro d.
        destruct c, d; reflexivity.
      * reflexivity.
    + cbn [choose]. rewrite count_app, count_map'.
      pose proof (count_le_length _ f l) as CL. rewrite IH.
      destruct (f a) eqn:Fa.
      * assert (CC : count f (a :: l) = S (count f l)) by (rewrite count_cons, Fa; reflexivity).
        rewrite CC. cbn [List.length]. rewrite Nat.sub_succ.
        destruct k as [|k].
        -- rewrite count_false; [|intro x; rewrite count_cons, Fa; reflexivity].
           cbn [Nat.leb Nat.sub]. destruct (count f l); reflexivity.
        -- rewrite (count_ext _ _ (fun S => Nat.eqb (count f S) k)).
           2:{ intros S _. rewrite count_cons, Fa. reflexivity. }
           rewrite IH. cbn [Nat.leb]. rewrite Nat.sub_succ. cbn [binom]. destruct (Nat.leb_spec k N).
           ++ ring.
           ++ reflexivity.
      * assert (CC : count f (a :: l) = count f l) by (rewrite count_cons, Fa; reflexivity).
        rewrite CC. cbn [List.length]. rewrite (Nat.sub_succ_l _ _ CL).
        rewrite (count_ext _ _ (fun S => Nat.eqb (count f S) k)).
        2:{ intros S _. rewrite count_cons, Fa. reflexivity. }
        rewrite IH. destruct (Nat.leb_spec k N) as [L|L], (Nat.leb_spec k (S N)) as [L'|L']; try lia.
        -- rewrite (Nat.sub_succ_l _ _ L). cbn [binom]. ring.
        -- replace (S N - k)%nat with 0%nat by lia. destruct (List.length l - count f l)%nat; reflexivity.
Qed.
Lemma count_below : forall A (g : A -> nat) l x,
  count (fun a => Nat.ltb (g a) x) l = nsum (map (fun k => count (fun a => Nat.eqb (g a) k) l) (seq 0 x)).
Proof.
  intros A g l. induction x.
  - apply count_false. intro a. destruct (g a); reflexivity.
  - rewrite seq_S, map_app. change nsum with list_sum in *. rewrite list_sum_app. cbn [map list_sum fold_right].
    rewrite <- IHx, Nat.add_0_r. clear. induction l as [|a l IH]; [reflexivity|].
    rewrite !count_cons, IH. cbn [Nat.add].
    destruct (Nat.ltb_spec (g a) (S x)), (Nat.ltb_spec (g a) x), (Nat.eqb_spec (g a) x); lia.
Qed.
Lemma count_compl : forall A (g : A -> nat) l x,
  (count (fun a => Nat.ltb (g a) x) l + count (fun a => Nat.leb x (g a)) l = List.length l)%nat.
Proof.
  intros. induction l as [|a l IH]; [reflexivity|]. rewrite !count_cons. cbn [List.length].
  destruct (Nat.ltb_spec (g a) x), (Nat.leb_spec x (g a)); lia.
Qed.
Lemma Qsum_map_div : forall A (g : A -> nat) (d : Q) l, Qsum (map (fun a => Qnat (g a) / d) l) == Qnat (nsum (map g l)) / d.
Proof.
  intros A g d. induction l as [|a l IH].
  - cbn. unfold Qdiv. rewrite Qmult_0_l. reflexivity.
  - cbn [map Qsum nsum fold_right] in *. change (fold_right Qplus 0) with Qsum. change (fold_right Nat.add 0%nat) with nsum in *.
    rewrite IH, Qnat_plus. unfold Qdiv. ring.
Qed.
Lemma Qsum_map_ext' : forall A (f g : A -> Q) l, (forall x, In x l -> f x == g x) -> Qsum (map f l) == Qsum (map g l).
Proof.
  induction l as [|a l IH]; intros H; [reflexivity|]. cbn [map Qsum fold_right]. change (fold_right Qplus 0) with Qsum.
  rewrite (H a) by (left; auto). rewrite IH by (intros; apply H; right; auto). reflexivity.
Qed.
Lemma hg_tail : forall A (l : list A) (f : A -> bool) N x, (N <= List.length l)%nat ->
  1 - hg_cdf_below x (List.length l) (count f l) N == prob_at_least l f N x.
Proof.
  intros A l f N x H. unfold hg_cdf_below, prob_at_least.
  rewrite (Qsum_map_ext' _ _ (fun k => Qnat (count (fun S => Nat.eqb (count f S) k) (choose N l)) / Qnat (binom (List.length l) N))).
  - rewrite Qsum_map_div. rewrite <- (count_below _ (fun S => count f S)).
    pose proof (count_compl _ (fun S => count f S) (choose N l) x) as C. rewrite <- choose_length.
    assert (P : 0 < Qnat (List.length (choose N l))).
    { rewrite choose_length. apply Qlt_le_trans with (Qnat 1); [reflexivity|]. apply Qnat_le. pose proof (binom_pos _ _ H). lia. }
    rewrite <- C in *. rewrite Qnat_plus in *. field. lra.
  - intros k _. rewrite hyper_count. unfold hg_pmf. destruct (Nat.leb k N); [reflexivity|]. cbn. unfold Qdiv. rewrite Qmult_0_l. reflexivity.
Qed.
Lemma prob_range : forall A (l : list A) f N x, (N <= List.length l)%nat ->
  0 <= prob_at_least l f N x <= 1 /\ (x = 0%nat -> prob_at_least l f N x == 1).
Proof.
  intros A l f N x H. unfold prob_at_least.
  assert (P : 0 < Qnat (List.length (choose N l))).
  { rewrite choose_length. apply Qlt_le_trans with (Qnat 1); [reflexivity|]. apply Qnat_le. pose proof (binom_pos _ _ H). lia. }
  pose proof (count_le_length _ (fun S => Nat.leb x (count f S)) (choose N l)) as C. apply Qnat_le in C.
  split; [split|].
  - apply Qle_shift_div_l; auto. rewrite Qmult_0_l. apply Qnat_nonneg.
  - apply Qle_shift_div_r; auto. lra.
  - intros ->. rewrite count_all by reflexivity. field. lra.
Qed.
