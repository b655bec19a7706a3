(** Lemmas about the joint law of simulated points. *)
From Coq Require Import Reals ZArith QArith List Bool Arith Lia Lra Psatz.
From Verif Require Import Base BaseLemmas Quadrat_model Geometry_model Random_model Random_spec Random_proofs Joint_spec.
Import ListNotations.
Local Open Scope R_scope.

(** ** Rejection with a generator for each point *)
Fixpoint staged (ok : pt -> bool) (us : list Q) (mks : list (Q -> Q -> pt)) {struct us} : run (list pt) :=
  match mks with
  | [] => Val [] us
  | mk :: rest =>
      match us with
      | u :: v :: us' => if ok (mk u v) then rbind (staged ok us' rest) (fun l us'' => Val (mk u v :: l) us'') else staged ok us' mks
      | _ => Short
      end
  end.
Lemma staged_nil : forall ok us, staged ok us [] = Val [] us.
Proof. intros ok [|u [|v us]]; reflexivity. Qed.
Lemma staged_reject : forall mk ok us n, reject mk ok us n = staged ok us (repeat mk n).
Proof.
  intros mk ok. fix IH 1. intros [|u [|v us]] n.
  - destruct n; reflexivity.
  - destruct n; reflexivity.
  - destruct n as [|n]; [reflexivity|]. cbn [reject repeat staged]. rewrite (IH us n). destruct (ok (mk u v)); [reflexivity|]. exact (IH us (S n)).
Qed.
Lemma staged_app : forall ok us a b, staged ok us (a ++ b) = rbind (staged ok us a) (fun l us => rbind (staged ok us b) (fun l' us => Val (l ++ l') us)).
Proof.
  intros ok. fix IH 1. intros [|u [|v us]] a b.
  - destruct a as [|mk a]; cbn; [destruct b; reflexivity|reflexivity].
  - destruct a as [|mk a]; cbn; [destruct b; reflexivity|reflexivity].
  - destruct a as [|mk a].
    + rewrite staged_nil. cbn [app rbind]. destruct (staged ok (u :: v :: us) b); reflexivity.
    + cbn [app staged]. destruct (ok (mk u v)).
      * rewrite (IH us a b). destruct (staged ok us a) as [l us'| |]; cbn; try reflexivity. destruct (staged ok us' b); reflexivity.
      * exact (IH us (mk :: a) b).
Qed.
Definition stages (mk : nat -> Q -> Q -> pt) (n i s : nat) : list (Q -> Q -> pt) := concat (map (fun j => repeat (mk j) n) (seq i s)).
Lemma replicate_i_staged : forall mk ok n s i us,
  rbind (replicate_i (fun i us => reject (mk i) ok us n) i s us) (fun d us => Val (concat d) us) = staged ok us (stages mk n i s).
Proof.
  intros mk ok n. induction s as [|s IH]; intros i us; [rewrite staged_nil; reflexivity|].
  unfold stages. cbn [seq map concat]. rewrite staged_app, <- staged_reject. fold (stages mk n (S i) s). cbn [replicate_i].
  destruct (reject (mk i) ok us n) as [l us'| |]; cbn; try reflexivity. rewrite <- (IH (S i) us').
  destruct (replicate_i _ (S i) s us') as [d us''| |]; reflexivity.
Qed.
Lemma replicate_staged : forall mk ok n s us, rbind (replicate (fun us => reject mk ok us n) s us) (fun d us => Val (concat d) us) = staged ok us (repeat mk (s * n)).
Proof.
  intros mk ok n. induction s as [|s IH]; intro us; [rewrite staged_nil; reflexivity|].
  replace (S s * n)%nat with (n + s * n)%nat by lia. rewrite repeat_app, staged_app, <- staged_reject. cbn [replicate].
  destruct (reject mk ok us n) as [l us'| |]; cbn; try reflexivity. rewrite <- (IH us').
  destruct (replicate _ s us') as [d us''| |]; reflexivity.
Qed.

(** ** Expectations *)
Section Law.
Variables (G : list Q) (w : Q -> R).
Notation mean1 := (mean1 G w).
Notation mean := (mean G w).
Notation kept := (kept G w).
Lemma mean1_ext : forall F F', (forall u, F u = F' u) -> mean1 F = mean1 F'.
Proof. intros F F' H. unfold Joint_spec.mean1. f_equal. apply map_ext. intro u. rewrite H. reflexivity. Qed.
Lemma mean1_lin : forall a b F F', mean1 (fun u => a * F u + b * F' u) = a * mean1 F + b * mean1 F'.
Proof. intros a b F F'. unfold Joint_spec.mean1. induction G as [|u l IH]; cbn; [ring|]. rewrite IH. ring. Qed.
Lemma mean_ext : forall L F F', (forall us, F us = F' us) -> mean L F = mean L F'.
Proof. induction L as [|L IH]; intros F F' H; cbn; [apply H|]. apply mean1_ext. intro u. apply IH. intro us. apply H. Qed.
Lemma mean1_scale : forall c F, mean1 (fun u => c * F u) = c * mean1 F.
Proof. intros c F. rewrite (mean1_ext _ (fun u => c * F u + 0 * F u)) by (intro; ring). rewrite mean1_lin. ring. Qed.
Lemma mean_scale : forall L c F, mean L (fun us => c * F us) = c * mean L F.
Proof.
  induction L as [|L IH]; intros c F; cbn; [reflexivity|]. rewrite (mean1_ext _ (fun u => c * mean L (fun us => F (u :: us)))) by (intro u; apply IH). apply mean1_scale.
Qed.
Lemma mean_const : is_law G w -> forall L c, mean L (fun _ => c) = c.
Proof.
  intros [_ T]. induction L as [|L IH]; intro c; cbn; [reflexivity|]. rewrite (mean1_ext _ (fun u => c * 1)) by (intro u; rewrite IH; ring). rewrite mean1_scale, T. ring.
Qed.
Lemma mean1_le : is_law G w -> forall F F', (forall u, F u <= F' u) -> mean1 F <= mean1 F'.
Proof.
  intros [P _] F F' H. unfold Joint_spec.mean1. revert P. induction G as [|u l IH]; intro P; cbn; [lra|].
  apply Rplus_le_compat; [apply Rmult_le_compat_l; [apply P; left; reflexivity|apply H]|]. apply IH. intros x X. apply P. right. exact X.
Qed.
Lemma mean_le : is_law G w -> forall L F F', (forall us, F us <= F' us) -> mean L F <= mean L F'.
Proof. intros LW. induction L as [|L IH]; intros F F' H; cbn; [apply H|]. apply mean1_le; [exact LW|]. intro u. apply IH. intro us. apply H. Qed.
Lemma kept_range : is_law G w -> forall mk ok, 0 <= kept mk ok always <= 1.
Proof.
  intros LW mk ok. unfold Joint_spec.kept, always. pose proof LW as [_ T]. split.
  - assert (Z : mean1 (fun _ => 0) = 0) by (rewrite (mean1_ext _ (fun _ => 0 * 1)) by (intro; ring); rewrite mean1_scale; ring).
    rewrite <- Z at 1. apply mean1_le; [exact LW|]. intro u. rewrite <- Z at 1. apply mean1_le; [exact LW|]. intro v. destruct (ok _); lra.
  - apply Rle_trans with (mean1 (fun _ => 1)); [|rewrite T; apply Rle_refl]. apply mean1_le; [exact LW|]. intro u.
    apply Rle_trans with (mean1 (fun _ => 1)); [|rewrite T; apply Rle_refl]. apply mean1_le; [exact LW|]. intro v. destruct (ok _); lra.
Qed.

Definition chance (ok : pt -> bool) (L : nat) (mks : list (Q -> Q -> pt)) (fs : list (pt -> R)) : R :=
  mean (2 * L) (fun us => of_run (staged ok us mks) (prod_at fs)).
Lemma chance_nil : is_law G w -> forall ok L fs, chance ok L [] fs = 1.
Proof.
  intros LW ok L fs. unfold chance. rewrite <- (mean_const LW (2 * L) 1). apply mean_ext. intro us. rewrite staged_nil. unfold of_run, prod_at. destruct fs; reflexivity.
Qed.
Lemma chance_0 : forall ok mk mks fs, chance ok 0 (mk :: mks) fs = 0.
Proof. reflexivity. Qed.
Lemma chance_S : is_law G w -> forall ok L mk mks f fs,
  chance ok (S L) (mk :: mks) (f :: fs) = kept mk ok f * chance ok L mks fs + (1 - kept mk ok always) * chance ok L (mk :: mks) (f :: fs).
Proof.
  intros LW ok L mk mks f fs. unfold chance at 1. replace (2 * S L)%nat with (S (S (2 * L))) by lia. cbn [Joint_spec.mean].
  set (A := chance ok L mks fs). set (B := chance ok L (mk :: mks) (f :: fs)).
  assert (E : forall u v, mean (2 * L) (fun us => of_run (staged ok (u :: v :: us) (mk :: mks)) (prod_at (f :: fs))) =
    A * (if ok (mk u v) then f (mk u v) else 0) + B * (1 - (if ok (mk u v) then always (mk u v) else 0))).
  { intros u v. unfold always. destruct (ok (mk u v)) eqn:O.
    - rewrite (mean_ext _ _ (fun us => f (mk u v) * of_run (staged ok us mks) (prod_at fs))).
      + rewrite mean_scale. unfold A, chance. ring.
      + intro us. cbn [staged]. rewrite O. destruct (staged ok us mks) as [l r| |]; cbn; unfold prod_at, prod; cbn; ring.
    - rewrite (mean_ext _ _ (fun us => of_run (staged ok us (mk :: mks)) (prod_at (f :: fs)))); [unfold B, chance; ring|]. intro us. cbn [staged]. rewrite O. reflexivity. }
  pose proof LW as [_ T].
  rewrite (mean1_ext _ (fun u => A * mean1 (fun v => if ok (mk u v) then f (mk u v) else 0) + B * mean1 (fun v => 1 - (if ok (mk u v) then always (mk u v) else 0)))).
  - rewrite mean1_lin. fold (kept mk ok f). rewrite (mean1_ext (fun u => mean1 (fun v => 1 - _)) (fun u => 1 * 1 + (-1) * mean1 (fun v => if ok (mk u v) then always (mk u v) else 0))).
    + rewrite mean1_lin, T. fold (kept mk ok always). ring.
    + intro u. rewrite (mean1_ext _ (fun v => 1 * 1 + (-1) * (if ok (mk u v) then always (mk u v) else 0))) by (intro; ring). rewrite mean1_lin, T. ring.
  - intro u. rewrite (mean1_ext _ _ (E u)). apply mean1_lin.
Qed.
(** Positions and waiting times are independent. *)
Lemma chance_product : is_law G w -> forall ok L mks fs, length fs = length mks ->
  chance ok L mks fs * prod (map (fun mk => kept mk ok always) mks) =
  prod (map (fun mf => kept (fst mf) ok (snd mf)) (combine mks fs)) * chance ok L mks (map (fun _ => always) mks).
Proof.
  intros LW ok. induction L as [|L IH]; intros mks fs E.
  - destruct mks as [|mk mks]; destruct fs as [|f fs]; try discriminate; [rewrite !chance_nil by exact LW; unfold prod; cbn; ring|]. cbn [map]. rewrite !chance_0. ring.
  - destruct mks as [|mk mks]; destruct fs as [|f fs]; try discriminate; [rewrite !chance_nil by exact LW; unfold prod; cbn; ring|].
    pose proof (IH (mk :: mks) (f :: fs) E) as I1. cbn in E. pose proof (IH mks fs ltac:(lia)) as I2. cbn [map] in *. rewrite !chance_S by exact LW.
    unfold prod in *. cbn [combine map fold_right fst snd] in *.
    set (A := kept mk ok always) in *. set (K := kept mk ok f) in *. set (PA := fold_right Rmult 1 (map (fun mk0 => kept mk0 ok always) mks)) in *.
    set (PK := fold_right Rmult 1 (map (fun mf => kept (fst mf) ok (snd mf)) (combine mks fs))) in *.
    set (c1 := chance ok L mks fs) in *. set (c2 := chance ok L (mk :: mks) (f :: fs)) in *. set (c3 := chance ok L mks (map (fun _ => always) mks)) in *. set (c4 := chance ok L (mk :: mks) (always :: map (fun _ => always) mks)) in *.
    replace ((K * c1 + (1 - A) * c2) * (A * PA)) with (K * A * (c1 * PA) + (1 - A) * (c2 * (A * PA))) by ring. rewrite I1, I2. ring.
Qed.
Definition finish (ok : pt -> bool) (L : nat) (mks : list (Q -> Q -> pt)) : R := chance ok L mks (map (fun _ => always) mks).
Lemma finish_S : is_law G w -> forall ok L mk mks, finish ok (S L) (mk :: mks) = kept mk ok always * finish ok L mks + (1 - kept mk ok always) * finish ok L (mk :: mks).
Proof. intros LW ok L mk mks. unfold finish. cbn [map]. apply chance_S. exact LW. Qed.
Lemma finish_nonneg : is_law G w -> forall ok L mks, 0 <= finish ok L mks.
Proof.
  intros LW ok. induction L as [|L IH]; intros [|mk mks]; try (unfold finish; cbn [map]; rewrite chance_nil by exact LW; lra); [unfold finish; cbn [map]; rewrite chance_0; lra|].
  rewrite finish_S by exact LW. destruct (kept_range LW mk ok) as [A B]. pose proof (IH mks). pose proof (IH (mk :: mks)). apply Rplus_le_le_0_compat; apply Rmult_le_pos; lra.
Qed.
Lemma finish_mono : is_law G w -> forall ok L mks, finish ok L mks <= finish ok (S L) mks.
Proof.
  intros LW ok. induction L as [|L IH]; intros [|mk mks]; try (unfold finish; cbn [map]; rewrite !chance_nil by exact LW; lra).
  - pose proof (finish_nonneg LW ok 1 (mk :: mks)). unfold finish in *. cbn [map] in *. rewrite chance_0. lra.
  - eapply Rle_trans; [right; apply (finish_S LW ok L)|]. eapply Rle_trans; [|right; symmetry; apply (finish_S LW ok (S L))]. destruct (kept_range LW mk ok) as [A B]. apply Rplus_le_compat; apply Rmult_le_compat_l; try lra; apply IH.
Qed.
Lemma finish_more : is_law G w -> forall ok L m mks, finish ok L mks <= finish ok (m + L) mks.
Proof. intros LW ok L m mks. induction m as [|m IH]; cbn [Nat.add]; [lra|]. eapply Rle_trans; [exact IH|]. apply finish_mono. exact LW. Qed.
Lemma finish_first : is_law G w -> forall ok m L mk mks, (1 - (1 - kept mk ok always) ^ m) * finish ok L mks <= finish ok (m + L) (mk :: mks).
Proof.
  intros LW ok m L mk mks. set (a := kept mk ok always). destruct (kept_range LW mk ok) as [A B]. fold a in A, B. induction m as [|m IH].
  - cbn [pow Nat.add]. pose proof (finish_nonneg LW ok L (mk :: mks)). lra.
  - cbn [Nat.add]. rewrite finish_S by exact LW. fold a. pose proof (finish_more LW ok L m mks) as M.
    assert (H1 : a * finish ok L mks <= a * finish ok (m + L) mks) by (apply Rmult_le_compat_l; lra).
    assert (H2 : (1 - a) * ((1 - (1 - a) ^ m) * finish ok L mks) <= (1 - a) * finish ok (m + L) (mk :: mks)) by (apply Rmult_le_compat_l; lra).
    cbn [pow]. replace ((1 - (1 - a) * (1 - a) ^ m) * finish ok L mks) with (a * finish ok L mks + (1 - a) * ((1 - (1 - a) ^ m) * finish ok L mks)) by ring. lra.
Qed.
Lemma pow_unit : forall x m, 0 <= x <= 1 -> 0 <= x ^ m <= 1.
Proof. intros x m X. split; [apply pow_le; lra|]. rewrite <- (pow1 m). apply pow_incr. exact X. Qed.
Lemma finish_all : is_law G w -> forall ok m mks, prod (map (fun mk => 1 - (1 - kept mk ok always) ^ m) mks) <= finish ok (length mks * m) mks.
Proof.
  intros LW ok m. induction mks as [|mk mks IH]; [unfold finish, prod; cbn [map fold_right]; rewrite chance_nil by exact LW; lra|].
  cbn [length Nat.mul]. eapply Rle_trans; [|apply finish_first; exact LW]. unfold prod in *. cbn [map fold_right]. apply Rmult_le_compat_l; [|exact IH].
  destruct (kept_range LW mk ok) as [A B]. pose proof (pow_unit (1 - kept mk ok always) m ltac:(lra)). lra.
Qed.
Lemma prod_repeat : forall x n, prod (repeat x n) = x ^ n.
Proof. intros x n. unfold prod. induction n as [|n IH]; cbn; [reflexivity|]. rewrite IH. reflexivity. Qed.
Lemma map_repeat' : forall (A B : Type) (f : A -> B) x n, map f (repeat x n) = repeat (f x) n.
Proof. intros A B f x n. induction n as [|n IH]; cbn; [reflexivity|]. rewrite IH. reflexivity. Qed.
Lemma bernoulli : forall x n, 0 <= x <= 1 -> 1 - INR n * x <= (1 - x) ^ n.
Proof.
  intros x n X. induction n as [|n IH]; [cbn; lra|]. rewrite S_INR. cbn [pow]. pose proof (pos_INR n). assert (0 <= (1 - x) ^ n) by (apply pow_le; lra). nra.
Qed.
Lemma finish_always : is_law G w -> forall ok L mks, finish ok L mks = mean (2 * L) (fun us => of_run (staged ok us mks) always).
Proof.
  intros LW ok L mks. unfold finish, chance. apply mean_ext. intro us. destruct (staged ok us mks) as [l r| |]; cbn; try reflexivity.
  unfold prod_at, prod, always. clear. revert l. induction mks as [|mk mks IH]; intros [|p l]; cbn; try reflexivity. rewrite IH. ring.
Qed.
Lemma finish_le_1 : is_law G w -> forall ok L mks, finish ok L mks <= 1.
Proof.
  intros LW ok L mks. rewrite finish_always by exact LW. rewrite <- (mean_const LW (2 * L) 1). apply mean_le; [exact LW|]. intro us. destruct (staged ok us mks); cbn; unfold always; lra.
Qed.
End Law.

(** ** How many numbers are used *)
Section Used.
Variables (G : list Q) (w : Q -> R).
Notation mean1 := (mean1 G w).
Notation mean := (mean G w).
Notation kept := (kept G w).
Definition cost (ok : pt -> bool) (L : nat) (mks : list (Q -> Q -> pt)) : R := mean (2 * L) (fun us => used us (staged ok us mks)).
Lemma mean_plus : forall L c F, is_law G w -> mean L (fun us => c + F us) = c + mean L F.
Proof.
  intros L c F LW. revert F. induction L as [|L IH]; intro F; cbn; [reflexivity|].
  rewrite (mean1_ext _ _ _ (fun u => c * 1 + 1 * mean L (fun us => F (u :: us)))) by (intro u; rewrite IH; ring). rewrite mean1_lin. destruct LW as [_ T]. rewrite T. ring.
Qed.
Lemma cost_nil : is_law G w -> forall ok L, cost ok L [] = 0.
Proof. intros LW ok L. unfold cost. rewrite <- (mean_const G w LW (2 * L) 0). apply mean_ext. intro us. rewrite staged_nil. cbn. ring. Qed.
Lemma cost_0 : forall ok mks, cost ok 0 mks = 0.
Proof. intros ok [|mk mks]; unfold cost; cbn; ring. Qed.
Lemma cost_S : is_law G w -> forall ok L mk mks,
  cost ok (S L) (mk :: mks) = 2 + kept mk ok always * cost ok L mks + (1 - kept mk ok always) * cost ok L (mk :: mks).
Proof.
  intros LW ok L mk mks. unfold cost at 1. replace (2 * S L)%nat with (S (S (2 * L))) by lia. cbn [Joint_spec.mean].
  set (A := cost ok L mks). set (B := cost ok L (mk :: mks)).
  assert (E : forall u v, mean (2 * L) (fun us => used (u :: v :: us) (staged ok (u :: v :: us) (mk :: mks))) =
    (2 + B) * 1 + (A - B) * (if ok (mk u v) then always (mk u v) else 0)).
  { intros u v. unfold always. cbn [staged]. destruct (ok (mk u v)) eqn:O.
    - rewrite (mean_ext _ _ _ _ (fun us => 2 + used us (staged ok us mks))).
      + rewrite mean_plus by exact LW. unfold A, cost. ring.
      + intro us. destruct (staged ok us mks) as [l r| |]; unfold used; cbn [rbind List.length]; rewrite !S_INR; ring.
    - rewrite (mean_ext _ _ _ _ (fun us => 2 + used us (staged ok us (mk :: mks)))).
      + rewrite mean_plus by exact LW. unfold B, cost. ring.
      + intro us. destruct (staged ok us (mk :: mks)) as [l r| |]; unfold used; cbn [List.length]; rewrite !S_INR; ring. }
  pose proof LW as [_ T].
  rewrite (mean1_ext _ _ _ (fun u => (2 + B) * 1 + (A - B) * mean1 (fun v => if ok (mk u v) then always (mk u v) else 0))).
  - rewrite mean1_lin, T. fold (kept mk ok always). ring.
  - intro u. rewrite (mean1_ext _ _ _ _ (E u)). rewrite mean1_lin, T. ring.
Qed.
(** The chances of finding the first point, the first two, ... *)
Fixpoint found (ok : pt -> bool) (L : nat) (mk : Q -> Q -> pt) (N : nat) : R :=
  match N with O => 0 | S N' => finish G w ok L (repeat mk (S N')) + found ok L mk N' end.
Lemma found_S : is_law G w -> forall ok L mk N,
  found ok (S L) mk (S N) = kept mk ok always * (1 + found ok L mk N) + (1 - kept mk ok always) * found ok L mk (S N).
Proof.
  intros LW ok L mk. induction N as [|N IH].
  - cbn [found repeat]. rewrite finish_S by exact LW. unfold finish at 1. cbn [map]. rewrite chance_nil by exact LW. ring.
  - cbn [found] in *. cbn [repeat] in *. rewrite finish_S by exact LW. rewrite IH. ring.
Qed.
Lemma found_0 : forall ok mk N, found ok 0 mk N = 0.
Proof. intros ok mk. induction N as [|N IH]; cbn [found]; [reflexivity|]. rewrite IH. unfold finish. cbn [repeat map]. rewrite chance_0. ring. Qed.
Lemma cost_found : is_law G w -> forall ok mk L N, kept mk ok always * cost ok L (repeat mk N) = 2 * found ok L mk N.
Proof.
  intros LW ok mk. induction L as [|L IH]; intros [|N]; try (cbn [repeat found]; rewrite cost_nil by exact LW; ring).
  - rewrite cost_0, found_0. ring.
  - cbn [repeat]. rewrite cost_S by exact LW. rewrite found_S by exact LW. set (a := kept mk ok always) in *.
    pose proof (IH N) as I1. pose proof (IH (S N)) as I2. cbn [repeat] in I2.
    replace (a * (2 + a * cost ok L (repeat mk N) + (1 - a) * cost ok L (mk :: repeat mk N))) with (2 * a + a * (a * cost ok L (repeat mk N)) + (1 - a) * (a * cost ok L (mk :: repeat mk N))) by ring.
    rewrite I1, I2. ring.
Qed.
Lemma found_le : is_law G w -> forall ok L mk N, found ok L mk N <= INR N.
Proof. intros LW ok L mk. induction N as [|N IH]; [cbn; lra|]. rewrite S_INR. cbn [found]. pose proof (finish_le_1 G w LW ok L (repeat mk (S N))). lra. Qed.
Lemma finish_decr : is_law G w -> forall ok mk L N, finish G w ok L (repeat mk (S N)) <= finish G w ok L (repeat mk N).
Proof.
  intros LW ok mk. induction L as [|L IH]; intro N.
  - unfold finish at 1. cbn [repeat map]. rewrite chance_0. apply finish_nonneg. exact LW.
  - destruct N as [|N]; [cbn [repeat]; pose proof (finish_le_1 G w LW ok (S L) [mk]); unfold finish at 2; cbn [map]; rewrite chance_nil by exact LW; lra|].
    cbn [repeat]. eapply Rle_trans; [right; apply finish_S; exact LW|]. eapply Rle_trans; [|right; symmetry; apply finish_S; exact LW].
    destruct (kept_range G w LW mk ok) as [A B]. apply Rplus_le_compat; apply Rmult_le_compat_l; try lra; [apply (IH N)|apply (IH (S N))].
Qed.
Lemma found_ge : is_law G w -> forall ok L mk N, INR N * finish G w ok L (repeat mk N) <= found ok L mk N.
Proof.
  intros LW ok L mk. induction N as [|N IH]; [cbn; lra|]. rewrite S_INR. cbn [found]. pose proof (finish_decr LW ok mk L N) as D. pose proof (pos_INR N) as P.
  assert (INR N * finish G w ok L (repeat mk (S N)) <= INR N * finish G w ok L (repeat mk N)) by (apply Rmult_le_compat_l; assumption). lra.
Qed.
(** With enough numbers the points are almost surely found. *)
Lemma finish_limit : is_law G w -> forall ok mk N, 0 < kept mk ok always -> forall eps, 0 < eps ->
  exists L0, forall L, (L0 <= L)%nat -> 1 - eps <= finish G w ok L (repeat mk N).
Proof.
  intros LW ok mk N A eps E. destruct (kept_range G w LW mk ok) as [_ B]. set (a := kept mk ok always) in *.
  assert (D : 0 < eps / (INR N + 1)) by (apply Rdiv_lt_0_compat; [exact E|pose proof (pos_INR N); lra]).
  destruct (pow_lt_1_zero (1 - a) ltac:(rewrite Rabs_pos_eq; lra) _ D) as [m M]. specialize (M m (le_n m)).
  pose proof (pow_unit (1 - a) m ltac:(lra)) as U. rewrite Rabs_pos_eq in M by lra.
  exists (N * m)%nat. intros L HL. replace L with ((L - N * m) + N * m)%nat by lia. eapply Rle_trans; [|apply finish_more; exact LW].
  pose proof (finish_all G w LW ok m (repeat mk N)) as F. rewrite repeat_length, map_repeat', prod_repeat in F. fold a in F. eapply Rle_trans; [|exact F].
  eapply Rle_trans; [|apply bernoulli; exact U]. pose proof (pos_INR N) as P.
  assert (INR N * (1 - a) ^ m <= INR N * (eps / (INR N + 1))) by (apply Rmult_le_compat_l; lra).
  assert (INR N * (eps / (INR N + 1)) <= eps).
  { replace (INR N * (eps / (INR N + 1))) with (eps * INR N / (INR N + 1)) by (field; lra). apply Rmult_le_reg_r with (INR N + 1); [lra|]. unfold Rdiv. rewrite Rmult_assoc, Rinv_l by lra. nra. }
  lra.
Qed.
Lemma finish_never : is_law G w -> forall ok mk mks L, kept mk ok always = 0 -> finish G w ok L (mk :: mks) = 0.
Proof.
  intros LW ok mk mks L A. induction L as [|L IH]; [reflexivity|]. rewrite finish_S by exact LW. rewrite A, IH. ring.
Qed.
Lemma staged_length : forall ok us mks l rest, staged ok us mks = Val l rest -> List.length l = List.length mks.
Proof.
  intro ok. fix IH 1. intros [|u [|v us]] [|mk mks] l rest H; try (cbn in H; injection H as <- <-; reflexivity); try discriminate.
  cbn [staged] in H. destruct (ok (mk u v)); [|exact (IH _ _ _ _ H)].
  apply rbind_val in H. destruct H as [l' [us' [H1 H2]]]. injection H2 as <- <-. cbn. f_equal. exact (IH _ _ _ _ H1).
Qed.
End Used.

(** ** The simulators *)
Lemma poisson_staged : forall h i sz n s it, parse_size_and_intensity h i sz = Ok (n, s, it) -> (0 <= n)%Z -> (0 <= s)%Z ->
  forall us, rbind (poisson h i sz us) (fun a us => Val (arr_points a) us) =
    staged (h_contains h) us (repeat (box_candidate (h_bbox h)) (Z.to_nat s * Z.to_nat n)).
Proof.
  intros h i sz n s it P Hn Hs us. rewrite <- replicate_staged. unfold poisson. rewrite P. cbn [lift rbind]. unfold alloc.
  destruct (Z.ltb_spec n 0); [lia|]. destruct (Z.ltb_spec s 0); [lia|]. cbn [orb lift rbind].
  destruct (replicate _ (Z.to_nat s) us) as [d r| |] eqn:E; cbn [rbind]; try reflexivity.
  apply (replicate_sound (fun l => List.length l = Z.to_nat n)) in E.
  - destruct E as [L F]. destruct (squeeze_points _ _ _ L F) as [-> _]. reflexivity.
  - intros us' l r' X. apply reject_sound in X. apply X.
Qed.
Lemma normal_staged : forall h mk c sz n s it, parse_size_and_intensity h None sz = Ok (n, s, it) -> (0 <= n)%Z -> (0 <= s)%Z -> check_cov c s = Ok tt ->
  forall us, rbind (normal h mk c sz us) (fun a us => Val (arr_points a) us) =
    staged (h_contains h) us (stages mk (Z.to_nat n) 0 (Z.to_nat s)).
Proof.
  intros h mk c sz n s it P Hn Hs C us. rewrite <- replicate_i_staged. unfold normal. rewrite P. cbn [lift rbind]. rewrite C. cbn [lift rbind]. unfold alloc.
  destruct (Z.ltb_spec n 0); [lia|]. destruct (Z.ltb_spec s 0); [lia|]. cbn [orb lift rbind].
  destruct (replicate_i _ 0 (Z.to_nat s) us) as [d r| |] eqn:E; cbn [rbind]; try reflexivity.
  apply (replicate_i_sound (fun l => List.length l = Z.to_nat n)) in E.
  - destruct E as [L F]. destruct (squeeze_points _ _ _ L F) as [-> _]. reflexivity.
  - intros j us' l r' X. apply reject_sound in X. apply X.
Qed.
Lemma of_run_points : forall (r : run arr) (F : list pt -> R), of_run r (fun a => F (arr_points a)) = of_run (rbind r (fun a us => Val (arr_points a) us)) F.
Proof. intros [a us|e|] F; reflexivity. Qed.
Lemma used_points : forall us (r : run arr), used us r = used us (rbind r (fun a us => Val (arr_points a) us)).
Proof. intros us [a r|e|]; reflexivity. Qed.
Lemma prod_app : forall a b, prod (a ++ b) = prod a * prod b.
Proof. unfold prod. induction a as [|x a IH]; intro b; cbn; [ring|]. rewrite IH. ring. Qed.
