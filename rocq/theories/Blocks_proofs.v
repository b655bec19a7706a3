(** Lemmas about samplers that draw blocks of candidates. *)
From Coq Require Import Reals ZArith QArith List Bool Arith Lia Lra Psatz Setoid.
From Verif Require Import Base BaseLemmas Quadrat_model Geometry_model Random_model Random_spec Random_proofs Process_model Joint_spec Joint_proofs Blocks_spec.
Import ListNotations.
Local Open Scope R_scope.

Definition of_run2 {A : Type} (r : run A) (F : A -> list Q -> R) : R := match r with Val a us => F a us | _ => 0 end.

Lemma draw_block_ok : forall k us, (k <= List.length us)%nat -> draw_block k us = Val (firstn k us) (skipn k us).
Proof. induction k as [|k IH]; intros us H; [reflexivity|]. destruct us as [|u us]; cbn in H; [lia|]. cbn. rewrite IH by lia. reflexivity. Qed.
Lemma draw_block_short : forall k us, (List.length us < k)%nat -> draw_block k us = Short.
Proof. induction k as [|k IH]; intros us H; [lia|]. destruct us as [|u us]; [reflexivity|]. cbn in H. cbn. rewrite IH by lia. reflexivity. Qed.

(** The points accepted in a block of k candidates, and the sampler without an accumulator. *)
Definition accepted (mk : Q -> Q -> pt) (ok : pt -> bool) (ps : list (Q * Q)) : list pt := filter ok (map (fun uv => mk (fst uv) (snd uv)) ps).
Fixpoint blocks (fuel : nat) (mk : Q -> Q -> pt) (ok : pt -> bool) (k need : nat) (us : list Q) : run (list pt) :=
  match need with
  | O => Val [] us
  | S _ =>
      match fuel with
      | O => Short
      | S fuel' =>
          if Nat.ltb (List.length us) (k + k) then Short else
          let a := accepted mk ok (combine (firstn k us) (firstn k (skipn k us))) in
          let rest := skipn (k + k) us in
          if Nat.leb need (List.length a) then Val (firstn need a) rest
          else rbind (blocks fuel' mk ok k (need - List.length a) rest) (fun l us => Val (a ++ l) us)
      end
  end.
Lemma blocks_length : forall fuel mk ok k need us l rest, blocks fuel mk ok k need us = Val l rest -> List.length l = need.
Proof.
  induction fuel as [|f IH]; intros mk ok k need us l rest H; destruct need as [|m]; cbn [blocks] in H; try discriminate; try (injection H as <- <-; reflexivity).
  destruct (Nat.ltb _ _); [discriminate|]. cbv zeta in H. destruct (Nat.leb_spec (S m) (List.length (accepted mk ok (combine (firstn k us) (firstn k (skipn k us)))))) as [E|E].
  - injection H as <- <-. exact (firstn_length_le _ E).
  - apply rbind_val in H. destruct H as (l' & us' & H1 & H2). injection H2 as <- <-. apply IH in H1. rewrite app_length, H1. lia.
Qed.

(** ** Expectations over blocks *)
Section Law.
Variables (G : list Q) (w : Q -> R).
Notation mean1 := (mean1 G w).
Notation mean := (mean G w).
Notation kept := (kept G w).
Lemma mean_ext_len : forall L F F', (forall us, List.length us = L -> F us = F' us) -> mean L F = mean L F'.
Proof. induction L as [|L IH]; intros F F' H; cbn; [apply H; reflexivity|]. apply mean1_ext. intro u. apply IH. intros us E. apply H. cbn. rewrite E. reflexivity. Qed.
Lemma mean_app : forall a b F, mean (a + b) F = mean a (fun x => mean b (fun y => F (x ++ y))).
Proof. induction a as [|a IH]; intros b F; cbn; [reflexivity|]. apply mean1_ext. intro u. apply IH. Qed.
Lemma mean1_zero : mean1 (fun _ => 0) = 0.
Proof. rewrite (mean1_ext _ _ _ (fun _ => 0 * 0)) by (intro; ring). rewrite mean1_scale. ring. Qed.
Lemma mean1_swap1 : forall H : Q -> Q -> R, mean1 (fun u => mean1 (fun v => H u v)) = mean1 (fun v => mean1 (fun u => H u v)).
Proof.
  intro H. unfold Joint_spec.mean1. generalize G at 2 3 as G1. induction G1 as [|g G1 IH]; cbn [map fold_right].
  - induction G as [|v l I]; cbn; [reflexivity|]. rewrite <- I. ring.
  - rewrite IH. clear IH. generalize G. induction G0 as [|v l I]; cbn [map fold_right]; [ring|]. rewrite <- I. ring.
Qed.
Lemma mean1_swap : forall L (H : Q -> list Q -> R), mean1 (fun u => mean L (fun us => H u us)) = mean L (fun us => mean1 (fun u => H u us)).
Proof.
  induction L as [|L IH]; intro H; cbn; [reflexivity|]. rewrite mean1_swap1. apply mean1_ext. intro v. apply (IH (fun u us => H u (v :: us))).
Qed.
(** Expectation over k pairs of numbers. *)
Fixpoint pmean (k : nat) (H : list (Q * Q) -> R) : R :=
  match k with O => H [] | S k' => mean1 (fun u => mean1 (fun v => pmean k' (fun l => H ((u, v) :: l)))) end.
Lemma mean_pairs : forall k H, mean k (fun xs => mean k (fun ys => H (combine xs ys))) = pmean k H.
Proof.
  induction k as [|k IH]; intro H; [reflexivity|]. cbn [Joint_spec.mean pmean]. apply mean1_ext. intro u.
  rewrite <- (mean1_swap k (fun v xs => mean k (fun ys => H (combine (u :: xs) (v :: ys))))). apply mean1_ext. intro v. cbn [combine]. apply (IH (fun l => H ((u, v) :: l))).
Qed.
Lemma pmean_ext : forall k H H', (forall l, H l = H' l) -> pmean k H = pmean k H'.
Proof. induction k as [|k IH]; intros H H' E; cbn; [apply E|]. apply mean1_ext. intro u. apply mean1_ext. intro v. apply IH. intro l. apply E. Qed.
Lemma pmean_scale : forall k c H, pmean k (fun l => c * H l) = c * pmean k H.
Proof.
  induction k as [|k IH]; intros c H; cbn; [reflexivity|]. rewrite <- mean1_scale. apply mean1_ext. intro u. rewrite <- mean1_scale. apply mean1_ext. intro v. apply (IH c (fun l => H ((u, v) :: l))).
Qed.
Lemma pmean_le : is_law G w -> forall k H H', (forall l, List.length l = k -> H l <= H' l) -> pmean k H <= pmean k H'.
Proof.
  intro LW. induction k as [|k IH]; intros H H' E; cbn; [apply E; reflexivity|]. apply mean1_le; [exact LW|]. intro u. apply mean1_le; [exact LW|]. intro v. apply IH. intros l X. apply E. cbn. rewrite X. reflexivity.
Qed.
Lemma pmean_const : is_law G w -> forall k c, pmean k (fun _ => c) = c.
Proof.
  intros [_ T] . induction k as [|k IH]; intro c; cbn; [reflexivity|]. rewrite (mean1_ext _ _ _ (fun u => c * 1)); [rewrite mean1_scale, T; ring|]. intro u.
  rewrite (mean1_ext _ _ _ (fun v => c * 1)) by (intro v; rewrite IH; ring). rewrite mean1_scale, T. ring.
Qed.
(** Splitting on the first candidate. *)
Lemma pmean_first : is_law G w -> forall mk ok k f A B, (forall u v, ok (mk u v) = true -> pmean k (fun l => A u v l) = f (mk u v) * B) ->
  forall C, (forall u v, ok (mk u v) = false -> pmean k (fun l => A u v l) = C) ->
  mean1 (fun u => mean1 (fun v => pmean k (fun l => A u v l))) = kept mk ok f * B + (1 - kept mk ok always) * C.
Proof.
  intros LW mk ok k f A B HB C HC. pose proof LW as [_ T].
  rewrite (mean1_ext _ _ _ (fun u => B * mean1 (fun v => if ok (mk u v) then f (mk u v) else 0) + C * (1 - mean1 (fun v => if ok (mk u v) then always (mk u v) else 0)))).
  - rewrite mean1_lin. fold (kept mk ok f). rewrite (mean1_ext _ _ (fun u => 1 - _) (fun u => 1 * 1 + (-1) * mean1 (fun v => if ok (mk u v) then always (mk u v) else 0))) by (intro; ring).
    rewrite mean1_lin, T. fold (kept mk ok always). ring.
  - intro u. rewrite (mean1_ext _ _ _ (fun v => B * (if ok (mk u v) then f (mk u v) else 0) + C * (1 - (if ok (mk u v) then always (mk u v) else 0)))).
    + rewrite mean1_lin. rewrite (mean1_ext _ _ (fun v => 1 - _) (fun v => 1 * 1 + (-1) * (if ok (mk u v) then always (mk u v) else 0))) by (intro; ring). rewrite mean1_lin, T. ring.
    + intro v. destruct (ok (mk u v)) eqn:E; [rewrite (HB u v E); unfold always; ring|rewrite (HC u v E); ring].
Qed.
Definition constant (x : R) (_ : pt) : R := x.
Lemma kept_constant : forall mk ok x, kept mk ok (constant x) = x * kept mk ok always.
Proof.
  intros mk ok x. unfold Joint_spec.kept. rewrite <- mean1_scale. apply mean1_ext. intro u. rewrite <- mean1_scale. apply mean1_ext. intro v. unfold constant, always. destruct (ok _); ring.
Qed.
Definition shares (mk : Q -> Q -> pt) (ok : pt -> bool) (fs : list (pt -> R)) : list (pt -> R) := map (fun f => constant (share G w mk ok f)) fs.
Lemma share_kept : forall mk ok f, kept mk ok always <> 0 -> kept mk ok (constant (share G w mk ok f)) = kept mk ok f.
Proof. intros mk ok f A. rewrite kept_constant. unfold share. field. exact A. Qed.
(** In one block each function can be replaced by its expectation given acceptance. *)
Lemma block_replace : is_law G w -> forall mk ok, kept mk ok always <> 0 -> forall k fs (X : nat -> R),
  pmean k (fun ps => prod_at fs (accepted mk ok ps) * X (List.length (accepted mk ok ps))) =
  pmean k (fun ps => prod_at (shares mk ok fs) (accepted mk ok ps) * X (List.length (accepted mk ok ps))).
Proof.
  intros LW mk ok A. induction k as [|k IH]; intros fs X.
  - cbn. destruct fs; reflexivity.
  - cbn [pmean]. destruct fs as [|f fs]; [reflexivity|].
    rewrite (pmean_first LW mk ok k f _ (pmean k (fun l => prod_at fs (accepted mk ok l) * X (S (List.length (accepted mk ok l)))))) with
      (C := pmean k (fun l => prod_at (f :: fs) (accepted mk ok l) * X (List.length (accepted mk ok l)))).
    + rewrite (pmean_first LW mk ok k (constant (share G w mk ok f)) _ (pmean k (fun l => prod_at (shares mk ok fs) (accepted mk ok l) * X (S (List.length (accepted mk ok l)))))) with
        (C := pmean k (fun l => prod_at (shares mk ok (f :: fs)) (accepted mk ok l) * X (List.length (accepted mk ok l)))).
      * rewrite share_kept by exact A. rewrite <- (IH fs (fun m => X (S m))), <- (IH (f :: fs) X). reflexivity.
      * intros u v E. rewrite <- pmean_scale. apply pmean_ext. intro l. unfold accepted. cbn [map filter fst snd]. rewrite E. unfold shares, prod_at, prod. cbn. ring.
      * intros u v E. apply pmean_ext. intro l. unfold accepted. cbn [map filter fst snd]. rewrite E. reflexivity.
    + intros u v E. rewrite <- pmean_scale. apply pmean_ext. intro l. unfold accepted. cbn [map filter fst snd]. rewrite E. unfold prod_at, prod. cbn. ring.
    + intros u v E. apply pmean_ext. intro l. unfold accepted. cbn [map filter fst snd]. rewrite E. reflexivity.
Qed.
Lemma combine_firstn_l' : forall (A B : Type) (fs : list A) (l : list B), combine fs l = combine (firstn (List.length l) fs) l.
Proof. intros A B fs. induction fs as [|f fs IH]; intros [|p l]; cbn; try reflexivity. rewrite <- IH. reflexivity. Qed.
Lemma prod_at_app : forall fs a l, prod_at fs (a ++ l) = prod_at fs a * prod_at (skipn (List.length a) fs) l.
Proof.
  intros fs a. revert fs. induction a as [|p a IH]; intros fs l; [unfold prod_at, prod; destruct fs; cbn; ring|]. destruct fs as [|f fs]; [unfold prod_at, prod; cbn; ring|].
  specialize (IH fs l). unfold prod_at, prod in *. cbn. rewrite IH. ring.
Qed.
Lemma prod_at_firstn : forall fs a n, List.length fs = n -> prod_at fs (firstn n a) = prod_at fs a.
Proof.
  intros fs. induction fs as [|f fs IH]; intros a n E; cbn in E; subst n; [reflexivity|]. destruct a as [|p a]; [reflexivity|]. specialize (IH a _ eq_refl). unfold prod_at, prod in *. cbn. rewrite IH. reflexivity.
Qed.
Lemma skipn_shares : forall mk ok m fs, skipn m (shares mk ok fs) = shares mk ok (skipn m fs).
Proof. intros mk ok m fs. unfold shares. apply skipn_map. Qed.
Lemma split3 : forall (xs ys us : list Q) k, List.length xs = k -> List.length ys = k ->
  firstn k (xs ++ ys ++ us) = xs /\ firstn k (skipn k (xs ++ ys ++ us)) = ys /\ skipn (k + k) (xs ++ ys ++ us) = us.
Proof.
  intros xs ys us k X Y. assert (FA : forall (a b : list Q), firstn (List.length a) (a ++ b) = a) by (induction a as [|q a I]; intro b; cbn; [reflexivity|rewrite I; reflexivity]).
  assert (SA : forall (a b : list Q), skipn (List.length a) (a ++ b) = b) by (induction a as [|q a I]; intro b; cbn; [reflexivity|apply I]).
  split; [rewrite <- X; apply FA|]. split; [rewrite <- X at 2; rewrite SA, <- Y; apply FA|]. rewrite app_assoc. replace (k + k)%nat with (List.length (xs ++ ys)) by (rewrite app_length; lia). apply SA.
Qed.
(** One block, then the rest. *)
Lemma blocks_step : forall mk ok k m fuel L fs K, List.length fs = S m ->
  mean (k + k + L) (fun us => of_run2 (blocks (S fuel) mk ok k (S m) us) (fun l rest => prod_at fs l * K rest)) =
  pmean k (fun ps => prod_at fs (accepted mk ok ps) *
    (let j := List.length (accepted mk ok ps) in if Nat.leb (S m) j then mean L K
     else mean L (fun us => of_run2 (blocks fuel mk ok k (S m - j) us) (fun l rest => prod_at (skipn j fs) l * K rest)))).
Proof.
  intros mk ok k m fuel L fs K E. rewrite <- Nat.add_assoc, mean_app. rewrite <- mean_pairs. apply mean_ext_len. intros xs X. rewrite mean_app. apply mean_ext_len. intros ys Y.
  cbv zeta. set (a := accepted mk ok (combine xs ys)). destruct (Nat.leb (S m) (List.length a)) eqn:LB.
  - rewrite <- mean_scale. apply mean_ext. intro us. cbn [blocks]. replace (Nat.ltb _ _) with false by (symmetry; apply Nat.ltb_ge; rewrite !app_length; lia).
    destruct (split3 xs ys us k X Y) as (-> & -> & ->). fold a. rewrite LB. cbn [of_run2].
    rewrite prod_at_firstn by exact E. reflexivity.
  - rewrite <- mean_scale. apply mean_ext. intro us. cbn [blocks]. replace (Nat.ltb _ _) with false by (symmetry; apply Nat.ltb_ge; rewrite !app_length; lia).
    destruct (split3 xs ys us k X Y) as (-> & -> & ->). fold a. rewrite LB.
    destruct (blocks fuel mk ok k (S m - List.length a) us) as [l r| |]; cbn [rbind of_run2]; try ring. rewrite prod_at_app. ring.
Qed.
Lemma blocks_short : forall mk ok k m fuel L F, (L < k + k)%nat -> mean L (fun us => of_run2 (blocks fuel mk ok k (S m) us) F) = 0.
Proof.
  intros mk ok k m fuel L F H. rewrite (mean_ext_len L _ (fun _ => 0 * 0)); [rewrite mean_scale; ring|]. intros us E. destruct fuel; cbn [blocks]; [cbn; ring|].
  replace (Nat.ltb _ _) with true by (symmetry; apply Nat.ltb_lt; lia). cbn. ring.
Qed.
Theorem blocks_replace : is_law G w -> forall mk ok, kept mk ok always <> 0 -> forall fuel k need L fs K K', List.length fs = need -> (forall L, mean L K = mean L K') ->
  mean L (fun us => of_run2 (blocks fuel mk ok k need us) (fun l rest => prod_at fs l * K rest)) =
  mean L (fun us => of_run2 (blocks fuel mk ok k need us) (fun l rest => prod_at (shares mk ok fs) l * K' rest)).
Proof.
  intros LW mk ok A. induction fuel as [|f IH]; intros k need L fs K K' E HK; destruct need as [|m].
  - cbn [blocks]. destruct fs; [|discriminate]. cbn [of_run2 shares map]. unfold prod_at, prod. cbn. rewrite !mean_scale, HK. reflexivity.
  - reflexivity.
  - cbn [blocks]. destruct fs; [|discriminate]. cbn [of_run2 shares map]. unfold prod_at, prod. cbn. rewrite !mean_scale, HK. reflexivity.
  - destruct (Nat.ltb_spec L (k + k)) as [S1|S1]; [rewrite !blocks_short by exact S1; reflexivity|]. replace L with (k + k + (L - (k + k)))%nat by lia. generalize (L - (k + k))%nat as L'. intro L'.
    rewrite blocks_step by exact E. rewrite blocks_step by (unfold shares; rewrite map_length; exact E).
    set (X := fun j => if Nat.leb (S m) j then mean L' K' else mean L' (fun us => of_run2 (blocks f mk ok k (S m - j) us) (fun l rest => prod_at (skipn j (shares mk ok fs)) l * K' rest))).
    transitivity (pmean k (fun ps => prod_at fs (accepted mk ok ps) * X (List.length (accepted mk ok ps)))); [|apply (block_replace LW mk ok A k fs X)].
    apply pmean_ext. intro ps. f_equal. unfold X. cbv zeta. destruct (Nat.leb_spec (S m) (List.length (accepted mk ok ps))) as [H|H]; [apply HK|]. rewrite skipn_shares. apply IH; [|exact HK]. rewrite skipn_length. lia.
Qed.
Lemma prod_shares : forall mk ok fs l, List.length l = List.length fs -> prod_at (shares mk ok fs) l = prod (map (share G w mk ok) fs).
Proof.
  intros mk ok fs. induction fs as [|f fs IH]; intros [|p l] E; try discriminate; [reflexivity|]. cbn in E. specialize (IH l ltac:(lia)). unfold prod_at, prod, shares in *. cbn. rewrite IH. reflexivity.
Qed.
(** The probability of an end. *)
Lemma all_accepted : is_law G w -> forall mk ok k c, pmean k (fun ps => if Nat.leb k (List.length (accepted mk ok ps)) then 1 else c) = kept mk ok always ^ k + (1 - kept mk ok always ^ k) * c.
Proof.
  intros LW mk ok. induction k as [|k IH]; intro c; [cbn; ring|]. cbn [pmean].
  assert (SH : forall l, List.length l = k -> (List.length (accepted mk ok l) <= k)%nat).
  { intros l E. rewrite <- E. unfold accepted. clear. induction l as [|uv l I]; cbn; [lia|]. destruct (ok _); cbn; lia. }
  assert (PE : forall H H', (forall l, List.length l = k -> H l = H' l) -> pmean k H = pmean k H').
  { clear. induction k as [|k I]; intros H H' E; cbn; [apply E; reflexivity|]. apply mean1_ext. intro u. apply mean1_ext. intro v. apply I. intros l X. apply E. cbn. rewrite X. reflexivity. }
  rewrite (pmean_first LW mk ok k always _ (pmean k (fun l => if Nat.leb k (List.length (accepted mk ok l)) then 1 else c))) with (C := c).
  - rewrite IH. cbn [pow]. ring.
  - intros u v E. unfold always. rewrite Rmult_1_l. apply pmean_ext. intro l. unfold accepted. cbn [map filter fst snd]. rewrite E. reflexivity.
  - intros u v E. transitivity (pmean k (fun _ => c)); [|apply pmean_const; exact LW]. apply PE. intros l X. pose proof (SH l X). unfold accepted in *. cbn [map filter fst snd]. rewrite E. replace (Nat.leb _ _) with false; [reflexivity|]. symmetry. apply Nat.leb_gt. lia.
Qed.
Lemma blocks_ends : is_law G w -> forall mk ok k b fuel need L, (need <= k)%nat -> (b <= fuel)%nat -> (b * (k + k) <= L)%nat ->
  1 - (1 - kept mk ok always ^ k) ^ b <= mean L (fun us => of_run2 (blocks fuel mk ok k need us) (fun _ _ => 1)) <= 1.
Proof.
  intros LW mk ok k. destruct (kept_range G w LW mk ok) as [A B]. set (a := kept mk ok always) in *.
  assert (PK : 0 <= a ^ k <= 1) by (apply pow_unit; lra).
  assert (UP : forall fuel need L, mean L (fun us => of_run2 (blocks fuel mk ok k need us) (fun _ _ => 1)) <= 1).
  { intros fuel need L. apply Rle_trans with (mean L (fun _ => 1)); [apply mean_le; [exact LW|]; intro us; destruct (blocks _ _ _ _ _ _); cbn; lra|rewrite mean_const by exact LW; apply Rle_refl]. }
  assert (LO : forall fuel need L, 0 <= mean L (fun us => of_run2 (blocks fuel mk ok k need us) (fun _ _ => 1))).
  { intros fuel need L. apply Rle_trans with (mean L (fun _ => 0)); [rewrite mean_const by exact LW; apply Rle_refl|apply mean_le; [exact LW|]; intro us; destruct (blocks _ _ _ _ _ _); cbn; lra]. }
  induction b as [|b IH]; intros fuel need L N F HL; (split; [|apply UP]).
  - cbn. pose proof (LO fuel need L). lra.
  - destruct need as [|m]; [destruct fuel; cbn [blocks of_run2]; rewrite mean_const by exact LW; pose proof (pow_unit (1 - a ^ k) (S b) ltac:(lra)); lra|].
    destruct fuel as [|f]; [lia|]. replace L with (k + k + (L - (k + k)))%nat by (cbn in HL; lia). set (L' := (L - (k + k))%nat).
    rewrite (mean_ext _ _ _ _ (fun us => of_run2 (blocks (S f) mk ok k (S m) us) (fun l rest => prod_at (repeat always (S m)) l * 1))).
    2:{ intro us. destruct (blocks (S f) mk ok k (S m) us) as [l r| |]; cbn [of_run2]; try reflexivity. assert (ON : forall q l, prod_at (repeat (@always pt) q) l = 1).
        { clear. induction q as [|q I]; intros [|p l]; unfold prod_at, prod in *; cbn; try reflexivity. rewrite I. unfold always. ring. } rewrite ON. ring. }
    rewrite (blocks_step mk ok k m f L' (repeat always (S m)) (fun _ => 1)) by apply repeat_length.
    assert (ON : forall q l, prod_at (repeat (@always pt) q) l = 1).
    { clear. induction q as [|q I]; intros [|p l]; unfold prod_at, prod in *; cbn; try reflexivity. rewrite I. unfold always. ring. }
    set (Z := 1 - (1 - a ^ k) ^ b). replace (1 - (1 - a ^ k) ^ S b) with (a ^ k + (1 - a ^ k) * Z) by (unfold Z; cbn [pow]; ring).
    unfold a at 1 2. rewrite <- all_accepted by exact LW. apply pmean_le; [exact LW|]. intros ps PL. rewrite ON, Rmult_1_l. cbv zeta. set (j := List.length (accepted mk ok ps)).
    assert (Z1 : Z <= 1) by (unfold Z; pose proof (pow_unit (1 - a ^ k) b ltac:(lra)); lra).
    destruct (Nat.leb_spec (S m) j) as [H1|H1].
    + rewrite mean_const by exact LW. destruct (Nat.leb k j); lra.
    + destruct (Nat.leb_spec k j) as [H2|H2]; [lia|]. replace (skipn j (repeat (@always pt) (S m))) with (repeat (@always pt) (S m - j)).
      * rewrite (mean_ext _ _ _ _ (fun us => of_run2 (blocks f mk ok k (S m - j) us) (fun _ _ => 1))) by (intro us; destruct (blocks _ _ _ _ _ _); cbn [of_run2]; try reflexivity; rewrite ON; ring).
        apply IH; try lia.
      * clearbody j. clear. generalize (S m). intro q. revert j. induction q as [|q I]; intros [|j]; cbn; try reflexivity. apply I.
Qed.
End Law.

(** ** The samplers *)
Lemma skipn_twice : forall (a b : nat) (l : list Q), skipn a (skipn b l) = skipn (b + a) l.
Proof. intros a b. induction b as [|b IH]; intro l; [reflexivity|]. destruct l as [|q l]; [destruct a; reflexivity|]. apply IH. Qed.
Lemma disc_same : forall r c region u v,
  (Qle_bool (uniform (- r) r u * uniform (- r) r u + uniform (- r) r v * uniform (- r) r v) (r * r) && region (uniform (- r) r u + fst c, uniform (- r) r v + snd c))%Q%bool =
  in_disc r c region (around r c u v).
Proof.
  intros r c region u v. unfold in_disc, around. cbn [fst snd]. f_equal. apply eq_true_iff_eq. rewrite !Qle_bool_iff. split; intro H; (eapply Qle_trans; [|exact H]; apply Qle_lteq; right; ring).
Qed.
Definition placed (c p : pt) : pt := (fst p + fst c, snd p + snd c)%Q.
Lemma circle_blocks : forall r c region burn n fuel good us, (0 < burn)%nat -> (List.length good <= n)%nat ->
  rbind (circle_loop fuel burn n r c region good us) (fun g us => Val (map (placed c) g) us) =
  rbind (blocks fuel (around r c) (in_disc r c region) (burn * n) (n - List.length good) us) (fun l us => Val (map (placed c) good ++ l) us).
Proof.
  intros r c region burn n. induction fuel as [|f IH]; intros good us HB HG.
  - cbn [circle_loop blocks]. destruct (Nat.ltb_spec (List.length good) n) as [H|H].
    + destruct (n - List.length good)%nat eqn:E; [lia|]. reflexivity.
    + replace (n - List.length good)%nat with 0%nat by lia. cbn. rewrite app_nil_r. reflexivity.
  - cbn [circle_loop]. destruct (Nat.ltb_spec (List.length good) n) as [H|H].
    2:{ replace (n - List.length good)%nat with 0%nat by lia. cbn. rewrite app_nil_r. reflexivity. }
    destruct (n - List.length good)%nat as [|m] eqn:E; [lia|]. cbn [blocks]. set (k := (burn * n)%nat).
    destruct (Nat.ltb_spec (List.length us) (k + k)) as [S1|S1].
    { destruct (Nat.ltb_spec (List.length us) k) as [S2|S2]; [rewrite draw_block_short by exact S2; reflexivity|]. rewrite draw_block_ok by exact S2. cbn [rbind]. rewrite draw_block_short by (rewrite skipn_length; lia). reflexivity. }
    rewrite draw_block_ok by lia. cbn [rbind]. rewrite draw_block_ok by (rewrite skipn_length; lia). cbn [rbind].
    set (cand := circle_candidates r c region (map (uniform (- r) r) (firstn k us)) (map (uniform (- r) r) (firstn k (skipn k us)))).
    assert (CA : accepted (around r c) (in_disc r c region) (combine (firstn k us) (firstn k (skipn k us))) = map (placed c) cand).
    { unfold cand, circle_candidates, accepted. generalize (firstn k us) (firstn k (skipn k us)). clear. induction l as [|u l I]; intros [|v l']; cbn [map combine filter]; try reflexivity.
      cbn [fst snd]. rewrite disc_same. rewrite (I l'). destruct (in_disc r c region (around r c u v)); reflexivity. }
    rewrite CA, map_length. rewrite skipn_twice. cbv zeta. destruct (Nat.leb_spec (S m) (List.length cand)) as [H1|H1].
    + destruct (Nat.ltb_spec (S m) (List.length cand)) as [H2|H2].
      * cbn [rbind]. rewrite map_app, firstn_map. reflexivity.
      * rewrite IH by (try exact HB; rewrite app_length; lia). rewrite app_length. replace (n - (List.length good + List.length cand))%nat with 0%nat by lia.
        replace (firstn (S m) (map (placed c) cand)) with (map (placed c) cand) by (rewrite firstn_all2; [reflexivity|rewrite map_length; lia]). destruct f; cbn [blocks rbind]; rewrite map_app, app_nil_r; reflexivity.
    + destruct (Nat.ltb_spec (S m) (List.length cand)) as [H2|H2]; [lia|]. rewrite IH by (try exact HB; rewrite app_length; lia). rewrite app_length.
      replace (n - (List.length good + List.length cand))%nat with (S m - List.length cand)%nat by lia. fold k. destruct (blocks f _ _ k _ _) as [l r'| |]; cbn [rbind]; try reflexivity. rewrite map_app, <- app_assoc. reflexivity.
Qed.
Lemma uniform_circle_blocks : forall n r c burn h us, (0 < burn)%nat ->
  uniform_circle n r c burn h us =
  blocks (S (List.length us)) (around r c) (in_disc r c (match h with Some h => h_contains h | None => fun _ => true end)) (burn * n) n us.
Proof.
  intros n r c burn h us HB. unfold uniform_circle. change (fun good us => Val (map (fun p => (fst p + fst c, snd p + snd c)%Q) good) us) with (fun good (us : list Q) => Val (map (placed c) good) us).
  rewrite circle_blocks by (try exact HB; cbn; lia). cbn [List.length map app]. rewrite Nat.sub_0_r. destruct (blocks _ _ _ _ _ _) as [l r'| |]; reflexivity.
Qed.
Lemma to_points_arrays : forall l : list (Q * Q), to_points (map (fun xy => (EArr (fst xy), EArr (snd xy))) l) = Ok l.
Proof. unfold to_points. induction l as [|[x y] l IH]; [reflexivity|]. cbn in *. rewrite IH. reflexivity. Qed.
Lemma draw_blocks : forall contains b n fuel sample us, (List.length sample <= n)%nat ->
  draw_loop fuel contains (realize_poisson b) n sample us =
  rbind (blocks fuel (box_candidate b) contains n (n - List.length sample) us) (fun l us => Val (sample ++ l) us).
Proof.
  intros contains b n. induction fuel as [|f IH]; intros sample us HS.
  - cbn [draw_loop blocks]. destruct (Nat.ltb_spec (List.length sample) n) as [H|H].
    + destruct (n - List.length sample)%nat eqn:E; [lia|]. reflexivity.
    + replace (n - List.length sample)%nat with 0%nat by lia. cbn. rewrite app_nil_r, firstn_all2 by lia. reflexivity.
  - cbn [draw_loop]. destruct (Nat.ltb_spec (List.length sample) n) as [H|H].
    2:{ replace (n - List.length sample)%nat with 0%nat by lia. cbn. rewrite app_nil_r, firstn_all2 by lia. reflexivity. }
    destruct (n - List.length sample)%nat as [|m] eqn:E; [lia|]. cbn [blocks]. unfold realize_poisson at 1.
    destruct (Nat.ltb_spec (List.length us) (n + n)) as [S1|S1].
    { destruct (Nat.ltb_spec (List.length us) n) as [S2|S2]; [rewrite draw_block_short by exact S2; reflexivity|]. rewrite draw_block_ok by exact S2. cbn [rbind]. rewrite draw_block_short by (rewrite skipn_length; lia). reflexivity. }
    rewrite draw_block_ok by lia. cbn [rbind]. rewrite draw_block_ok by (rewrite skipn_length; lia). cbn [rbind]. rewrite to_points_arrays. cbn [lift rbind].
    set (cand := combine (map (uniform (bxmin b) (bxmax b)) (firstn n us)) (map (uniform (bymin b) (bymax b)) (firstn n (skipn n us)))).
    assert (CA : accepted (box_candidate b) contains (combine (firstn n us) (firstn n (skipn n us))) = filter contains cand).
    { unfold cand, accepted. f_equal. generalize (firstn n us) (firstn n (skipn n us)). clear. induction l as [|u l I]; intros [|v l']; cbn [map combine]; try reflexivity. rewrite I. reflexivity. }
    rewrite CA. rewrite skipn_twice. cbv zeta. set (a := filter contains cand). destruct (Nat.leb_spec (S m) (List.length a)) as [H1|H1].
    + cbn [rbind]. destruct f as [|f']; cbn [draw_loop]; replace (Nat.ltb _ _) with false by (symmetry; apply Nat.ltb_ge; rewrite app_length; lia); rewrite firstn_app, firstn_all2 by lia; rewrite E; reflexivity.
    + rewrite IH by (rewrite app_length; lia). rewrite app_length. replace (n - (List.length sample + List.length a))%nat with (S m - List.length a)%nat by lia.
      destruct (blocks f _ _ n _ _) as [l r'| |]; cbn [rbind]; try reflexivity. rewrite <- app_assoc. reflexivity.
Qed.
Lemma draw_poisson_blocks : forall contains b n us, draw contains (realize_poisson b) n us = blocks (S (List.length us)) (box_candidate b) contains n n us.
Proof. intros contains b n us. unfold draw. rewrite draw_blocks by (cbn; lia). cbn [List.length app]. rewrite Nat.sub_0_r. destruct (blocks _ _ _ _ _ _) as [l r'| |]; reflexivity. Qed.
