(** Moves of a sampler that never look at the positions of the points. *)
From Coq Require Import Reals ZArith QArith Qround Qminmax Qpower List Bool Arith Lia Lra Psatz.
From Verif Require Import Base BaseLemmas Quadrat_model Geometry_model Random_model Random_spec Random_proofs Joint_spec Joint_proofs
  Null_spec Null_proofs.
Import ListNotations.
Local Open Scope R_scope.

Definition of_rest {A : Type} (r : run A) (K : A -> list Q -> R) : R := match r with Val a us => K a us | _ => 0 end.
Lemma of_rest_bind : forall (A B : Type) (r : run A) (f : A -> list Q -> run B) K, of_rest (rbind r f) K = of_rest r (fun a us => of_rest (f a us) K).
Proof. intros A B [a us|e|] f K; reflexivity. Qed.
Lemma rsum_app : forall A (a b : list A) f, rsum (a ++ b) f = rsum a f + rsum b f.
Proof. intros A a b f. induction a as [|x a IH]; [cbn; unfold rsum; cbn; ring|]. cbn [app]. rewrite !rsum_cons, IH. ring. Qed.

Section Neutral.
Variables (G : list Q) (w : Q -> R) (mk : Q -> Q -> pt) (ok : pt -> bool).
Hypothesis LW : is_law G w.
Notation mean1 := (Joint_spec.mean1 G w).
Notation mean := (Joint_spec.mean G w).
Notation kept := (Joint_spec.kept G w mk ok).
Notation pts m := (Null_spec.kept_all G w ok (repeat mk m)).
Notation A := (kept always).
(** [c], [m] and [L]: the weight of ending up with [m] independent points and [L] more numbers. *)
Notation term := (R * (nat * nat))%type.
Definition value (K : list pt -> list Q -> R) (t : term) : R := fst t * pts (fst (snd t)) (fun y => mean (snd (snd t)) (fun us => K y us)).
Definition neutral (m : nat) (post : nat -> Prop) (T : list pt -> list Q -> run (list pt)) : Prop :=
  forall L, exists cs : list term, Forall (fun t => post (fst (snd t))) cs /\
    forall K, pts m (fun x => mean L (fun us => of_rest (T x us) K)) = rsum cs (value K).

Lemma pts_zero : forall mks, Null_spec.kept_all G w ok mks (fun _ => 0) = 0.
Proof. intro mks. pose proof (all_scale G w ok mks 0 (fun _ => 0)) as E. rewrite Rmult_0_l in E. etransitivity; [|exact E]. apply all_ext. intros; ring. Qed.
Lemma mean_zero : forall L, mean L (fun _ => 0) = 0.
Proof. intro L. pose proof (mean_scale G w L 0 (fun _ => 0)) as E. rewrite Rmult_0_l in E. etransitivity; [|exact E]. apply mean_ext. intros; ring. Qed.
Lemma pts_rsum : forall m B (cs : list B) F, pts m (fun x => rsum cs (fun c => F c x)) = rsum cs (fun c => pts m (F c)).
Proof.
  intros m B cs F. induction cs as [|c cs IH]; [apply pts_zero|]. rewrite rsum_cons, <- IH.
  rewrite <- (Rmult_1_l (pts m (F c))), <- (Rmult_1_l (pts m (fun x => rsum cs _))), <- all_lin. apply all_ext. intros x _. rewrite rsum_cons. ring.
Qed.
Lemma mean1_rsum : forall F, mean1 F = rsum G (fun u => w u * F u).
Proof. reflexivity. Qed.
Lemma pts_mean1 : forall m F, pts m (fun x => mean1 (fun u => F u x)) = mean1 (fun u => pts m (F u)).
Proof.
  intros m F. rewrite mean1_rsum. rewrite (all_ext G w ok _ _ (fun x => rsum G (fun u => w u * F u x))) by reflexivity.
  rewrite pts_rsum. apply rsum_ext. intros u _. apply all_scale.
Qed.
Lemma value_scale : forall c K cs, c * rsum cs (value K) = rsum (map (fun t : term => (c * fst t, snd t)) cs) (value K).
Proof.
  intros c K cs. induction cs as [|t cs IH]; [unfold rsum; cbn; ring|]. cbn [map]. rewrite !rsum_cons, <- IH. unfold value. cbn [fst snd]. ring.
Qed.
Lemma post_scale : forall (post : nat -> Prop) c (cs : list term), Forall (fun t : term => post (fst (snd t))) cs -> Forall (fun t : term => post (fst (snd t))) (map (fun t : term => (c * fst t, snd t)) cs).
Proof. intros post c cs H. apply Forall_map. exact H. Qed.

Lemma neutral_ext : forall m post T T', (forall x us, List.length x = m -> T x us = T' x us) -> neutral m post T' -> neutral m post T.
Proof.
  intros m post T T' E H L. destruct (H L) as [cs [C1 C2]]. exists cs. split; auto. intro K. rewrite <- C2. apply all_ext. intros x [X _]. rewrite repeat_length in X.
  apply mean_ext. intro us. rewrite E by exact X. reflexivity.
Qed.
Lemma neutral_post : forall m (post post' : nat -> Prop) T, (forall k, post k -> post' k) -> neutral m post T -> neutral m post' T.
Proof. intros m post post' T E H L. destruct (H L) as [cs [C1 C2]]. exists cs. split; auto. eapply Forall_impl; [|exact C1]. intros t. apply E. Qed.
Lemma neutral_never : forall m post T, (forall x us K, of_rest (T x us) K = 0) -> neutral m post T.
Proof.
  intros m post T H L. exists []. split; auto. intro K. change (rsum [] (value K)) with 0. rewrite <- (pts_zero (repeat mk m)). apply all_ext. intros x _.
  rewrite <- (mean_zero L). apply mean_ext. intro us. apply H.
Qed.
(** A change of the list that forgets some of the points. *)
Lemma neutral_map : forall m k c f, (forall F, pts m (fun x => F (f x)) = c * pts k F) -> neutral m (fun j => j = k) (fun x us => Val (f x) us).
Proof.
  intros m k c f H L. exists [(c, (k, L))]. split; auto. intro K. unfold rsum. cbn [map fold_right]. unfold value. cbn [fst snd of_rest].
  rewrite Rplus_0_r. apply (H (fun y => mean L (fun us => K y us))).
Qed.
Lemma neutral_val : forall m, neutral m (fun j => j = m) (fun x us => Val x us).
Proof. intro m. apply (neutral_map m m 1 (fun x => x)). intro F. rewrite Rmult_1_l. reflexivity. Qed.
Lemma pts_forget : forall m F c, (forall x, F x = c) -> pts m F = A ^ m * c.
Proof. intros m F c H. rewrite <- all_power, Rmult_comm, <- all_scale. apply all_ext. intros x _. rewrite H. ring. Qed.
Lemma neutral_firstn : forall m k, (k <= m)%nat -> neutral m (fun j => j = k) (fun x us => Val (firstn k x) us).
Proof.
  intros m k K. apply (neutral_map m k (A ^ (m - k))). intro F. replace m with (k + (m - k))%nat at 1 by lia. rewrite repeat_app, all_app, <- all_scale.
  apply all_ext. intros x [X _]. rewrite repeat_length in X. apply pts_forget. intro y. rewrite firstn_app, <- X, firstn_all, Nat.sub_diag, app_nil_r. reflexivity.
Qed.
Lemma neutral_nil : forall m, neutral m (fun j => j = 0%nat) (fun _ us => Val [] us).
Proof. intro m. apply (neutral_firstn m 0). lia. Qed.
Lemma delete_nth_app : forall (a b : list pt) p, delete_nth (List.length a) (a ++ p :: b) = a ++ b.
Proof. induction a as [|x a IH]; intros b p; [reflexivity|]. cbn. rewrite IH. reflexivity. Qed.
Lemma delete_nth_beyond : forall i (a : list pt), (List.length a <= i)%nat -> delete_nth i a = a.
Proof. induction i as [|i IH]; intros [|x a] H; cbn in *; auto; [lia|]. rewrite IH by lia. reflexivity. Qed.
Lemma neutral_delete : forall m i, neutral m (fun _ => True) (fun x us => Val (delete_nth i x) us).
Proof.
  intros m i. destruct (Nat.ltb_spec i m) as [H|H].
  - apply (neutral_post _ (fun j => j = (m - 1)%nat)); auto. apply (neutral_map m (m - 1) A). intro F. replace m with (i + (1 + (m - i - 1)))%nat at 1 by lia.
    replace (m - 1)%nat with (i + (m - i - 1))%nat by lia. rewrite !repeat_app, !all_app, <- all_scale. apply all_ext. intros x [X _]. rewrite repeat_length in X.
    rewrite all_app. cbn [repeat Null_spec.kept_all]. rewrite <- X.
    rewrite (kept_ext G w ok mk _ (fun p => pts (m - List.length x - 1) (fun y => F (x ++ y)) * always p)).
    2:{ intros p _. unfold always. rewrite Rmult_1_r. apply all_ext. intros y _. cbn [app]. rewrite delete_nth_app. reflexivity. }
    rewrite kept_scale. ring.
  - apply (neutral_post _ (fun j => j = m)); auto. apply (neutral_ext _ _ _ (fun x us => Val x us)); [|apply neutral_val].
    intros x us X. rewrite delete_nth_beyond by lia. reflexivity.
Qed.
Lemma collect : forall post T cs, Forall (fun t : term => neutral (fst (snd t)) post T) cs ->
  exists cs', Forall (fun t : term => post (fst (snd t))) cs' /\ forall K, rsum cs (value (fun y us => of_rest (T y us) K)) = rsum cs' (value K).
Proof.
  intros post T cs. induction 1 as [|t cs H _ IH]; [exists []; split; auto|]. destruct IH as [cs' [I1 I2]]. destruct (H (snd (snd t))) as [cs1 [C1 C2]].
  exists (map (fun s : term => (fst t * fst s, snd s)) cs1 ++ cs'). split; [apply Forall_app; split; [apply post_scale, C1|exact I1]|].
  intro K. rewrite rsum_cons, rsum_app, I2, <- value_scale, <- C2. reflexivity.
Qed.
Lemma neutral_bind : forall m mid post T1 T2, neutral m mid T1 -> (forall k, mid k -> neutral k post T2) -> neutral m post (fun x us => rbind (T1 x us) T2).
Proof.
  intros m mid post T1 T2 H1 H2 L. destruct (H1 L) as [cs [C1 C2]]. destruct (collect post T2 cs) as [cs' [D1 D2]].
  { eapply Forall_impl; [|exact C1]. intros t X. apply H2, X. }
  exists cs'. split; auto. intro K. rewrite <- D2, <- C2. apply all_ext. intros x _. apply mean_ext. intro us. apply of_rest_bind.
Qed.
Lemma neutral_draw : forall m post T, (forall u, neutral m post (T u)) -> neutral m post (fun x us => rbind (draw1 us) (fun u us => T u x us)).
Proof.
  intros m post T H [|L].
  - exists []. split; auto. intro K. cbn [Joint_spec.mean draw1 rbind of_rest]. apply pts_zero.
  - assert (X : forall G', exists cs, Forall (fun t : term => post (fst (snd t))) cs /\
      forall K, rsum G' (fun u => w u * pts m (fun x => mean L (fun us => of_rest (T u x us) K))) = rsum cs (value K)).
    { induction G' as [|u G' IH]; [exists []; split; auto|]. destruct IH as [cs [I1 I2]]. destruct (H u L) as [cs1 [C1 C2]].
      exists (map (fun t : term => (w u * fst t, snd t)) cs1 ++ cs). split; [apply Forall_app; split; [apply post_scale, C1|exact I1]|].
      intro K. rewrite rsum_cons, rsum_app, I2, C2, value_scale. reflexivity. }
    destruct (X G) as [cs [X1 X2]]. exists cs. split; auto. intro K. rewrite <- X2. cbn [Joint_spec.mean draw1 rbind]. rewrite pts_mean1. reflexivity.
Qed.
Lemma neutral_if : forall m post (b : nat -> bool) T T', (b m = true -> neutral m post T) -> (b m = false -> neutral m post T') ->
  neutral m post (fun x us => if b (List.length x) then T x us else T' x us).
Proof.
  intros m post b T T' H H'. destruct (b m) eqn:E.
  - apply (neutral_ext _ _ _ T); [intros x us <-; rewrite E; reflexivity|auto].
  - apply (neutral_ext _ _ _ T'); [intros x us <-; rewrite E; reflexivity|auto].
Qed.

(** Adding [b] new points. *)
Lemma mean1_const : forall c, mean1 (fun _ => c) = c.
Proof using LW. intro c. destruct LW as [_ T]. rewrite (mean1_ext G w _ (fun _ => c * 1)) by (intro; ring). rewrite mean1_scale, T. ring. Qed.
Lemma reject_step : forall L b K, mean (S (S L)) (fun us => of_rest (reject mk ok us (S b)) K) =
  kept (fun p => mean L (fun us => of_rest (reject mk ok us b) (fun l us => K (p :: l) us))) + (1 - A) * mean L (fun us => of_rest (reject mk ok us (S b)) K).
Proof using LW.
  intros L b K. cbn [Joint_spec.mean]. set (B := mean L (fun us => of_rest (reject mk ok us (S b)) K)).
  assert (E : forall u v, mean L (fun us => of_rest (reject mk ok (u :: v :: us) (S b)) K) =
    1 * (if ok (mk u v) then mean L (fun us => of_rest (reject mk ok us b) (fun l us => K (mk u v :: l) us)) else 0) + B * (1 - (if ok (mk u v) then always (mk u v) else 0))).
  { intros u v. unfold always. destruct (ok (mk u v)) eqn:O.
    - replace (B * (1 - 1)) with 0 by ring. rewrite Rmult_1_l, Rplus_0_r. apply mean_ext. intro us. cbn [reject]. rewrite O. destruct (reject mk ok us b); reflexivity.
    - unfold B. replace (1 * 0 + _ * (1 - 0)) with (mean L (fun us => of_rest (reject mk ok us (S b)) K)) by ring. apply mean_ext. intro us. cbn [reject]. rewrite O. reflexivity. }
  rewrite (mean1_ext _ _ _ (fun u => 1 * mean1 (fun v => if ok (mk u v) then mean L (fun us => of_rest (reject mk ok us b) (fun l us => K (mk u v :: l) us)) else 0) + B * (1 - mean1 (fun v => if ok (mk u v) then always (mk u v) else 0)))).
  - rewrite mean1_lin. unfold Joint_spec.kept. rewrite (mean1_ext G w (fun u => 1 - _) (fun u => 1 * 1 + (-1) * mean1 (fun v => if ok (mk u v) then always (mk u v) else 0))) by (intro; ring).
    rewrite mean1_lin, (mean1_const 1). ring.
  - intro u. rewrite (mean1_ext _ _ _ _ (E u)), mean1_lin. f_equal. f_equal.
    rewrite (mean1_ext _ _ _ (fun v => 1 * 1 + (-1) * (if ok (mk u v) then always (mk u v) else 0))) by (intro; ring). rewrite mean1_lin, (mean1_const 1). ring.
Qed.
Lemma reject_terms : forall L b, exists cs, Forall (fun t : term => fst (snd t) = b) cs /\ forall K, mean L (fun us => of_rest (reject mk ok us b) K) = rsum cs (value K).
Proof using LW.
  intro L. induction L as [L IH] using (well_founded_induction lt_wf). intros [|b].
  - exists [(1, (0%nat, L))]. split; auto. intro K. unfold rsum, value. cbn [map fold_right fst snd repeat Null_spec.kept_all]. rewrite Rplus_0_r, Rmult_1_l.
    apply mean_ext. intros [|u [|v us]]; reflexivity.
  - destruct L as [|[|L]].
    + exists []. split; auto.
    + exists []. split; auto. intro K. cbn [Joint_spec.mean reject of_rest]. apply mean1_const.
    + destruct (IH L ltac:(lia) b) as [cs1 [A1 B1]]. destruct (IH L ltac:(lia) (S b)) as [cs2 [A2 B2]].
      exists (map (fun t : term => (fst t, (S (fst (snd t)), snd (snd t)))) cs1 ++ map (fun t : term => ((1 - A) * fst t, snd t)) cs2). split.
      { apply Forall_app. split; [|apply (post_scale (fun k => k = S b)), A2]. apply Forall_map. cbn [fst snd]. eapply Forall_impl; [|exact A1]. intros t ->. reflexivity. }
      intro K. rewrite reject_step, rsum_app, <- value_scale, <- B2. f_equal. rewrite rsum_map.
      rewrite (kept_ext G w ok mk _ (fun p => rsum cs1 (value (fun l us => K (p :: l) us)))) by (intros p _; apply B1).
      pose proof (pts_rsum 1 _ cs1 (fun t x => value (fun l us => K (x ++ l) us) t)) as P. cbn [repeat Null_spec.kept_all app] in P. etransitivity; [exact P|].
      apply rsum_ext. intros t _. unfold value. cbn [fst snd repeat Null_spec.kept_all]. rewrite <- kept_scale. reflexivity.
Qed.
Lemma neutral_join : forall m n f, neutral 0 (fun k => k = n) (fun _ us => f us) -> neutral m (fun k => k = (m + n)%nat) (fun x us => rbind (f us) (fun l us => Val (x ++ l) us)).
Proof.
  intros m n f H L. destruct (H L) as [cs [C1 C2]]. exists (map (fun t : term => (fst t, ((m + fst (snd t))%nat, snd (snd t)))) cs). split.
  { apply Forall_map. cbn [fst snd]. eapply Forall_impl; [|exact C1]. intros t ->. reflexivity. }
  intro K. rewrite rsum_map.
  rewrite (all_ext G w ok _ _ (fun x => rsum cs (fun t => value (fun l us => K (x ++ l) us) t))).
  2:{ intros x _. rewrite <- C2. cbn [repeat Null_spec.kept_all]. apply mean_ext. intro us. rewrite of_rest_bind. reflexivity. }
  rewrite pts_rsum. apply rsum_ext. intros t _. unfold value. cbn [fst snd]. rewrite all_scale, repeat_app, all_app. reflexivity.
Qed.
Lemma neutral_reject : forall b, neutral 0 (fun k => k = b) (fun _ us => reject mk ok us b).
Proof using LW. intros b L. destruct (reject_terms L b) as [cs [C1 C2]]. exists cs. split; auto. Qed.
Lemma neutral_add : forall m b, neutral m (fun k => k = (m + b)%nat) (fun x us => rbind (reject mk ok us b) (fun l us => Val (x ++ l) us)).
Proof using LW. intros m b. apply neutral_join, neutral_reject. Qed.
Lemma neutral_replicate : forall n f, neutral 0 (fun k => k = n) (fun _ us => f us) -> forall s m,
  neutral m (fun k => k = (m + s * n)%nat) (fun x us => rbind (replicate f s us) (fun d us => Val (x ++ concat d) us)).
Proof.
  intros n f H. induction s as [|s IH]; intro m.
  - apply (neutral_ext _ _ _ (fun x us => Val x us)); [intros x us _; cbn; rewrite app_nil_r; reflexivity|].
    apply (neutral_post _ (fun k => k = m)); [lia|apply neutral_val].
  - apply (neutral_ext _ _ _ (fun x us => rbind (rbind (f us) (fun l us => Val (x ++ l) us)) (fun y us => rbind (replicate f s us) (fun d us => Val (y ++ concat d) us)))).
    { intros x us _. cbn [replicate]. destruct (f us) as [l r|e|]; cbn [rbind]; try reflexivity. destruct (replicate f s r); cbn [rbind concat]; try reflexivity. rewrite app_assoc. reflexivity. }
    apply (neutral_bind m (fun k => k = (m + n)%nat)); [apply neutral_join, H|]. intros k ->. apply (neutral_post _ (fun k => k = (m + n + s * n)%nat)); [lia|apply IH].
Qed.
(** What is known about the result: all that was drawn is forgotten. *)
Lemma neutral_factor : forall N f, neutral 0 (fun k => k = N) (fun _ us => f us) -> forall L,
  exists c, forall F, mean L (fun us => of_run (f us) F) = c * pts N F.
Proof using LW.
  intros N f H L. destruct (H L) as [cs [C1 C2]]. exists (rsum cs (fun t : term => fst t)). intro F'.
  pose proof (C2 (fun y _ => F' y)) as E. cbn [repeat Null_spec.kept_all] in E. etransitivity; [exact E|]. clear C2 E.
  induction C1 as [|t cs T _ IH]; [unfold rsum; cbn; ring|]. rewrite !rsum_cons, IH. unfold value. rewrite T.
  rewrite (all_ext G w ok _ _ F') by (intros y _; apply (mean_const G w LW)). ring.
Qed.
Lemma neutral_result : forall N f, neutral 0 (fun k => k = N) (fun _ us => f us) -> forall L F,
  mean L (fun us => of_run (f us) F) * A ^ N = pts N F * mean L (fun us => of_run (f us) always).
Proof using LW.
  intros N f H L F. destruct (neutral_factor N f H L) as [c X].
  rewrite (X F), (X always). rewrite <- all_power. change (pts N always) with (pts N (fun _ => 1)). ring.
Qed.
End Neutral.

(** ** strauss without interaction *)
Section Strauss.
Variables (G : list Q) (w : Q -> R) (h : hull) (gamma r : Q).
Hypothesis LW : is_law G w.
Hypothesis one : (gamma == 1)%Q.
Notation mk := (box_candidate (h_bbox h)).
Notation ok := (h_contains h).
Notation neutral := (neutral G w mk ok).
Lemma gamma_power : forall z, (Qpower gamma z == 1)%Q.
Proof using one. intro z. rewrite one. apply Qpower_1. Qed.
Lemma Qltb_eq : forall a b c, (b == c)%Q -> Qltb a b = Qltb a c.
Proof. intros a b c E. apply eq_true_iff_eq. rewrite !Qltb_lt, E. reflexivity. Qed.
(** [poisson] with an intensity: how many points, or an error. *)
Lemma poisson_intensity : forall i, (exists e, forall us, poisson h (Some i) SNone us = Exc e) \/
  (exists b, Qtrunc (h_area h * i) = Z.of_nat b /\ forall us, poisson h (Some i) SNone us = rbind (reject mk ok us b) (fun l us => Val (squeeze 1 b [l]) us)).
Proof.
  clear. intro i. destruct (Z.ltb_spec (Qtrunc (h_area h * i)) 0) as [H|H].
  - left. exists ValueError. intro us. unfold poisson, parse_size_and_intensity, alloc. cbn [lift rbind]. destruct (Z.ltb_spec (Qtrunc (h_area h * i)) 0); [reflexivity|lia].
  - right. exists (Z.to_nat (Qtrunc (h_area h * i))). split; [lia|]. intro us. unfold poisson, parse_size_and_intensity, alloc. cbn [lift rbind].
    destruct (Z.ltb_spec (Qtrunc (h_area h * i)) 0); [lia|]. cbn [orb Z.ltb Z.compare lift rbind]. change (Z.to_nat 1) with 1%nat. cbn [replicate].
    destruct (reject mk ok us _); reflexivity.
Qed.
Lemma stack_points : forall b x l, List.length l = b -> vstack_rows x (squeeze 1 b [l]) = x ++ l.
Proof. clear. intros b x l <-. unfold squeeze. cbn [Nat.eqb]. destruct l as [|p [|q l]]; reflexivity. Qed.
Lemma neutral_birth : forall n m, neutral m (fun _ => True) (birth h n gamma r).
Proof using LW one.
  intros n m. destruct (poisson_intensity 1) as [[e H]|[b [_ H]]].
  - apply neutral_never. intros x us K. unfold birth. rewrite H. reflexivity.
  - set (a := Qmin1 (inject_Z n / (inject_Z (Z.of_nat m) + 1))%Q).
    apply (neutral_ext _ _ _ _ _ _ _ (fun x us => rbind (rbind (reject mk ok us b) (fun l us => Val (x ++ l) us))
       (fun y us => rbind (draw1 us) (fun u us => if Qltb u a then Val y us else Val (firstn m y) us)))).
    { intros x us X. unfold birth. rewrite H. destruct (reject mk ok us b) as [l us'|e|] eqn:E; cbn [rbind]; try reflexivity.
      apply reject_sound in E. destruct E as [E _]. rewrite stack_points by exact E. destruct us' as [|u us']; [reflexivity|]. cbn [draw1 rbind].
      rewrite (Qltb_eq u _ a).
      2:{ unfold a, Qmin1. rewrite gamma_power, Qmult_1_r. unfold Qlen. rewrite X. reflexivity. }
      destruct (Qltb u a); [reflexivity|]. rewrite firstn_app, <- X, firstn_all, Nat.sub_diag, app_nil_r. reflexivity. }
    apply (neutral_bind _ _ _ _ m (fun k => k = (m + b)%nat)); [apply neutral_add, LW|]. intros k ->. apply neutral_draw. intro u.
    apply (neutral_if _ _ _ _ _ _ (fun _ => Qltb u a)); intros _.
    + apply (neutral_post _ _ _ _ _ (fun j => j = (m + b)%nat)); auto. apply neutral_val.
    + apply (neutral_post _ _ _ _ _ (fun j => j = m)); auto. apply neutral_firstn. lia.
Qed.
Lemma neutral_death : forall n m, neutral m (fun _ => True) (death n gamma r).
Proof using one.
  intros n m. unfold death. apply (neutral_if _ _ _ _ _ _ (fun k => (n <? Z.of_nat k)%Z)); intros _.
  2:{ apply (neutral_post _ _ _ _ _ (fun j => j = m)); auto. apply neutral_val. }
  apply neutral_draw. intro v. set (i := Z.to_nat (Qfloor (v * inject_Z (Z.of_nat m)))). set (a := Qmin1 (inject_Z (Z.of_nat m) / inject_Z n)%Q).
  apply (neutral_ext _ _ _ _ _ _ _ (fun x us => if Qeq_bool (inject_Z n) 0 then Exc RuntimeError else rbind (draw1 us) (fun u us => if Qltb u a then Val (delete_nth i x) us else Val x us))).
  { intros x us X. unfold Qlen. rewrite X. fold i.
    replace (Qeq_bool (inject_Z n * Qpower gamma (pair_count r x - pair_count r (delete_nth i x))) 0) with (Qeq_bool (inject_Z n) 0).
    2:{ apply eq_true_iff_eq. rewrite !Qeq_bool_iff, gamma_power, Qmult_1_r. reflexivity. }
    destruct (Qeq_bool (inject_Z n) 0); [reflexivity|]. destruct us as [|u us]; [reflexivity|]. cbn [draw1 rbind].
    rewrite (Qltb_eq u _ a) by (unfold a, Qmin1; rewrite gamma_power, Qmult_1_r; reflexivity). destruct (Qltb u a); reflexivity. }
  destruct (Qeq_bool (inject_Z n) 0); [apply neutral_never; reflexivity|]. apply neutral_draw. intro u.
  apply (neutral_if _ _ _ _ _ _ (fun _ => Qltb u a)); intros _; [apply neutral_delete|]. apply (neutral_post _ _ _ _ _ (fun j => j = m)); auto. apply neutral_val.
Qed.
Lemma neutral_loop : forall n iters m, neutral m (fun _ => True) (mh_loop h n gamma r iters).
Proof using LW one.
  intros n. induction iters as [|k IH]; intro m; cbn [mh_loop].
  - apply (neutral_post _ _ _ _ _ (fun j => j = m)); auto. apply neutral_val.
  - apply (neutral_bind _ _ _ _ m (fun _ => True)); [|intros; apply IH].
    apply (neutral_if _ _ _ _ _ _ (fun k => (Z.of_nat k <? n)%Z)); intros _; [apply neutral_birth|].
    apply neutral_draw. intro u. apply (neutral_if _ _ _ _ _ _ (fun _ => Qltb u (1 # 2))); intros _; [apply neutral_birth|apply neutral_death].
Qed.
Variables (n n_iter : nat).
Hypothesis start : Qtrunc (h_area h * inject_Z (Z.of_nat (3 * n / 2))) <> 1%Z.
Lemma neutral_attempts : forall tries m, neutral m (fun k => k = n) (fun _ us => attempts h n gamma r n_iter tries us).
Proof using LW one start.
  induction tries as [|tries IH]; intro m; cbn [attempts]; [apply neutral_never; reflexivity|]. unfold attempt.
  destruct (poisson_intensity (inject_Z (Z.of_nat (3 * n / 2)))) as [[e H]|[b [B H]]].
  - apply neutral_never. intros x us K. rewrite H. reflexivity.
  - apply (neutral_ext _ _ _ _ _ _ _ (fun x us => rbind (rbind (Val [] us) (fun x us => rbind (reject mk ok us b) (fun l us => Val (x ++ l) us)))
      (fun pts us => rbind (mh_loop h (Z.of_nat n) gamma r n_iter pts us) (fun pts us => if Nat.leb n (List.length pts) then Val (firstn n pts) us else attempts h n gamma r n_iter tries us)))).
    { intros x us _. rewrite H. cbn [rbind]. destruct (reject mk ok us b) as [l us'|e|] eqn:E; cbn [rbind app]; try reflexivity.
      apply reject_sound in E. destruct E as [E _]. assert (SQ : squeeze 1 b [l] = Arr2 l) by (unfold squeeze; cbn [Nat.eqb]; destruct (Nat.eqb_spec b 1); [subst b; lia|reflexivity]).
      rewrite SQ. destruct (mh_loop h (Z.of_nat n) gamma r n_iter l us') as [y us2|e|]; cbn [rbind]; try reflexivity. destruct (Nat.leb n (List.length y)); reflexivity. }
    apply (neutral_bind _ _ _ _ m (fun _ => True)).
    + apply (neutral_bind _ _ _ _ m (fun j => j = 0%nat)); [apply neutral_nil|]. intros k _. apply (neutral_post _ _ _ _ _ (fun j => j = (k + b)%nat)); auto. apply neutral_add, LW.
    + intros k _. apply (neutral_bind _ _ _ _ k (fun _ => True)); [apply neutral_loop|]. intros j _.
      apply (neutral_if _ _ _ _ _ _ (fun k => Nat.leb n k)); intro N; [|apply IH]. apply neutral_firstn. apply Nat.leb_le, N.
Qed.
End Strauss.
