(** From streams of numbers to independent patterns. *)
From Coq Require Import Reals Qreals ZArith QArith Qround List Bool Arith Lia Lra Psatz Permutation.
From Verif Require Import Base BaseLemmas Quadrat_model Geometry_model Random_model Random_spec Random_proofs Joint_spec Joint_proofs
  Spacetime_model Spacetime_proofs Size_spec Size_proofs Null_spec Null_proofs.
Import ListNotations.
Local Open Scope R_scope.

Lemma yes_range : forall b, 0 <= yes b <= 1.
Proof. intros []; unfold yes; lra. Qed.
Lemma chunks_concat : forall n d, Forall (fun l => List.length l = n) d -> chunks n (List.length d) (concat d) = d.
Proof.
  intros n d H. induction H as [|l d L _ IH]; [reflexivity|]. cbn [List.length chunks concat].
  rewrite firstn_app, skipn_app, <- L, firstn_all, skipn_all, Nat.sub_diag. cbn [firstn skipn app]. rewrite app_nil_r, L, IH. reflexivity.
Qed.

Section Bridge.
Variables (G : list Q) (w : Q -> R) (mk : Q -> Q -> pt) (ok : pt -> bool) (n : nat).
Hypothesis LW : is_law G w.
Notation mean := (mean G w).
Notation draw := (fun us => reject mk ok us n).
Notation E := (source G w ok mk n).
Notation a := (kept G w mk ok always).

Lemma replicate_points : forall s us F, of_run (replicate draw s us) F = of_run (staged ok us (repeat mk (s * n))) (fun l => F (chunks n s l)).
Proof.
  clear LW. intros s us F. rewrite <- replicate_staged. destruct (replicate draw s us) as [d r|e|] eqn:X; cbn [rbind of_run]; try reflexivity.
  apply (replicate_sound (fun l => List.length l = n)) in X.
  - destruct X as [<- X]. rewrite chunks_concat by exact X. reflexivity.
  - intros us' l r' Y. apply reject_sound in Y. apply Y.
Qed.
Lemma replicate_law : forall s L F,
  mean (2 * L) (fun us => of_run (replicate draw s us) F) * a ^ (s * n) =
  iter E s F * mean (2 * L) (fun us => of_run (replicate draw s us) always).
Proof using LW.
  intros s L F. rewrite <- all_power, <- (chunks_iter G w ok mk n s F).
  rewrite (mean_ext G w _ _ _ (fun us => replicate_points s us F)). rewrite (mean_ext G w _ _ _ (fun us => replicate_points s us always)).
  apply (law_joint G w ok LW L (repeat mk (s * n)) (fun l => F (chunks n s l))).
Qed.
Lemma replicate_never : forall s L, a = 0 -> (0 < s * n)%nat -> mean (2 * L) (fun us => of_run (replicate draw s us) always) = 0.
Proof using LW.
  intros s L A N. rewrite (mean_ext G w _ _ _ (fun us => replicate_points s us always)).
  change (mean (2 * L) (fun us => of_run (staged ok us (repeat mk (s * n))) always) = 0).
  rewrite <- finish_always by exact LW. destruct (s * n)%nat as [|m]; [lia|]. cbn [repeat]. apply finish_never; auto.
Qed.
Lemma replicate_ge0 : forall s L F, (forall d, 0 <= F d) -> 0 <= mean (2 * L) (fun us => of_run (replicate draw s us) F).
Proof using LW.
  intros s L F H. rewrite <- (mean_const G w LW (2 * L) 0) at 1. apply mean_le; auto. intro us. destruct (replicate draw s us); cbn [of_run]; auto; lra.
Qed.
Lemma replicate_bound : forall s L c c' F F', (forall d, 0 <= F d <= 1) -> (forall d, 0 <= F' d <= 1) ->
  c * iter E s F <= c' * iter E s F' ->
  c * mean (2 * L) (fun us => of_run (replicate draw s us) F) <= c' * mean (2 * L) (fun us => of_run (replicate draw s us) F').
Proof using LW.
  intros s L c c' F F' B B' H. destruct (kept_range G w LW mk ok) as [A0 A1].
  pose proof (replicate_law s L F) as X. pose proof (replicate_law s L F') as X'.
  pose proof (replicate_ge0 s L always (fun _ => Rle_0_1)) as P0. set (P := mean (2 * L) (fun us => of_run (replicate draw s us) always)) in *.
  destruct (Req_dec (a ^ (s * n)) 0) as [Z|Z].
  - assert (AZ : a = 0 /\ (0 < s * n)%nat).
    { split; [|destruct (s * n)%nat; [cbn in Z; lra|lia]]. destruct (Req_dec a 0) as [e|e]; auto. exfalso. apply (pow_nonzero _ (s * n) e Z). }
    destruct AZ as [AZ N]. pose proof (replicate_never s L AZ N) as PZ. fold P in PZ.
    assert (NUL : forall H, (forall d, 0 <= H d <= 1) -> mean (2 * L) (fun us => of_run (replicate draw s us) H) = 0).
    { intros H' BH. apply Rle_antisym; [|apply replicate_ge0; intro; apply BH]. rewrite <- PZ. unfold P. apply mean_le; auto. intro us. destruct (replicate draw s us); cbn [of_run]; try lra. apply BH. }
    rewrite (NUL F B), (NUL F' B'). lra.
  - assert (K : 0 < a ^ (s * n)). { pose proof (pow_le a (s * n) A0). lra. }
    apply (Rmult_le_reg_r (a ^ (s * n)) _ _ K). rewrite !Rmult_assoc, X, X', <- !Rmult_assoc. apply Rmult_le_compat_r; auto.
Qed.
Lemma replicate_eq : forall s L c c' F F', (forall d, 0 <= F d <= 1) -> (forall d, 0 <= F' d <= 1) ->
  c * iter E s F = c' * iter E s F' ->
  c * mean (2 * L) (fun us => of_run (replicate draw s us) F) = c' * mean (2 * L) (fun us => of_run (replicate draw s us) F').
Proof using LW. intros s L c c' F F' B B' H. apply Rle_antisym; apply replicate_bound; auto; rewrite H; apply Rle_refl. Qed.

(** ** Scores that may fail *)
Context {V : Type} (ge : V -> V -> bool) (good : V -> Prop) (score : list pt -> option V).
Hypothesis ge_order : forall l, (forall v, In v l -> good v) -> total_order ge l.
Hypothesis score_good : forall p v, score p = Some v -> good v.
Definition oge (x y : option V) : bool := match x, y with None, _ => true | Some _, None => false | Some x, Some y => ge x y end.
Definition is_some (x : option V) : bool := match x with Some _ => true | None => false end.
Lemma oge_order : forall l : list (list pt), total_order oge (map score l).
Proof using ge_order score_good.
  clear LW. intro l.
  assert (TO : forall vs, (forall v, In v vs -> good v) -> total_order ge vs) by exact ge_order.
  assert (GD : forall x v, In x (map score l) -> x = Some v -> good v).
  { intros x v X E'. apply in_map_iff in X. destruct X as [p [X1 X2]]. apply (score_good p). congruence. }
  split.
  - intros x y X Y. destruct x as [x|]; destruct y as [y|]; cbn [oge]; auto.
    destruct (TO [x; y]) as [T1 _]; [intros v [<-|[<-|[]]]; [apply (GD (Some x))|apply (GD (Some y))]; auto|]. apply T1; cbn; auto.
  - intros x y z X Y Z. destruct x as [x|]; destruct y as [y|]; destruct z as [z|]; cbn [oge]; auto; try discriminate.
    destruct (TO [x; y; z]) as [_ T2].
    { intros v [<-|[<-|[<-|[]]]]; [apply (GD (Some x))|apply (GD (Some y))|apply (GD (Some z))]; auto. }
    apply T2; cbn; auto.
Qed.
Lemma above_some : forall v vs, above oge (Some v) (map Some vs) = above ge v vs.
Proof. clear. intros v vs. unfold above. rewrite count_map. reflexivity. Qed.
Lemma untied_some : forall vs, untied oge (map Some vs) = untied ge vs.
Proof.
  clear. induction vs as [|v vs IH]; [reflexivity|]. cbn [map untied]. rewrite IH. f_equal. clear. induction vs as [|u vs IH]; [reflexivity|]. cbn [map forallb]. rewrite IH. reflexivity.
Qed.
Lemma all_some : forall l, forallb is_some l = true -> exists vs, l = map Some vs.
Proof.
  clear. induction l as [|[v|] l IH]; intro H; [exists []; reflexivity| |discriminate]. destruct (IH H) as [vs ->]. exists (v :: vs). reflexivity.
Qed.
Lemma forallb_perm : forall (X : Type) (f : X -> bool) l l', Permutation l l' -> forallb f l = forallb f l'.
Proof. clear. intros X f l l' H. induction H; cbn; try congruence. rewrite !andb_assoc, (andb_comm (f y)). reflexivity. Qed.

(** [ev d] is what the test reports for the data and simulations [d]. *)
Context {B : Type} (ev : list (list pt) -> option B) (c : bool).
Definition get (g : B -> R) (d : list (list pt)) : R := match ev d with Some b => g b | None => 0 end.
Notation DD := (D ok n).
(** [num b]: the scores are numbers. *)
Variables (num : B -> bool) (values : B -> list V).
Variable m : nat.
Hypothesis ev_num : forall d, all_of DD (S m) d ->
  (c && forallb is_some (map score d) = true -> exists b, ev d = Some b /\ num b = true /\ map Some (values b) = map score d) /\
  (c && forallb is_some (map score d) = false -> forall b, ev d = Some b -> num b = false).
Definition rk (l : list V) : nat := match l with [] => 0 | v :: _ => above ge v l end.
Definition ork (l : list (option V)) : nat := match l with [] => 0 | v :: _ => above oge v l end.
Lemma ork_some : forall vs, ork (map Some vs) = rk vs.
Proof. clear. intros [|v vs]; [reflexivity|]. unfold ork, rk. cbn [map]. exact (above_some v (v :: vs)). Qed.
Lemma place_ork : forall d, place oge score d = ork (map score d).
Proof. clear. intros [|x d]; reflexivity. Qed.
Lemma get_yes : forall d (h : list V -> bool) (H : list (option V) -> bool), (forall vs, H (map Some vs) = h vs) -> all_of DD (S m) d ->
  get (fun b => yes (num b && h (values b))) d = yes (c && forallb is_some (map score d) && H (map score d)).
Proof using ev_num.
  clear LW ge_order score_good. intros d h H HH AD. destruct (ev_num d AD) as [Y N]. unfold get.
  destruct (c && forallb is_some (map score d)) eqn:C; cbn [andb].
  - destruct (Y eq_refl) as [b [-> [-> VS]]]. rewrite <- VS, HH. reflexivity.
  - destruct (ev d) as [b|]; [|reflexivity]. rewrite (N eq_refl b eq_refl). reflexivity.
Qed.
Definition T0 (l : list (option V)) : bool := c && forallb is_some l.
Lemma T0_perm : forall l l', Permutation l l' -> T0 l = T0 l'.
Proof. clear. intros l l' H. unfold T0. rewrite (forallb_perm _ is_some _ _ H). reflexivity. Qed.
Lemma get_range : forall h d, 0 <= get (fun b => yes (h b)) d <= 1.
Proof. clear. intros h d. unfold get. destruct (ev d) as [b|]; [apply yes_range|lra]. Qed.

Variable exp : list Q -> run B.
Hypothesis exp_ok : forall us g, of_run (exp us) g = of_run (replicate draw (S m) us) (get g).
Let SE := source_ext G w ok mk n.
Let SL := all_lin G w ok (repeat mk n).
Let SW := all_swap G w ok (repeat mk n) (repeat mk n).
Let SLE := source_le G w ok mk n LW.
Let ORD : forall l, (forall x, In x l -> DD x) -> total_order oge (map score l) := fun l _ => oge_order l.
Notation chance L X := (mean (2 * L) (fun us => of_run (exp us) (fun b => yes (X b)))).
Lemma chance_get : forall L X, chance L X = mean (2 * L) (fun us => of_run (replicate draw (S m) us) (get (fun b => yes (X b)))).
Proof using All. intros L X. apply mean_ext. intro us. apply exp_ok. Qed.
Lemma iter_get : forall (h : list V -> bool) (H : list (option V) -> bool), (forall vs, H (map Some vs) = h vs) ->
  iter E (S m) (get (fun b => yes (num b && h (values b)))) = iter E (S m) (fun d => yes (T0 (map score d) && H (map score d))).
Proof using All. intros h H HH. apply (iter_ext E DD SE). intros d AD. apply (get_yes d h H HH AD). Qed.
Lemma iter_num : iter E (S m) (get (fun b => yes (num b))) = iter E (S m) (fun d => yes (T0 (map score d))).
Proof using All.

  transitivity (iter E (S m) (get (fun b => yes (num b && (fun _ => true) (values b))))).
  - apply (iter_ext E DD SE). intros d _. unfold get. destruct (ev d); [rewrite andb_true_r|]; reflexivity.
  - rewrite (iter_get (fun _ => true) (fun _ => true)) by reflexivity. apply (iter_ext E DD SE). intros d _. rewrite andb_true_r. reflexivity.
Qed.
Lemma chance_same : forall L X Y, (forall d b, all_of DD (S m) d -> ev d = Some b -> X b = Y b) -> chance L X = chance L Y.
Proof using All.
  intros L X Y H. rewrite !chance_get. apply mean_ext. intro us.
  destruct (replicate draw (S m) us) as [d r|e|] eqn:RE; cbn [of_run]; try reflexivity.
  unfold get. destruct (ev d) as [b|] eqn:EB; [|reflexivity]. rewrite (H d b); auto.
  apply (replicate_sound (fun l => D ok n l)) in RE.
  - destruct RE as [RL RF]. split; [exact RL|]. apply Forall_forall. exact RF.
  - intros us' l r' Z. apply reject_sound in Z. split; [apply Z|]. destruct Z as [_ [Z _]]. rewrite Forall_forall in Z. intros p P. apply (Z p P).
Qed.
Theorem test_upper : forall L k, INR (S m) * chance L (fun b => num b && Nat.leb (rk (values b)) k) <= INR k * chance L num.
Proof using All.
  intros L k. rewrite !chance_get. apply replicate_bound; try (intro; apply get_range).
  rewrite (iter_get (fun vs => Nat.leb (rk vs) k) (fun l => Nat.leb (ork l) k)) by (intro; rewrite ork_some; reflexivity). rewrite iter_num.
  pose proof (given_upper E DD SE SL SLE SW oge score ORD T0 T0_perm m k) as X.
  eapply Rle_trans; [|exact X]. right. reflexivity.
Qed.
Theorem test_folded : forall L k, (k <= m)%nat ->
  INR (S k) * chance L num <= INR (S m) * chance L (fun b => num b && (Nat.leb (rk (values b)) k || Nat.leb (S m - k) (rk (values b)))).
Proof using All.
  intros L k K. rewrite !chance_get. apply replicate_bound; try (intro; apply get_range).
  rewrite (iter_get (fun vs => Nat.leb (rk vs) k || Nat.leb (S m - k) (rk vs)) (fun l => Nat.leb (ork l) k || Nat.leb (S m - k) (ork l))) by (intro; rewrite ork_some; reflexivity). rewrite iter_num.
  pose proof (given_folded E DD SE SL SLE SW oge score ORD T0 T0_perm m k K) as X.
  eapply Rle_trans; [exact X|]. right. reflexivity.
Qed.
Theorem test_untied : forall L (f : nat -> bool),
  INR (S m) * chance L (fun b => num b && (untied ge (values b) && f (rk (values b)))) =
  INR (count f (seq 1 (S m))) * chance L (fun b => num b && untied ge (values b)).
Proof using All.
  intros L f. rewrite !chance_get. apply replicate_eq; try (intro; apply get_range).
  rewrite (iter_get (fun vs => untied ge vs && f (rk vs)) (fun l => untied oge l && f (ork l))) by (intro; rewrite ork_some, untied_some; reflexivity).
  rewrite (iter_get (untied ge) (untied oge)) by (intro; apply untied_some).
  pose proof (given_untied E DD SE SL SW oge score ORD T0 T0_perm m f) as X.
  etransitivity; [|exact X]. f_equal. apply (iter_ext E DD SE). intros d _. rewrite place_ork, andb_assoc. reflexivity.
Qed.
End Bridge.

(** Data drawn by [poisson]. *)
Lemma experiment_run : forall (B : Type) h n (test : list pt -> list Q -> run B),
  (exists e, forall us, experiment h n test us = Exc e) \/
  (forall us, experiment h n test us = rbind (reject (box_candidate (h_bbox h)) (h_contains h) us n) test).
Proof.
  intros B h n test. unfold experiment, poisson, parse_size_and_intensity.
  destruct (div_area (Z.of_nat n) h) as [i|e] eqn:DA; cbn [lift bind rbind]; [right|left; exists e; reflexivity].
  intro us. unfold alloc. destruct (Z.ltb_spec (Z.of_nat n) 0); [lia|]. cbn [orb Z.ltb Z.compare lift rbind]. change (Z.to_nat 1) with 1%nat. rewrite Nat2Z.id.
  cbn [replicate]. destruct (reject _ _ us n) as [l r| |] eqn:X; cbn [rbind]; try reflexivity.
  apply reject_sound in X. destruct X as [L _].
  destruct (squeeze_points 1 n [l]) as [-> _]; [reflexivity|repeat constructor; exact L|]. cbn [concat]. rewrite app_nil_r. reflexivity.
Qed.
