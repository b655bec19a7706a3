(** Proofs on the mean of Ripley's K. *)
From Coq Require Import Reals Qreals ZArith QArith Qround Qminmax List Bool Arith Lia Lra Psatz String.
From Verif Require Import Base BaseLemmas Quadrat_model Geometry_model Random_model Random_spec DistStats_model DistStats_proofs Ripley_model Joint_spec Joint_proofs Joint_props Blocks_spec Null_spec Null_proofs Chimean_spec Chimean_proofs Kmean_spec.
Import ListNotations.
Local Open Scope R_scope.

(** ** Pairs *)
Lemma pdist_S : forall n D, pdist (S n) D = map (D 0%nat) (seq 1 n) ++ pdist n (fun i j => D (S i) (S j)).
Proof.
  intros n D. unfold pdist. cbn [seq map List.concat]. rewrite Nat.sub_succ, Nat.sub_0_r. f_equal.
  rewrite <- seq_shift, map_map. f_equal. apply map_ext. intro i. rewrite Nat.sub_succ, <- (seq_shift (n - S i)), map_map. reflexivity.
Qed.
Lemma count_app' : forall A (f : A -> bool) l l', count f (l ++ l') = (count f l + count f l')%nat.
Proof. intros A f l l'. unfold count. rewrite filter_app, app_length. reflexivity. Qed.
Lemma count_map' : forall A B (f : B -> bool) (g : A -> B) l, count f (map g l) = count (fun x => f (g x)) l.
Proof. intros A B f g l. unfold count. induction l as [|x l IH]; [reflexivity|]. cbn. destruct (f (g x)); cbn; rewrite IH; reflexivity. Qed.
Lemma count_nth : forall (f : pt -> bool) l d, count (fun i => f (nth i l d)) (seq 0 (List.length l)) = count f l.
Proof.
  intros f l d. rewrite <- (count_map' nat pt f (fun i => nth i l d)). f_equal. induction l as [|x l IH]; [reflexivity|]. cbn [List.length seq map nth]. f_equal. rewrite <- seq_shift, map_map. exact IH.
Qed.
Lemma count_pairs : forall (dist : pt -> pt -> Q) s l d,
  count (fun x => Qltb x s) (pdist (List.length l) (fun i j => dist (nth i l d) (nth j l d))) = close_pairs (fun p q => Qltb (dist p q) s) l.
Proof.
  intros dist s l d. induction l as [|p l IH]; [reflexivity|]. cbn [List.length close_pairs]. rewrite pdist_S, count_app', count_map'. cbn [nth]. f_equal; [|exact IH].
  rewrite <- seq_shift. rewrite count_map'. apply (count_nth (fun q => Qltb (dist p q) s)).
Qed.
Lemma close_app : forall near a l, INR (close_pairs near (a ++ l)) = INR (close_pairs near a) + sum_over a (fun p => INR (count (near p) l)) + INR (close_pairs near l).
Proof.
  intros near a l. induction a as [|p a IH]; [unfold sum_over; cbn; ring|]. cbn [app close_pairs]. rewrite so_cons, !plus_INR, IH, count_app', plus_INR. ring.
Qed.

(** ** Means *)
Section Means.
Variables (G : list Q) (w : Q -> R) (ok : pt -> bool) (mk : Q -> Q -> pt) (near : pt -> pt -> bool).
Notation kept := (Joint_spec.kept G w mk ok).
Notation all n := (kept_all G w ok (repeat mk n)).
Hypothesis A : kept always <> 0.
Definition hit (p : pt) : R := share G w mk ok (indicator (near p)).
Definition both : R := share G w mk ok hit.
Lemma both_eq : kept hit = both * kept always.
Proof using A. unfold both, share at 1. field. exact A. Qed.
Lemma pairs_mean : forall n, all n (fun l => INR (close_pairs near l)) = INR n * (INR n - 1) / 2 * both * kept always ^ n.
Proof using A.
  induction n as [|n IH]; [cbn; lra|]. cbn [repeat Null_spec.kept_all].
  rewrite (kept_ext G w ok mk _ (fun x => (INR n * kept always ^ n) * hit x + (INR n * (INR n - 1) / 2 * both * kept always ^ n) * always x)).
  - rewrite kept_lin, both_eq, S_INR. cbn [pow]. field.
  - intros x _. cbn [close_pairs]. rewrite (all_ext G w ok _ _ (fun l => 1 * INR (count (near x) l) + 1 * INR (close_pairs near l))) by (intros l _; rewrite plus_INR; ring).
    rewrite all_lin, IH, (moment1 G w ok mk (near x) A n). change (always x) with 1. unfold hit. ring.
Qed.
Lemma framed_pairs : forall frame n, all n (fun l => INR (close_pairs near (frame ++ l))) =
  (INR (close_pairs near frame) + INR n * sum_over frame hit + INR n * (INR n - 1) / 2 * both) * kept always ^ n.
Proof using A.
  intros frame n. rewrite (all_ext G w ok _ _ (fun l => 1 * (INR (close_pairs near frame) * 1 + 1 * sum_over frame (fun p => INR (count (near p) l))) + 1 * INR (close_pairs near l))) by (intros l _; rewrite close_app; ring).
  rewrite all_lin, pairs_mean, (all_lin G w ok _ (INR (close_pairs near frame)) 1 (fun _ => 1) (fun l => sum_over frame (fun p => INR (count (near p) l)))), all_power, all_sum.
  rewrite (so_ext _ frame _ (fun p => (INR n * kept always ^ n) * hit p)) by (intros p _; rewrite (moment1 G w ok mk (near p) A n); unfold hit; ring). rewrite so_scale. ring.
Qed.
Lemma hit_range : is_law G w -> forall p, 0 <= hit p <= 1.
Proof using A. intros LW p. apply share_range; assumption. Qed.
Lemma both_range : is_law G w -> 0 <= both <= 1.
Proof using A.
  intro LW. destruct (kept_range G w LW mk ok) as [K0 _]. assert (K : 0 < kept always) by lra.
  assert (L0 : 0 <= kept hit).
  { replace 0 with (kept (fun _ => 0)); [apply kept_le; [exact LW|]; intros; apply hit_range, LW|].
    rewrite (kept_ext G w ok mk (fun _ => 0) (fun x => 0 * always x)) by (intros; unfold always; ring). rewrite kept_scale. ring. }
  assert (L1 : kept hit <= kept always) by (apply kept_le; [exact LW|]; intros; unfold always; apply hit_range, LW).
  unfold both, share. split; [apply Rmult_le_pos; [exact L0|left; apply Rinv_0_lt_compat, K]|]. apply Rmult_le_reg_r with (kept always); [exact K|]. unfold Rdiv. rewrite Rmult_assoc, Rinv_l by exact A. lra.
Qed.
End Means.

(** ** What a test of a framed pattern computes *)
Section Framed.
Variables (G : list Q) (w : Q -> R) (h : hull) (frame : list pt) (b : box).
Hypothesis LW : is_law G w.
Hypothesis mbb : compute_mbb frame = Ok b.
Hypothesis inside : forall p, h_contains h p = true -> within b p.
Hypothesis A : kept G w (box_candidate (h_bbox h)) (h_contains h) always <> 0.
Notation mean := (mean G w).
(** The mean of a statistic that is a function of the points. *)
Lemma framed_mean : forall B (test : list pt -> list Q -> run B) (val : B -> R) (stat : list pt -> R) n L,
  (forall l us, List.length l = n -> (forall p, In p l -> within b p) -> exists x, test (frame ++ l) us = Val x us /\ val x = stat l) ->
  mean (2 * L) (fun us => of_run (framed h frame n test us) val) * kept G w (box_candidate (h_bbox h)) (h_contains h) always ^ n =
    kept_all G w (h_contains h) (repeat (box_candidate (h_bbox h)) n) stat * mean (2 * L) (fun us => of_run (framed h frame n test us) always) /\
  mean (2 * L) (fun us => of_run (framed h frame n test us) always) = mean (2 * L) (fun us => of_run (poisson h None (SInt (Z.of_nat n)) us) always).
Proof using LW inside.
  intros B test val stat n L T. unfold framed.
  destruct (parse_size_and_intensity h None (SInt (Z.of_nat n))) as [[[n' s'] it]|e] eqn:P.
  2:{ assert (X : forall us, poisson h None (SInt (Z.of_nat n)) us = Exc e) by (intro us; unfold poisson; rewrite P; reflexivity).
      split.
      - rewrite (mean_ext G w (2 * L) _ (fun _ => 0)) by (intro us; rewrite X; reflexivity). rewrite (mean_ext G w (2 * L) (fun us => of_run _ always) (fun _ => 0)) by (intro us; rewrite X; reflexivity). rewrite mean_const by exact LW. ring.
      - apply mean_ext. intro us. rewrite X. reflexivity. }
  assert (E1 : n' = Z.of_nat n /\ s' = 1%Z).
  { cbn [parse_size_and_intensity] in P. destruct (div_area (Z.of_nat n) h); [|discriminate P]. cbn [bind] in P. inversion P. split; reflexivity. }
  destruct E1 as [-> ->].
  pose proof (chance_poisson G w h None (SInt (Z.of_nat n)) (Z.of_nat n) 1 it P ltac:(lia) ltac:(lia) L) as CP.
  replace (Z.to_nat 1 * Z.to_nat (Z.of_nat n))%nat with n in CP by lia.
  pose proof (poisson_staged h None (SInt (Z.of_nat n)) (Z.of_nat n) 1 it P ltac:(lia) ltac:(lia)) as PS.
  replace (Z.to_nat 1 * Z.to_nat (Z.of_nat n))%nat with n in PS by lia.
  set (mk := box_candidate (h_bbox h)) in *.
  assert (RUN : forall us a rest, poisson h None (SInt (Z.of_nat n)) us = Val a rest -> exists x, test (frame ++ arr_points a) rest = Val x rest /\ val x = stat (arr_points a)).
  { intros us a rest H. specialize (PS us). rewrite H in PS. cbn [rbind] in PS. symmetry in PS. apply staged_fits in PS. destruct PS as [PL PI]. rewrite repeat_length in PL.
    apply T; [exact PL|]. intros p I. apply inside, PI, I. }
  assert (END : mean (2 * L) (fun us => of_run (rbind (poisson h None (SInt (Z.of_nat n)) us) (fun a us0 => test (frame ++ arr_points a) us0)) always) =
                mean (2 * L) (fun us => of_run (poisson h None (SInt (Z.of_nat n)) us) always)).
  { apply mean_ext. intro us. destruct (poisson h None (SInt (Z.of_nat n)) us) as [a rest| |] eqn:E; cbn [rbind of_run]; try reflexivity. destruct (RUN us a rest E) as [x [-> _]]. reflexivity. }
  split; [|exact END]. rewrite END. rewrite (mean_ext G w (2 * L) _ (fun us => of_run (poisson h None (SInt (Z.of_nat n)) us) (fun a => stat (arr_points a)))).
  2:{ intro us. destruct (poisson h None (SInt (Z.of_nat n)) us) as [a rest| |] eqn:E; cbn [rbind of_run]; try reflexivity. destruct (RUN us a rest E) as [x [-> X]]. exact X. }
  rewrite CP. pose proof (law_joint G w (h_contains h) LW L (repeat mk n) stat) as LJ. unfold law in LJ. rewrite all_power in LJ.
  assert (AL : mean (2 * L) (fun us => of_run (poisson h None (SInt (Z.of_nat n)) us) always) = mean (2 * L) (fun us => of_run (staged (h_contains h) us (repeat mk n)) (fun _ => 1))) by (rewrite <- (CP (fun _ => 1)); reflexivity).
  rewrite AL. exact LJ.
Qed.
End Framed.
Lemma mean_lin2 : forall G w L a b F H, mean G w L (fun us => a * F us + b * H us) = a * mean G w L F + b * mean G w L H.
Proof.
  intros G w. induction L as [|L IH]; intros a b F H; [reflexivity|]. cbn [Joint_spec.mean]. rewrite <- mean1_lin. apply mean1_ext. intro u. apply (IH a b (fun us => F (u :: us)) (fun us => H (u :: us))).
Qed.
