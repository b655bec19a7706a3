(** ** C135: the joint law of simulated patterns *)
From Coq Require Import Reals ZArith QArith List Bool Arith Lia Lra Psatz Permutation.
From Verif Require Import Base BaseLemmas Quadrat_model Geometry_model Random_model Random_spec Random_proofs Random_props Joint_spec Joint_proofs.
Import ListNotations.
Local Open Scope R_scope.

Lemma prod_cons : forall x l, prod (x :: l) = x * prod l.
Proof. reflexivity. Qed.

Section Poisson.
Variables (G : list Q) (w : Q -> R) (h : hull) (i : option Q) (sz : size_arg) (n s : Z) (it : xq).
Notation mean := (mean G w).
Notation kept := (kept G w (box_candidate (h_bbox h)) (h_contains h)).
Notation N := (Z.to_nat s * Z.to_nat n)%nat.

Lemma chance_poisson : parse_size_and_intensity h i sz = Ok (n, s, it) -> (0 <= n)%Z -> (0 <= s)%Z -> forall L F,
  mean (2 * L) (fun us => of_run (poisson h i sz us) (fun a => F (arr_points a))) =
  mean (2 * L) (fun us => of_run (staged (h_contains h) us (repeat (box_candidate (h_bbox h)) N)) F).
Proof. intros P Hn Hs L F. apply mean_ext. intro us. rewrite of_run_points, (poisson_staged _ _ _ _ _ _ P Hn Hs). reflexivity. Qed.
Lemma finish_poisson : is_law G w -> parse_size_and_intensity h i sz = Ok (n, s, it) -> (0 <= n)%Z -> (0 <= s)%Z -> forall L,
  mean (2 * L) (fun us => of_run (poisson h i sz us) always) = finish G w (h_contains h) L (repeat (box_candidate (h_bbox h)) N).
Proof. intros LW P Hn Hs L. rewrite finish_always by exact LW. rewrite <- (chance_poisson P Hn Hs). reflexivity. Qed.
Lemma products : forall fs, List.length fs = N ->
  prod (map (fun mf => Joint_spec.kept G w (fst mf) (h_contains h) (snd mf)) (combine (repeat (box_candidate (h_bbox h)) N) fs)) = prod (map kept fs).
Proof.
  generalize N. intros m fs. revert m. induction fs as [|f fs IH]; intros [|m] E; try discriminate; [reflexivity|]. unfold prod in *. cbn. cbn in E. rewrite IH by lia. reflexivity.
Qed.

(** The points are independent, each with the law of an acceptable candidate, whatever the number of random numbers used. *)
Theorem C135_poisson : is_law G w -> parse_size_and_intensity h i sz = Ok (n, s, it) -> (0 <= n)%Z -> (0 <= s)%Z ->
  forall fs L, List.length fs = N ->
  mean (2 * L) (fun us => of_run (poisson h i sz us) (fun a => prod_at fs (arr_points a))) * kept always ^ N =
  prod (map kept fs) * mean (2 * L) (fun us => of_run (poisson h i sz us) always).
Proof.
  intros LW P Hn Hs fs L E. rewrite (chance_poisson P Hn Hs L (prod_at fs)), (finish_poisson LW P Hn Hs).
  pose proof (chance_product G w LW (h_contains h) L (repeat (box_candidate (h_bbox h)) N) fs ltac:(rewrite repeat_length; exact E)) as C.
  rewrite products in C by exact E. rewrite map_repeat', prod_repeat in C. exact C.
Qed.

(** No position in the pattern is special. *)
Theorem C135_exchangeable : is_law G w -> parse_size_and_intensity h i sz = Ok (n, s, it) -> (0 <= n)%Z -> (0 <= s)%Z -> kept always <> 0 ->
  forall fs fs' L, List.length fs = N -> Permutation fs fs' ->
  mean (2 * L) (fun us => of_run (poisson h i sz us) (fun a => prod_at fs (arr_points a))) =
  mean (2 * L) (fun us => of_run (poisson h i sz us) (fun a => prod_at fs' (arr_points a))).
Proof.
  intros LW P Hn Hs A fs fs' L E PM. apply Rmult_eq_reg_r with (kept always ^ N); [|apply pow_nonzero; exact A].
  rewrite (C135_poisson LW P Hn Hs fs L E), (C135_poisson LW P Hn Hs fs' L ltac:(rewrite <- (Permutation_length PM); exact E)). f_equal.
  clear - PM. unfold prod. induction PM as [|x l l' H IH|x y l|a b c H1 I1 H2 I2]; cbn; try reflexivity; [rewrite IH; reflexivity|ring|rewrite I1; exact I2].
Qed.

(** Each point has the law of an acceptable candidate. *)
Theorem C135_point : is_law G w -> parse_size_and_intensity h i sz = Ok (n, s, it) -> (0 <= n)%Z -> (0 <= s)%Z -> kept always <> 0 ->
  forall f k L, (k < N)%nat ->
  mean (2 * L) (fun us => of_run (poisson h i sz us) (fun a => f (nth k (arr_points a) (0%Q, 0%Q)))) * kept always =
  kept f * mean (2 * L) (fun us => of_run (poisson h i sz us) always).
Proof.
  intros LW P Hn Hs A f k L K. set (fs := repeat (@always pt) k ++ f :: repeat (@always pt) (N - S k)).
  assert (E : List.length fs = N) by (unfold fs; rewrite app_length; cbn [List.length]; rewrite !repeat_length; lia).
  assert (X : mean (2 * L) (fun us => of_run (poisson h i sz us) (fun a => f (nth k (arr_points a) (0%Q, 0%Q)))) =
    mean (2 * L) (fun us => of_run (poisson h i sz us) (fun a => prod_at fs (arr_points a)))).
  { rewrite (chance_poisson P Hn Hs L (fun ps => f (nth k ps (0%Q, 0%Q)))), (chance_poisson P Hn Hs L (prod_at fs)). apply mean_ext. intro us.
    destruct (staged _ us _) as [l r| |] eqn:S1; cbn [of_run]; try reflexivity. apply staged_length in S1. rewrite repeat_length in S1. rewrite <- S1 in E, K. clear - E K. unfold fs in *. clear fs. revert E. generalize (N - S k)%nat. intros m E.
    revert l m K E. induction k as [|k IH]; intros [|p l] m K E; try (cbn in K; lia).
    - cbn [repeat app nth]. unfold prod_at, prod. cbn. clear. assert (Y : forall m1 l1, fold_right Rmult 1 (map (fun fp => fst fp (snd fp)) (combine (repeat (@always pt) m1) l1)) = 1).
      { induction m1 as [|m1 IH]; intros [|q l0]; cbn; try reflexivity. rewrite IH. unfold always. ring. } rewrite Y. ring.
    - cbn in K, E. cbn [repeat app nth]. rewrite (IH l m) by lia. unfold prod_at, prod. cbn. unfold always at 3. ring. }
  rewrite X. apply Rmult_eq_reg_r with (kept always ^ (N - 1)); [|apply pow_nonzero; exact A].
  assert (PN : forall m (x : R), (0 < m)%nat -> x ^ m = x * x ^ (m - 1)) by (intros [|m] x Hm; [lia|]; cbn [pow Nat.sub]; rewrite Nat.sub_0_r; reflexivity).
  rewrite Rmult_assoc, <- PN by lia.
  rewrite (C135_poisson LW P Hn Hs fs L E). unfold fs. rewrite map_app. cbn [map]. rewrite prod_app, !map_repeat'. unfold prod at 2. cbn [fold_right]. fold (prod (repeat (kept always) (N - S k))). rewrite !prod_repeat.
  replace (N - 1)%nat with (k + (N - S k))%nat by lia. rewrite pow_add. ring.
Qed.

(** The number of points in a region is binomial: its generating function. *)
Theorem C135_counts : is_law G w -> parse_size_and_intensity h i sz = Ok (n, s, it) -> (0 <= n)%Z -> (0 <= s)%Z ->
  forall B z L,
  mean (2 * L) (fun us => of_run (poisson h i sz us) (fun a => power_count z B (arr_points a))) * kept always ^ N =
  (z * kept (indicator B) + kept (indicator (fun p => negb (B p)))) ^ N * mean (2 * L) (fun us => of_run (poisson h i sz us) always).
Proof.
  intros LW P Hn Hs B z L. set (f := fun p => if B p then z else 1).
  assert (K : kept f = z * kept (indicator B) + kept (indicator (fun p => negb (B p)))).
  { unfold Joint_spec.kept. rewrite <- (Rmult_1_l (Joint_spec.mean1 G w (fun u => Joint_spec.mean1 G w (fun v => if h_contains h _ then indicator (fun p => negb (B p)) _ else 0)))).
    rewrite <- mean1_lin. apply mean1_ext. intro u. rewrite <- mean1_lin. apply mean1_ext. intro v. unfold f, indicator. destruct (h_contains h _); [|ring]. destruct (B _); cbn; ring. }
  rewrite <- K, <- (prod_repeat (kept f) N). rewrite <- (map_repeat' _ _ kept f N). rewrite <- (C135_poisson LW P Hn Hs (repeat f N) L (repeat_length f N)). f_equal.
  rewrite (chance_poisson P Hn Hs L (power_count z B)), (chance_poisson P Hn Hs L (prod_at (repeat f N))). apply mean_ext. intro us.
  destruct (staged _ us _) as [l r| |] eqn:S1; cbn [of_run]; try reflexivity. apply staged_length in S1. rewrite repeat_length in S1. revert S1. generalize N. clear.
  unfold power_count, prod_at, prod. induction l as [|p l IH]; intros [|m] E; try discriminate; [reflexivity|]. cbn in E. cbn. rewrite <- (IH m) by lia. unfold f. destruct (B p); cbn; ring.
Qed.

(** With a positive chance of an acceptable candidate, enough numbers almost surely suffice; with none, no amount does. *)
Theorem C135_time : is_law G w -> parse_size_and_intensity h i sz = Ok (n, s, it) -> (0 <= n)%Z -> (0 <= s)%Z ->
  (forall m, (1 - (1 - kept always) ^ m) ^ N <= mean (2 * (N * m)) (fun us => of_run (poisson h i sz us) always)) /\
  (0 < kept always -> forall eps, 0 < eps -> exists L0, forall L, (L0 <= L)%nat ->
     1 - eps <= mean (2 * L) (fun us => of_run (poisson h i sz us) always) <= 1) /\
  (kept always = 0 -> (0 < N)%nat -> forall L, mean (2 * L) (fun us => of_run (poisson h i sz us) always) = 0).
Proof.
  intros LW P Hn Hs. split; [|split].
  - intro m. rewrite (finish_poisson LW P Hn Hs). pose proof (finish_all G w LW (h_contains h) m (repeat (box_candidate (h_bbox h)) N)) as F.
    rewrite repeat_length, map_repeat', prod_repeat in F. exact F.
  - intros A eps E. destruct (finish_limit G w LW (h_contains h) (box_candidate (h_bbox h)) N A eps E) as [L0 H]. exists L0. intros L HL. rewrite (finish_poisson LW P Hn Hs).
    split; [apply H; exact HL|apply finish_le_1; exact LW].
  - intros A HN L. rewrite (finish_poisson LW P Hn Hs). destruct N as [|m]; [lia|]. cbn [repeat]. apply finish_never; assumption.
Qed.

(** The expected number of random numbers: two for every candidate, one over the chance of acceptance candidates for every point. *)
Theorem C135_numbers : is_law G w -> parse_size_and_intensity h i sz = Ok (n, s, it) -> (0 <= n)%Z -> (0 <= s)%Z -> 0 < kept always ->
  (forall L, 2 * INR N / kept always * mean (2 * L) (fun us => of_run (poisson h i sz us) always) <=
             mean (2 * L) (fun us => used us (poisson h i sz us)) <= 2 * INR N / kept always) /\
  (forall eps, 0 < eps -> exists L0, forall L, (L0 <= L)%nat ->
     2 * INR N / kept always * (1 - eps) <= mean (2 * L) (fun us => used us (poisson h i sz us))).
Proof.
  intros LW P Hn Hs A. set (mk := box_candidate (h_bbox h)).
  assert (U : forall L, mean (2 * L) (fun us => used us (poisson h i sz us)) = cost G w (h_contains h) L (repeat mk N)).
  { intro L. apply mean_ext. intro us. rewrite used_points, (poisson_staged _ _ _ _ _ _ P Hn Hs). reflexivity. }
  assert (LB : forall L, 2 * INR N / kept always * finish G w (h_contains h) L (repeat mk N) <= cost G w (h_contains h) L (repeat mk N)).
  { intro L. pose proof (cost_found G w LW (h_contains h) mk L N) as C. pose proof (found_ge G w LW (h_contains h) L mk N) as F. fold mk in A |- *.
    apply Rmult_le_reg_l with (Joint_spec.kept G w mk (h_contains h) always); [exact A|]. rewrite C. unfold Rdiv.
    replace (Joint_spec.kept G w mk (h_contains h) always * (2 * INR N * / Joint_spec.kept G w mk (h_contains h) always * finish G w (h_contains h) L (repeat mk N))) with (2 * (INR N * finish G w (h_contains h) L (repeat mk N))) by (field; lra). lra. }
  split.
  - intro L. rewrite (finish_poisson LW P Hn Hs), U. split; [apply LB|].
    pose proof (cost_found G w LW (h_contains h) mk L N) as C. pose proof (found_le G w LW (h_contains h) L mk N) as F. fold mk in A |- *.
    apply Rmult_le_reg_l with (Joint_spec.kept G w mk (h_contains h) always); [exact A|]. rewrite C. replace (Joint_spec.kept G w mk (h_contains h) always * (2 * INR N / Joint_spec.kept G w mk (h_contains h) always)) with (2 * INR N) by (field; lra). lra.
  - intros eps E. destruct (finish_limit G w LW (h_contains h) mk N A eps E) as [L0 H]. exists L0. intros L HL. rewrite U. eapply Rle_trans; [|apply LB].
    apply Rmult_le_compat_l; [|apply H; exact HL]. apply Rmult_le_pos; [|left; apply Rinv_0_lt_compat; exact A]. pose proof (pos_INR N). lra.
Qed.
End Poisson.
Print Assumptions C135_poisson.
Print Assumptions C135_exchangeable.
Print Assumptions C135_point.
Print Assumptions C135_counts.
Print Assumptions C135_time.
Print Assumptions C135_numbers.

(** The points of [normal] are independent too; those of replication j have the law of its acceptable candidates. *)
Theorem C135_normal : forall (G : list Q) (w : Q -> R) h mk c sz n s it, is_law G w ->
  parse_size_and_intensity h None sz = Ok (n, s, it) -> (0 <= n)%Z -> (0 <= s)%Z -> check_cov c s = Ok tt ->
  forall fss L, List.length fss = Z.to_nat s -> Forall (fun fs => List.length fs = Z.to_nat n) fss ->
  mean G w (2 * L) (fun us => of_run (normal h mk c sz us) (fun a => prod_at (concat fss) (arr_points a))) *
    prod (map (fun j => kept G w (mk j) (h_contains h) always ^ Z.to_nat n) (seq 0 (Z.to_nat s))) =
  prod (map (fun jf => prod (map (kept G w (mk (fst jf)) (h_contains h)) (snd jf))) (combine (seq 0 (Z.to_nat s)) fss)) *
    mean G w (2 * L) (fun us => of_run (normal h mk c sz us) always).
Proof.
  intros G w h mk c sz n s it LW P Hn Hs C fss L E F.
  assert (X : forall F0, mean G w (2 * L) (fun us => of_run (normal h mk c sz us) (fun a => F0 (arr_points a))) =
    mean G w (2 * L) (fun us => of_run (staged (h_contains h) us (stages mk (Z.to_nat n) 0 (Z.to_nat s))) F0)).
  { intro F0. apply mean_ext. intro us. rewrite of_run_points, (normal_staged _ _ _ _ _ _ _ P Hn Hs C). reflexivity. }
  rewrite (X (prod_at (concat fss))). rewrite (X always : mean G w (2 * L) (fun us => of_run (normal h mk c sz us) always) = _). rewrite <- finish_always by exact LW.
  fold (chance G w (h_contains h) L (stages mk (Z.to_nat n) 0 (Z.to_nat s)) (concat fss)).
  generalize 0%nat as i0. revert E. clear X C P Hs it. generalize (Z.to_nat s) as r. intros r E i0.
  assert (LEN : List.length (concat fss) = List.length (stages mk (Z.to_nat n) i0 r)).
  { revert i0 r E. induction fss as [|fs fss IH]; intros i0 [|r] E; try discriminate; [reflexivity|]. apply Forall_cons_iff in F. destruct F as [F1 F2]. cbn in E.
    unfold stages. cbn [seq map concat]. rewrite !app_length, repeat_length. fold (stages mk (Z.to_nat n) (S i0) r). rewrite <- (IH F2 (S i0) r) by lia. lia. }
  pose proof (chance_product G w LW (h_contains h) L _ _ LEN) as CP. unfold finish.
  assert (A1 : prod (map (fun m => kept G w m (h_contains h) always) (stages mk (Z.to_nat n) i0 r)) = prod (map (fun j => kept G w (mk j) (h_contains h) always ^ Z.to_nat n) (seq i0 r))).
  { clear. revert i0. induction r as [|r IH]; intro i0; [reflexivity|]. unfold stages. cbn [seq map concat]. rewrite map_app, prod_app, map_repeat', prod_repeat. fold (stages mk (Z.to_nat n) (S i0) r). rewrite IH. reflexivity. }
  assert (A2 : prod (map (fun mf => kept G w (fst mf) (h_contains h) (snd mf)) (combine (stages mk (Z.to_nat n) i0 r) (concat fss))) =
    prod (map (fun jf => prod (map (kept G w (mk (fst jf)) (h_contains h)) (snd jf))) (combine (seq i0 r) fss))).
  { clear - E F. revert i0 r E. induction fss as [|fs fss IH]; intros i0 [|r] E; try discriminate; [reflexivity|]. apply Forall_cons_iff in F. destruct F as [F1 F2]. cbn in E.
    unfold stages. cbn [seq map concat combine]. fold (stages mk (Z.to_nat n) (S i0) r). cbn [map fst snd].
    assert (CA : forall m l (g : list (pt -> R)) g', List.length g = m -> combine (repeat (mk i0) m ++ l) (g ++ g') = combine (repeat (mk i0) m) g ++ combine l g').
    { induction m as [|m IHm]; intros l [|x g] g' G1; try discriminate; [reflexivity|]. cbn in G1. cbn. rewrite (IHm l g g') by lia. reflexivity. }
    rewrite (CA _ (stages mk (Z.to_nat n) (S i0) r) fs (concat fss) F1). rewrite map_app, prod_app. rewrite (IH F2 (S i0) r) by lia. rewrite prod_cons. f_equal.
    clear - F1. revert fs F1. generalize (Z.to_nat n). induction n0 as [|m IHm]; intros [|x g] G1; try discriminate; [reflexivity|]. cbn in G1. unfold prod in *. cbn. rewrite (IHm g) by lia. reflexivity. }
  rewrite A1, A2 in CP. exact CP.
Qed.
Print Assumptions C135_normal.

(** Fair draws of 1/4 or 3/4: the triangle accepts three of the four candidates, so that four numbers give two points with chance 9/16;
    two of the three lie in the left half: E 2^count = ((2 * 1/2 + 1/4) / (3/4))^2 * 9/16. *)
Example C135_case : let G := [1#4; 3#4]%Q in let w := fun _ : Q => 1 / 2 in
  is_law G w /\ parse_size_and_intensity tri None (SInt 2) = Ok (2%Z, 1%Z, Fin (2#8)) /\
  kept G w (box_candidate (h_bbox tri)) (h_contains tri) always = 3 / 4 /\
  kept G w (box_candidate (h_bbox tri)) (h_contains tri) (indicator (fun p => Qle_bool (fst p) 2)) = 1 / 2 /\
  mean G w 4 (fun us => of_run (poisson tri None (SInt 2) us) always) = 9 / 16 /\
  mean G w 4 (fun us => of_run (poisson tri None (SInt 2) us) (fun a => power_count 2 (fun p => Qle_bool (fst p) 2) (arr_points a))) = 25 / 16.
Proof.
  cbv zeta. split; [split; [intros; lra|unfold mean1; cbn; lra]|]. split; [reflexivity|].
  unfold kept, mean, mean1, always, indicator, power_count. cbn [map fold_right].
  repeat match goal with |- context [h_contains tri ?p] => let b := eval vm_compute in (h_contains tri p) in change (h_contains tri p) with b end.
  repeat match goal with |- context [Qle_bool (fst ?p) 2] => let b := eval vm_compute in (Qle_bool (fst p) 2) in change (Qle_bool (fst p) 2) with b end.
  repeat match goal with |- context [poisson tri None (SInt 2) ?us] => let b := eval vm_compute in (poisson tri None (SInt 2) us) in change (poisson tri None (SInt 2) us) with b end.
  cbn -[Rplus Rmult Rdiv]. repeat split; lra.
Qed.
