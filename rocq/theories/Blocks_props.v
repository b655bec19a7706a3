(** ** C136: the joint law of points drawn in blocks *)
From Coq Require Import Reals ZArith QArith List Bool Arith Lia Lra Psatz.
From Verif Require Import Base BaseLemmas Quadrat_model Geometry_model Random_model Random_spec Random_proofs Random_props Process_model Joint_spec Joint_proofs Blocks_spec Blocks_proofs.
Import ListNotations.
Local Open Scope R_scope.

Section Law.
Variables (G : list Q) (w : Q -> R).
Notation mean := (mean G w).

(** One sampler, and what comes after it. *)
Lemma sampler_then : is_law G w -> forall (S : list Q -> run (list pt)) mk ok k need, (forall us, S us = blocks (Datatypes.S (List.length us)) mk ok k need us) ->
  kept G w mk ok always <> 0 -> forall L fs K K' c, List.length fs = need -> (forall L, mean L K = c * mean L K') ->
  mean L (fun us => of_run2 (S us) (fun l rest => prod_at fs l * K rest)) = prod (map (share G w mk ok) fs) * c * mean L (fun us => of_run2 (S us) (fun _ rest => K' rest)).
Proof.
  intros LW S mk ok k need HS A L fs K K' c E HK.
  rewrite (mean_ext_len G w L _ (fun us => of_run2 (blocks (Datatypes.S L) mk ok k need us) (fun l rest => prod_at fs l * K rest))) by (intros us X; rewrite HS, X; reflexivity).
  rewrite (blocks_replace G w LW mk ok A _ k need L fs K (fun rest => c * K' rest) E) by (intro L0; rewrite mean_scale; apply HK).
  rewrite <- mean_scale. apply mean_ext_len. intros us X. rewrite HS, X. destruct (blocks _ mk ok k need us) as [l r| |] eqn:B; cbn [of_run2]; try ring.
  apply blocks_length in B. rewrite prod_shares by lia. ring.
Qed.
Lemma of_run_1 : forall (A : Type) (r : run A) F, of_run r F = of_run2 r (fun a _ => F a).
Proof. intros A [a r|e|] F; reflexivity. Qed.
Lemma sampler_alone : is_law G w -> forall (S : list Q -> run (list pt)) mk ok k need, (forall us, S us = blocks (Datatypes.S (List.length us)) mk ok k need us) ->
  kept G w mk ok always <> 0 -> forall L fs, List.length fs = need ->
  mean L (fun us => of_run (S us) (prod_at fs)) = prod (map (share G w mk ok) fs) * mean L (fun us => of_run (S us) always).
Proof.
  intros LW S mk ok k need HS A L fs E. pose proof (sampler_then LW S mk ok k need HS A L fs (fun _ => 1) (fun _ => 1) 1 E ltac:(intro; ring)) as H.
  rewrite Rmult_1_r in H. rewrite (mean_ext G w L (fun us => of_run (S us) always) (fun us => of_run2 (S us) (fun _ _ => 1))) by (intro us; apply of_run_1).
  rewrite <- H. apply mean_ext. intro us. rewrite of_run_1. destruct (S us) as [l r| |]; cbn [of_run2]; ring.
Qed.

Definition region (h : option hull) : pt -> bool := match h with Some h => h_contains h | None => fun _ => true end.
(** The disc sampler: independent points, each with the law of a point of the square given that it is in the disc and the hull. *)
Theorem C136_disc : is_law G w -> forall n r c burn h, (0 < burn)%nat -> kept G w (around r c) (in_disc r c (region h)) always <> 0 ->
  forall fs L, List.length fs = n ->
  mean L (fun us => of_run (uniform_circle n r c burn h us) (prod_at fs)) =
  prod (map (share G w (around r c) (in_disc r c (region h))) fs) * mean L (fun us => of_run (uniform_circle n r c burn h us) always).
Proof. intros LW n r c burn h HB A fs L E. apply (sampler_alone LW _ _ _ (burn * n) n); auto. intro us. apply uniform_circle_blocks. exact HB. Qed.

(** The deprecated cluster process: children are independent of each other and across clusters. *)
Theorem C136_children : is_law G w -> forall n r cs, (forall c, In c cs -> kept G w (around r c) (in_disc r c (fun _ => true)) always <> 0) ->
  forall fss L, List.length fss = List.length cs -> Forall (fun fs => List.length fs = n) fss ->
  mean L (fun us => of_run (children_loop n r cs us) (prod_all fss)) =
  prod (map (fun cf => prod (map (share G w (around r (fst cf)) (in_disc r (fst cf) (fun _ => true))) (snd cf))) (combine cs fss)) *
  mean L (fun us => of_run (children_loop n r cs us) always).
Proof.
  intros LW n r. induction cs as [|c cs IH]; intros A fss L E F; destruct fss as [|fs fss]; try discriminate.
  - cbn [children_loop of_run combine map]. unfold prod_all, prod, always. cbn. ring.
  - apply Forall_cons_iff in F. destruct F as [F1 F2]. cbn in E. cbn [combine map fst snd].
    assert (HK := fun L => IH (fun c' H => A c' (or_intror H)) fss L ltac:(lia) F2).
    pose proof (sampler_then LW (runif_in_circle n r c 2) (around r c) (in_disc r c (fun _ => true)) (2 * n) n (fun us => uniform_circle_blocks n r c 2 None us ltac:(lia)) (A c (or_introl eq_refl)) L fs _ _ _ F1 HK) as H.
    change (prod (?x :: ?l)) with (x * prod l). 
    rewrite (mean_ext G w L (fun us => of_run (children_loop n r (c :: cs) us) always) (fun us => of_run2 (runif_in_circle n r c 2 us) (fun _ rest => of_run (children_loop n r cs rest) always))).
    + rewrite <- H. apply mean_ext. intro us. cbn [children_loop]. destruct (runif_in_circle n r c 2 us) as [l us'| |]; cbn [rbind of_run of_run2]; try reflexivity.
      destruct (children_loop n r cs us') as [ls us''| |]; cbn [rbind of_run]; try ring. reflexivity.
    + intro us. cbn [children_loop]. destruct (runif_in_circle n r c 2 us) as [l us'| |]; cbn [rbind of_run of_run2]; try reflexivity. destruct (children_loop n r cs us') as [ls us''| |]; reflexivity.
Qed.

(** PoissonPointProcess: realizations of sizes [params]; all points are independent, each with the law of a point of the box given that it is in the window. *)
Theorem C136_process : is_law G w -> forall contains b params, kept G w (box_candidate b) contains always <> 0 ->
  forall fss L, map (@List.length _) fss = params ->
  mean L (fun us => of_run (realizations contains (realize_poisson b) params us) (prod_all fss)) =
  prod (map (fun fs => prod (map (share G w (box_candidate b) contains) fs)) fss) *
  mean L (fun us => of_run (realizations contains (realize_poisson b) params us) always).
Proof.
  intros LW contains b params A. induction params as [|n params IH]; intros fss L E; destruct fss as [|fs fss]; try discriminate.
  - cbn [realizations of_run map]. unfold prod_all, prod, always. cbn. ring.
  - cbn in E. injection E as E1 E2. cbn [map].
    pose proof (sampler_then LW (draw contains (realize_poisson b) n) (box_candidate b) contains n n (draw_poisson_blocks contains b n) A L fs _ _ _ E1 (fun L => IH fss L E2)) as H.
    change (prod (?x :: ?l)) with (x * prod l).
    rewrite (mean_ext G w L (fun us => of_run (realizations contains (realize_poisson b) (n :: params) us) always) (fun us => of_run2 (draw contains (realize_poisson b) n us) (fun _ rest => of_run (realizations contains (realize_poisson b) params rest) always))).
    + rewrite <- H. apply mean_ext. intro us. cbn [realizations]. destruct (draw contains (realize_poisson b) n us) as [l us'| |]; cbn [rbind of_run of_run2]; try reflexivity.
      destruct (realizations contains (realize_poisson b) params us') as [ls us''| |]; cbn [rbind of_run]; try ring. reflexivity.
    + intro us. cbn [realizations]. destruct (draw contains (realize_poisson b) n us) as [l us'| |]; cbn [rbind of_run of_run2]; try reflexivity. destruct (realizations contains (realize_poisson b) params us') as [ls us''| |]; reflexivity.
Qed.

(** Blocks that are accepted as a whole: a bound on the chance of an end after b blocks, and the limit. *)
Lemma ends : is_law G w -> forall (S : list Q -> run (list pt)) mk ok k need, (forall us, S us = blocks (Datatypes.S (List.length us)) mk ok k need us) -> (need <= k)%nat ->
  (forall b L, (b * (2 * k) <= L)%nat -> 1 - (1 - kept G w mk ok always ^ k) ^ b <= mean L (fun us => of_run (S us) always) <= 1) /\
  (0 < kept G w mk ok always -> forall eps, 0 < eps -> exists L0, forall L, (L0 <= L)%nat -> 1 - eps <= mean L (fun us => of_run (S us) always) <= 1).
Proof.
  intros LW S mk ok k need HS NK.
  assert (B : forall b L, (b * (2 * k) <= L)%nat -> 1 - (1 - kept G w mk ok always ^ k) ^ b <= mean L (fun us => of_run (S us) always) <= 1).
  { intros b L HL. rewrite (mean_ext_len G w L (fun us => of_run (S us) always) (fun us => of_run2 (blocks (Datatypes.S L) mk ok k need us) (fun _ _ => 1))) by (intros us X; rewrite HS, X; apply of_run_1).
    destruct (Nat.eq_dec need 0) as [-> |N0].
    - cbn [blocks of_run2]. rewrite mean_const by exact LW. destruct (kept_range G w LW mk ok) as [A1 A2]. pose proof (pow_unit _ k (conj A1 A2)). pose proof (pow_unit (1 - kept G w mk ok always ^ k) b ltac:(lra)). lra.
    - apply blocks_ends; try assumption; nia. }
  split; [exact B|]. intros A eps E. destruct (kept_range G w LW mk ok) as [_ A2]. set (a := kept G w mk ok always) in *.
  assert (PK : 0 < a ^ k <= 1) by (split; [apply pow_lt; exact A|apply pow_unit; lra]).
  destruct (pow_lt_1_zero (1 - a ^ k) ltac:(rewrite Rabs_pos_eq; lra) eps E) as [b M]. specialize (M b (le_n b)). pose proof (pow_unit (1 - a ^ k) b ltac:(lra)) as U. rewrite Rabs_pos_eq in M by lra.
  exists (b * (2 * k))%nat. intros L HL. specialize (B b L HL). lra.
Qed.
Theorem C136_ends : is_law G w ->
  (forall n r c burn h, (0 < burn)%nat -> let a := kept G w (around r c) (in_disc r c (region h)) always in
     (forall b, 1 - (1 - a ^ (burn * n)) ^ b <= mean (b * (2 * (burn * n))) (fun us => of_run (uniform_circle n r c burn h us) always)) /\
     (0 < a -> forall eps, 0 < eps -> exists L0, forall L, (L0 <= L)%nat -> 1 - eps <= mean L (fun us => of_run (uniform_circle n r c burn h us) always) <= 1)) /\
  (forall contains b0 n, let a := kept G w (box_candidate b0) contains always in
     (forall b, 1 - (1 - a ^ n) ^ b <= mean (b * (2 * n)) (fun us => of_run (draw contains (realize_poisson b0) n us) always)) /\
     (0 < a -> forall eps, 0 < eps -> exists L0, forall L, (L0 <= L)%nat -> 1 - eps <= mean L (fun us => of_run (draw contains (realize_poisson b0) n us) always) <= 1)).
Proof.
  intro LW. split.
  - intros n r c burn h HB a. destruct (ends LW _ (around r c) (in_disc r c (region h)) (burn * n) n (fun us => uniform_circle_blocks n r c burn h us HB) ltac:(nia)) as [H1 H2]. split; [|exact H2].
    intro b. apply H1. lia.
  - intros contains b0 n a. destruct (ends LW _ _ _ n n (draw_poisson_blocks contains b0 n) (le_n n)) as [H1 H2]. split; [|exact H2]. intro b. apply H1. lia.
Qed.
End Law.
Print Assumptions C136_disc.
Print Assumptions C136_children.
Print Assumptions C136_process.
Print Assumptions C136_ends.

(** Fair draws of 0 or 1/2 in the unit disc about (3, 5): three of the four candidates are accepted; the centre is one of them.
    One block of two candidates gives a point with chance 15/16, the centre with chance 5/16. *)
Example C136_case : let G := [0; 1#2]%Q in let w := fun _ : Q => 1 / 2 in let c := (3, 5)%Q in
  let at_c := indicator (fun p => (Qeq_bool (fst p) 3 && Qeq_bool (snd p) 5)%Q%bool) in
  is_law G w /\ kept G w (around 1 c) (in_disc 1 c (region None)) always = 3 / 4 /\ kept G w (around 1 c) (in_disc 1 c (region None)) at_c = 1 / 4 /\
  mean G w 4 (fun us => of_run (uniform_circle 1 1 c 2 None us) always) = 15 / 16 /\
  mean G w 4 (fun us => of_run (uniform_circle 1 1 c 2 None us) (prod_at [at_c])) = 5 / 16.
Proof.
  cbv zeta. split; [split; [intros; lra|unfold mean1; cbn; lra]|].
  unfold kept, mean, mean1, always, indicator. cbn [map fold_right].
  repeat match goal with |- context [in_disc ?r ?c ?f ?p] => let b := eval vm_compute in (in_disc r c f p) in change (in_disc r c f p) with b end.
  repeat match goal with |- context [Qeq_bool (fst (around ?r ?c ?u ?v)) ?x] => let b := eval vm_compute in (Qeq_bool (fst (around r c u v)) x) in change (Qeq_bool (fst (around r c u v)) x) with b end.
  repeat match goal with |- context [Qeq_bool (snd (around ?r ?c ?u ?v)) ?x] => let b := eval vm_compute in (Qeq_bool (snd (around r c u v)) x) in change (Qeq_bool (snd (around r c u v)) x) with b end.
  repeat match goal with |- context [uniform_circle 1 1 ?c 2 None ?us] => let b := eval vm_compute in (uniform_circle 1 1 c 2 None us) in change (uniform_circle 1 1 c 2 None us) with b end.
  unfold prod_at, prod. cbn -[Rplus Rmult Rdiv]. repeat split; lra.
Qed.
