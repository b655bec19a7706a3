(** ** C139: strauss without interaction *)
From Coq Require Import Reals ZArith QArith List Bool Arith Lia Lra Psatz.
From Verif Require Import Base BaseLemmas Quadrat_model Geometry_model Random_model Random_spec Random_proofs Random_props Joint_spec Joint_proofs
  Spacetime_proofs Size_spec Size_proofs Null_spec Null_proofs Null_props Binomial_proofs.
Import ListNotations.
Local Open Scope R_scope.

Section Runs.
Variables (G : list Q) (w : Q -> R) (h : hull) (i : option Q) (sz : size_arg) (n s : Z) (it : xq).
Hypothesis LW : is_law G w.
Hypothesis parsed : parse_size_and_intensity h i sz = Ok (n, s, it).
Hypothesis Hn : (0 <= n)%Z.
Hypothesis Hs : (0 <= s)%Z.
Notation mk := (box_candidate (h_bbox h)).
Notation N := (Z.to_nat s * Z.to_nat n)%nat.

Lemma attempts_length : forall m gamma r n_iter tries us l rest,
  Qtrunc (h_area h * inject_Z (Z.of_nat (3 * m / 2))) <> 1%Z -> attempts h m gamma r n_iter tries us = Val l rest -> List.length l = m.
Proof using.
  clear. intros m gamma r n_iter tries. induction tries as [|k IH]; intros us l rest ST E; [discriminate|]. cbn [attempts] in E.
  destruct (attempt h m gamma r n_iter us) as [o us'|e|] eqn:A; try discriminate. cbn [rbind] in E. destruct o as [l'|]; [|exact (IH _ _ _ ST E)].
  injection E as -> _. unfold attempt in A. destruct (poisson_intensity h (inject_Z (Z.of_nat (3 * m / 2)))) as [[e H]|[b [B H]]]; rewrite H in A; [discriminate|].
  destruct (reject _ _ us b) as [q us2|e|] eqn:Q; cbn [rbind] in A; try discriminate.
  assert (SQ : squeeze 1 b [q] = Arr2 q) by (unfold squeeze; cbn [Nat.eqb]; destruct (Nat.eqb_spec b 1); [subst b; lia|reflexivity]). rewrite SQ in A.
  destruct (mh_loop h (Z.of_nat m) gamma r n_iter q us2) as [y us3|e|]; cbn [rbind] in A; try discriminate. destruct (Nat.leb_spec m (List.length y)); [|discriminate].
  injection A as <- _. rewrite firstn_length. lia.
Qed.
Lemma neutral_strauss : forall gamma r n_iter max_iter, (gamma == 1)%Q -> Qtrunc (h_area h * inject_Z (3 * n / 2)) <> 1%Z ->
  neutral G w mk (h_contains h) 0 (fun k => k = N) (fun _ us => rbind (strauss h i sz gamma r n_iter max_iter us) (fun a us => Val (arr_points a) us)).
Proof using LW parsed Hn Hs.
  intros gamma r n_iter max_iter one start.
  assert (ST : Qtrunc (h_area h * inject_Z (Z.of_nat (3 * Z.to_nat n / 2))) <> 1%Z).
  { rewrite Nat2Z.inj_div, Nat2Z.inj_mul, Z2Nat.id by exact Hn. exact start. }
  apply (neutral_ext _ _ _ _ _ _ _ (fun x us => rbind (replicate (attempts h (Z.to_nat n) gamma r n_iter max_iter) (Z.to_nat s) us) (fun d us => Val (x ++ concat d) us))).
  - intros [|] us X; [|discriminate]. unfold strauss. rewrite parsed. cbn [lift rbind]. unfold alloc.
    destruct (Z.ltb_spec n 0); [lia|]. destruct (Z.ltb_spec s 0); [lia|]. cbn [orb lift rbind].
    destruct (replicate _ (Z.to_nat s) us) as [d rest| |] eqn:E; cbn [rbind]; try reflexivity.
    apply (replicate_sound (fun l => List.length l = Z.to_nat n)) in E.
    + destruct E as [L F]. destruct (squeeze_points _ _ _ L F) as [-> _]. reflexivity.
    + intros us' l r' Y. apply (attempts_length _ _ _ _ _ _ _ _ ST Y).
  - apply (neutral_replicate G w mk (h_contains h) (Z.to_nat n) (attempts h (Z.to_nat n) gamma r n_iter max_iter)) with (s := Z.to_nat s) (m := 0%nat).
    apply (neutral_attempts G w h gamma r LW one (Z.to_nat n) n_iter ST).
Qed.
Lemma neutral_poisson : neutral G w mk (h_contains h) 0 (fun k => k = N) (fun _ us => rbind (poisson h i sz us) (fun a us => Val (arr_points a) us)).
Proof using LW parsed Hn Hs.
  apply (neutral_ext _ _ _ _ _ _ _ (fun x us => rbind (replicate (fun us => reject mk (h_contains h) us (Z.to_nat n)) (Z.to_nat s) us) (fun d us => Val (x ++ concat d) us))).
  - intros [|] us X; [|discriminate]. unfold poisson. rewrite parsed. cbn [lift rbind]. unfold alloc.
    destruct (Z.ltb_spec n 0); [lia|]. destruct (Z.ltb_spec s 0); [lia|]. cbn [orb lift rbind].
    destruct (replicate _ (Z.to_nat s) us) as [d rest| |] eqn:E; cbn [rbind]; try reflexivity.
    apply (replicate_sound (fun l => List.length l = Z.to_nat n)) in E.
    + destruct E as [L F]. destruct (squeeze_points _ _ _ L F) as [-> _]. reflexivity.
    + intros us' l r' Y. apply reject_sound in Y. apply Y.
  - apply (neutral_replicate G w mk (h_contains h) (Z.to_nat n) (fun us => reject mk (h_contains h) us (Z.to_nat n))) with (s := Z.to_nat s) (m := 0%nat). apply neutral_reject, LW.
Qed.

(** The points are independent, each with the law of an acceptable candidate, whatever the moves that were made. *)
Theorem C139_independent : forall gamma r n_iter max_iter, (gamma == 1)%Q -> Qtrunc (h_area h * inject_Z (3 * n / 2)) <> 1%Z -> forall L F,
  mean G w L (fun us => of_run (strauss h i sz gamma r n_iter max_iter us) (fun a => F (arr_points a))) * kept G w mk (h_contains h) always ^ N =
  kept_all G w (h_contains h) (repeat mk N) F * mean G w L (fun us => of_run (strauss h i sz gamma r n_iter max_iter us) always).
Proof using LW parsed Hn Hs.
  intros gamma r n_iter max_iter one start L F. pose proof (neutral_result G w mk (h_contains h) LW N _ (neutral_strauss gamma r n_iter max_iter one start) L F) as E.
  rewrite (mean_ext G w L _ (fun us => of_run (strauss h i sz gamma r n_iter max_iter us) (fun a => F (arr_points a)))) in E by (intro us; destruct (strauss _ _ _ _ _ _ _ us); reflexivity).
  rewrite (mean_ext G w L (fun us => of_run _ always) (fun us => of_run (strauss h i sz gamma r n_iter max_iter us) always)) in E by (intro us; destruct (strauss _ _ _ _ _ _ _ us); reflexivity).
  exact E.
Qed.
(** Given that both calls end, nothing distinguishes [strauss] from [poisson]. *)
Theorem C139_poisson : forall gamma r n_iter max_iter, (gamma == 1)%Q -> Qtrunc (h_area h * inject_Z (3 * n / 2)) <> 1%Z -> forall L L' F,
  mean G w L (fun us => of_run (strauss h i sz gamma r n_iter max_iter us) (fun a => F (arr_points a))) * mean G w L' (fun us => of_run (poisson h i sz us) always) =
  mean G w L' (fun us => of_run (poisson h i sz us) (fun a => F (arr_points a))) * mean G w L (fun us => of_run (strauss h i sz gamma r n_iter max_iter us) always).
Proof using LW parsed Hn Hs.
  intros gamma r n_iter max_iter one start L L' F.
  pose proof (neutral_factor G w mk (h_contains h) LW N _ (neutral_strauss gamma r n_iter max_iter one start) L) as [c C].
  pose proof (neutral_factor G w mk (h_contains h) LW N _ neutral_poisson L') as [d D].
  assert (S1 : forall F, mean G w L (fun us => of_run (strauss h i sz gamma r n_iter max_iter us) (fun a => F (arr_points a))) = c * kept_all G w (h_contains h) (repeat mk N) F).
  { intro F'. rewrite <- C. apply mean_ext. intro us. destruct (strauss _ _ _ _ _ _ _ us); reflexivity. }
  assert (P1 : forall F, mean G w L' (fun us => of_run (poisson h i sz us) (fun a => F (arr_points a))) = d * kept_all G w (h_contains h) (repeat mk N) F).
  { intro F'. rewrite <- D. apply mean_ext. intro us. destruct (poisson _ _ _ us); reflexivity. }
  pose proof (S1 always) as S2. pose proof (P1 always) as P2. rewrite (S1 F), (P1 F).
  change (fun a => always (arr_points a)) with (@always arr) in S2, P2. rewrite S2, P2. ring.
Qed.
End Runs.
Print Assumptions C139_independent.
Print Assumptions C139_poisson.

(** A triangle of area one: three points at the start, one move, two points kept. *)
Definition slope : hull := mkhull 1 (mkbox 0 0 2 1) (fun p => Qle_bool (fst p / 2 + snd p) 1) false.
Definition both_left (a : arr) : bool := forallb (fun p => Qltb (fst p) 1) (arr_points a).
Example C139_case : parse_size_and_intensity slope None (SInt 2) = Ok (2%Z, 1%Z, Fin 2) /\ Qtrunc (h_area slope * inject_Z (3 * 2 / 2)) = 3%Z /\
  coins 12 (strauss slope None (SInt 2) 1 1 1 3) both_left = 1248 / 4096 /\
  coins 12 (strauss slope None (SInt 2) 1 1 1 3) (fun _ => true) = 2808 / 4096 /\
  coins 4 (poisson slope None (SInt 2)) both_left = 4 / 16 /\ coins 4 (poisson slope None (SInt 2)) (fun _ => true) = 9 / 16.
Proof. split; [vm_compute; reflexivity|]. split; [vm_compute; reflexivity|]. repeat split; count_runs. Qed.

(** With one point at the start the two points of the result are that point: half the square, two points wanted. *)
Definition flat : hull := bbox_hull (mkbox 0 0 1 (1#2)).
Definition equal_points (a : arr) : bool := match arr_points a with [p; q] => Qeq_bool (fst p) (fst q) && Qeq_bool (snd p) (snd q) | _ => false end.
Theorem C139_single_refuted : parse_size_and_intensity flat None (SInt 2) = Ok (2%Z, 1%Z, Fin 4) /\ Qtrunc (h_area flat * inject_Z (3 * 2 / 2)) = 1%Z /\
  coins 3 (strauss flat None (SInt 2) 1 1 1 3) equal_points = 1 / 2 /\ coins 3 (strauss flat None (SInt 2) 1 1 1 3) (fun _ => true) = 1 / 2 /\
  coins 4 (poisson flat None (SInt 2)) equal_points = 1 / 4 /\ coins 4 (poisson flat None (SInt 2)) (fun _ => true) = 1.
Proof. split; [vm_compute; reflexivity|]. split; [vm_compute; reflexivity|]. repeat split; count_runs. Qed.
Print Assumptions C139_single_refuted.
