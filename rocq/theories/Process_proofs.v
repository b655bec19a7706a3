(** Proofs about process.py. *)
From Coq Require Import ZArith QArith Qround List Bool Lia Lqa Permutation.
From Verif Require Import Base BaseLemmas Quadrat_model Geometry_model Random_model Random_spec Random_proofs
  Pattern_model Process_model.
Import ListNotations.
Local Open Scope Q_scope.

Lemma draw_block_val : forall k us l rest, draw_block k us = Val l rest <-> us = l ++ rest /\ List.length l = k.
Proof.
  induction k; intros us l rest; simpl.
  - split; intro H.
    + inversion H; subst. auto.
    + destruct H as [-> H]. destruct l; [reflexivity|discriminate].
  - destruct us as [|u us]; simpl.
    + split; intro H; [discriminate|]. destruct H as [H L]. destruct l; discriminate.
    + split; intro H.
      * apply rbind_val in H. destruct H as [l' [r' [H1 H2]]]. inversion H2; subst.
        apply IHk in H1. destruct H1 as [-> <-]. auto.
      * destruct H as [H L]. destruct l as [|a l]; [discriminate|]. simpl in *. inversion H; subst.
        rewrite (proj2 (IHk (l ++ rest) l rest)); auto.
Qed.
Lemma draw_block_short : forall k us, (List.length us < k)%nat -> draw_block k us = Short.
Proof.
  induction k; intros us H; [lia|]. destruct us; simpl; auto. rewrite IHk; auto. simpl in H. lia.
Qed.

Lemma to_points_scalar : forall (l : list pt), l <> [] ->
  to_points (map (fun p => (EScalar (fst p), EScalar (snd p))) l) = Raise IndexError.
Proof. intros [|p l] H; [congruence|]. reflexivity. Qed.
Lemma to_points_arr : forall (l : list pt), to_points (map (fun p => (EArr (fst p), EArr (snd p))) l) = Ok l.
Proof.
  induction l as [|[x y] l IH]; [reflexivity|]. unfold to_points in *. cbn [map mapM]. rewrite IH. reflexivity.
Qed.

(** One block of numbers: n fractions of the width, then n of the height. *)
Definition block_points (b : box) (n : nat) (blk : list Q) : list pt :=
  map (fun uv => (bxmin b + (bxmax b - bxmin b) * fst uv, bymin b + (bymax b - bymin b) * snd uv))
      (combine (firstn n blk) (skipn n blk)).

Lemma combine_map2 : forall A B C D (f : A -> C) (g : B -> D) l1 l2,
  combine (map f l1) (map g l2) = map (fun ab => (f (fst ab), g (snd ab))) (combine l1 l2).
Proof. induction l1; intros [|b l2]; simpl; auto. rewrite IHl1. reflexivity. Qed.

Lemma realize_poisson_val : forall b n us rows rest, realize_poisson b n us = Val rows rest ->
  exists blk, us = blk ++ rest /\ List.length blk = (2 * n)%nat /\
    to_points rows = Ok (block_points b n blk).
Proof.
  intros b n us rows rest H. unfold realize_poisson in H.
  apply rbind_val in H. destruct H as [ux [us1 [H1 H]]]. apply rbind_val in H. destruct H as [uy [us2 [H2 H3]]].
  apply draw_block_val in H1. apply draw_block_val in H2. destruct H1 as [-> L1]. destruct H2 as [-> L2].
  inversion H3; subst rows rest. exists (ux ++ uy). split; [apply app_assoc|]. split; [rewrite app_length; lia|].
  rewrite to_points_arr. unfold block_points. f_equal. rewrite combine_map2.
  replace (firstn n (ux ++ uy)) with ux; [replace (skipn n (ux ++ uy)) with uy; [reflexivity|]|].
  - rewrite <- L1. rewrite skipn_app, skipn_all, Nat.sub_diag. reflexivity.
  - rewrite <- L1. rewrite firstn_app, firstn_all, Nat.sub_diag. simpl. rewrite app_nil_r. reflexivity.
Qed.
Lemma realize_poisson_run : forall b n blk rest, List.length blk = (2 * n)%nat ->
  exists rows, realize_poisson b n (blk ++ rest) = Val rows rest /\ to_points rows = Ok (block_points b n blk).
Proof.
  intros b n blk rest L.
  assert (E : exists rows, realize_poisson b n (blk ++ rest) = Val rows rest).
  { unfold realize_poisson. rewrite <- (firstn_skipn n blk). rewrite <- app_assoc.
    rewrite (proj2 (draw_block_val n (firstn n blk ++ skipn n blk ++ rest) (firstn n blk) (skipn n blk ++ rest))).
    2:{ split; auto. rewrite firstn_length. lia. }
    cbn [rbind]. rewrite (proj2 (draw_block_val n (skipn n blk ++ rest) (skipn n blk) rest)).
    2:{ split; auto. rewrite skipn_length. lia. }
    cbn [rbind]. eexists. reflexivity. }
  destruct E as [rows E]. exists rows. split; auto.
  destruct (realize_poisson_val _ _ _ _ _ E) as [blk' [A [B C]]]. rewrite C.
  apply app_inv_tail in A. subst. reflexivity.
Qed.

(** Whatever realize does, a finished draw holds n points of the window. *)
Lemma draw_loop_sound : forall fuel contains realize n sample us l rest,
  Forall (fun p => contains p = true) sample ->
  draw_loop fuel contains realize n sample us = Val l rest ->
  List.length l = n /\ Forall (fun p => contains p = true) l.
Proof.
  assert (Base : forall contains n (sample : list pt), Forall (fun p => contains p = true) sample ->
     (n <= List.length sample)%nat ->
     List.length (firstn n sample) = n /\ Forall (fun p => contains p = true) (firstn n sample)).
  { intros contains n sample F L. split; [apply firstn_length_le; auto|].
    rewrite <- (firstn_skipn n sample) in F. apply Forall_app in F. apply F. }
  induction fuel; intros contains realize n sample us l rest F H; simpl in H;
    destruct (Nat.ltb_spec (List.length sample) n).
  - discriminate.
  - inversion H; subst. apply Base; auto.
  - apply rbind_val in H. destruct H as [rows [us1 [H1 H2]]]. apply rbind_val in H2. destruct H2 as [pnts [us2 [H2 H3]]].
    apply IHfuel in H3; auto. apply Forall_app. split; auto. apply Forall_forall. intros p Hp. apply filter_In in Hp. tauto.
  - inversion H; subst. apply Base; auto.
Qed.

(** The finished draw of the Poisson process in terms of blocks. *)
Lemma draw_loop_exact : forall fuel contains b n sample us l rest,
  draw_loop fuel contains (realize_poisson b) n sample us = Val l rest ->
  exists blocks, us = concat blocks ++ rest /\ Forall (fun blk => List.length blk = (2 * n)%nat) blocks /\
    l = firstn n (sample ++ filter contains (concat (map (block_points b n) blocks))) /\
    (forall init last, blocks = init ++ [last] ->
      (List.length (sample ++ filter contains (concat (map (block_points b n) init))) < n)%nat).
Proof.
  assert (Base : forall contains b n sample us, (n <= List.length sample)%nat ->
    exists blocks, us = concat blocks ++ us /\ Forall (fun blk => List.length blk = (2 * n)%nat) blocks /\
    firstn n sample = firstn n (sample ++ filter contains (concat (map (block_points b n) blocks))) /\
    (forall init last, blocks = init ++ [last] ->
      (List.length (sample ++ filter contains (concat (map (block_points b n) init))) < n)%nat)).
  { intros contains b n sample us L. exists []. split; [reflexivity|]. split; [constructor|]. split.
    - simpl. rewrite app_nil_r. reflexivity.
    - intros init last E. destruct init; discriminate. }
  induction fuel; intros contains b n sample us l rest H; simpl in H;
    destruct (Nat.ltb_spec (List.length sample) n) as [L|L].
  - discriminate.
  - inversion H; subst. apply Base; auto.
  - apply rbind_val in H. destruct H as [rows [us1 [H1 H2]]]. apply rbind_val in H2. destruct H2 as [pnts [us2 [H2 H3]]].
    apply realize_poisson_val in H1. destruct H1 as [blk [-> [Lb E]]]. rewrite E in H2. simpl in H2. inversion H2; subst us2 pnts.
    apply IHfuel in H3. destruct H3 as [blocks [-> [Fb [-> M]]]].
    exists (blk :: blocks). split; [simpl; rewrite app_assoc; reflexivity|]. split; [constructor; auto|]. split.
    + cbn [map concat]. rewrite filter_app, app_assoc. reflexivity.
    + intros init last E'. destruct init as [|x init]; inversion E'; subst.
      * simpl. rewrite app_nil_r. exact L.
      * cbn [map concat]. rewrite filter_app, app_assoc. eapply M. reflexivity.
  - inversion H; subst. apply Base; auto.
Qed.

(** The draw finishes as soon as some blocks hold enough points. *)
Lemma draw_loop_terminates : forall blocks fuel contains b n sample rest,
  Forall (fun blk => List.length blk = (2 * n)%nat) blocks -> (List.length blocks <= fuel)%nat ->
  (n <= List.length (sample ++ filter contains (concat (map (block_points b n) blocks))))%nat ->
  exists l rest', draw_loop fuel contains (realize_poisson b) n sample (concat blocks ++ rest) = Val l rest'.
Proof.
  induction blocks as [|blk blocks IH]; intros fuel contains b n sample rest F Lf N.
  - simpl in N. rewrite app_nil_r in N. destruct fuel; simpl; destruct (Nat.ltb_spec (List.length sample) n); try lia; eauto.
  - destruct fuel as [|fuel]; [simpl in Lf; lia|]. inversion F as [|? ? F1 F2]; subst.
    cbn [draw_loop]. destruct (Nat.ltb_spec (List.length sample) n); [|eauto].
    cbn [concat]. rewrite <- app_assoc.
    destruct (realize_poisson_run b n blk (concat blocks ++ rest) F1) as [rows [E1 E2]]. rewrite E1. cbn [rbind].
    rewrite E2. cbn [lift rbind]. apply IH; auto. simpl in Lf; lia.
    cbn [map concat] in N. rewrite filter_app, app_assoc in N. exact N.
Qed.

Lemma realizations_sound : forall contains realize params us ls rest,
  realizations contains realize params us = Val ls rest ->
  Forall2 (fun n l => List.length l = n /\ Forall (fun p => contains p = true) l) params ls.
Proof.
  induction params as [|n params IH]; intros us ls rest H; simpl in H.
  - inversion H; constructor.
  - apply rbind_val in H. destruct H as [l [us1 [H1 H]]]. apply rbind_val in H. destruct H as [ls' [us2 [H2 H3]]].
    inversion H3; subst. constructor; [|eapply IH; eauto].
    unfold draw in H1. eapply draw_loop_sound in H1; eauto.
Qed.

(** ** Arithmetic of the cluster process *)
Lemma Qdiv_Z_bounds : forall a b q, (0 < b)%Z -> inject_Z q <= inject_Z a / inject_Z b <-> (q * b <= a)%Z.
Proof.
  intros a b q B. assert (Hb : 0 < inject_Z b) by (unfold Qlt; simpl; lia).
  assert (E : inject_Z a / inject_Z b * inject_Z b == inject_Z a) by (field; lra).
  rewrite Zle_Qle, inject_Z_mult. split; intro H.
  - rewrite <- E. apply Qmult_le_compat_r; lra.
  - apply Qle_shift_div_l; auto.
Qed.
Lemma drawn_parents_div : forall n c, c <> 0%nat -> drawn_parents n c = (n / c)%nat.
Proof.
  intros n c H. unfold drawn_parents.
  assert (E : Qfloor (inject_Z (Z.of_nat n) / inject_Z (Z.of_nat c)) = (Z.of_nat n / Z.of_nat c)%Z).
  { set (q := Qfloor _). pose proof (Qfloor_le (inject_Z (Z.of_nat n) / inject_Z (Z.of_nat c))) as A.
    pose proof (Qlt_floor (inject_Z (Z.of_nat n) / inject_Z (Z.of_nat c))) as B. fold q in A, B.
    assert (A' : (q * Z.of_nat c <= Z.of_nat n)%Z) by (apply (proj1 (Qdiv_Z_bounds (Z.of_nat n) (Z.of_nat c) q ltac:(lia))); exact A).
    assert (B' : ~ ((q + 1) * Z.of_nat c <= Z.of_nat n)%Z).
    { intro X. apply (proj2 (Qdiv_Z_bounds (Z.of_nat n) (Z.of_nat c) (q + 1) ltac:(lia))) in X. lra. }
    apply (Z.div_unique _ _ q (Z.of_nat n - q * Z.of_nat c)); lia. }
  rewrite E. rewrite <- Nat2Z.inj_div. apply Nat2Z.id.
Qed.
Lemma children_bounds : forall n p, p <> 0%nat ->
  (n <= children_of n p * p)%nat /\ (n <> 0%nat -> ((children_of n p - 1) * p < n)%nat /\ (1 <= children_of n p)%nat).
Proof.
  intros n p H. unfold children_of. set (x := inject_Z (Z.of_nat n) / inject_Z (Z.of_nat p)).
  assert (P0 : 0 < inject_Z (Z.of_nat p)) by (unfold Qlt; simpl; lia).
  assert (E : x * inject_Z (Z.of_nat p) == inject_Z (Z.of_nat n)) by (unfold x; field; lra).
  pose proof (Qle_ceiling x) as A. pose proof (Qceiling_lt x) as B. set (c := Qceiling x) in *.
  assert (A' : (Z.of_nat n <= c * Z.of_nat p)%Z).
  { rewrite Zle_Qle, inject_Z_mult, <- E. apply Qmult_le_compat_r; lra. }
  assert (B' : ((c - 1) * Z.of_nat p < Z.of_nat n)%Z).
  { rewrite Zlt_Qlt, inject_Z_mult, <- E. apply Qmult_lt_compat_r; auto. }
  assert (C0 : (0 <= c)%Z) by nia.
  split.
  - apply Nat2Z.inj_le. rewrite Nat2Z.inj_mul, Z2Nat.id; lia.
  - intro Hn. assert (C1 : (1 <= c)%Z) by nia. split; [|lia].
    apply Nat2Z.inj_lt. rewrite Nat2Z.inj_mul, Nat2Z.inj_sub, Z2Nat.id by lia. simpl. lia.
Qed.

Lemma Forall2_len : forall A B (P : A -> B -> Prop) l1 l2, Forall2 P l1 l2 -> List.length l1 = List.length l2.
Proof. induction 1; simpl; auto. Qed.

Lemma children_loop_sound : forall children radius cents us ls rest,
  children_loop children radius cents us = Val ls rest ->
  Forall2 (fun c l => List.length l = children /\ (forall p, In p l -> in_disc radius c p)) cents ls.
Proof.
  induction cents as [|c cents IH]; intros us ls rest H; simpl in H.
  - inversion H; constructor.
  - apply rbind_val in H. destruct H as [l [us1 [H1 H]]]. apply rbind_val in H. destruct H as [ls' [us2 [H2 H3]]].
    inversion H3; subst. constructor; [|eapply IH; eauto].
    unfold runif_in_circle in H1. apply uniform_circle_sound in H1. destruct H1 as [A [B _]]. split; auto.
    intros p Hp. apply B in Hp. tauto.
Qed.

Lemma realize_cluster_rows_sound : forall b children radius keep shuffle n us res rest,
  (forall l, Permutation (shuffle l) l) ->
  realize_cluster_rows b children radius keep shuffle n us = Val res rest ->
  children <> 0%nat /\ (n / children)%nat <> 0%nat /\
  exists blk cents pnts, cents = block_points b (n / children) blk /\ List.length blk = (2 * (n / children))%nat /\
    List.length cents = (n / children)%nat /\
    (exists used, us = blk ++ used ++ rest) /\
    Forall2 (fun c l => List.length l = children /\ (forall p, In p l -> in_disc radius c p)) cents pnts /\
    Permutation res ((if keep then cents else []) ++ concat pnts).
Proof.
  intros b children radius keep shuffle n us res rest Sh H. unfold realize_cluster_rows in H.
  destruct (Nat.eqb_spec children 0) as [|C]; [discriminate|]. split; auto.
  rewrite drawn_parents_div in H by auto. set (k := (n / children)%nat) in *. cbv zeta in H.
  apply rbind_val in H. destruct H as [ux [us1 [H1 H]]]. apply rbind_val in H. destruct H as [uy [us2 [H2 H]]].
  apply rbind_val in H. destruct H as [pnts [us3 [H3 H4]]].
  pose proof (children_loop_sound _ _ _ _ _ _ H3) as F.
  assert (Us : forall cents us pnts rest, children_loop children radius cents us = Val pnts rest -> exists used, us = used ++ rest).
  { clear. induction cents as [|c cents IH]; intros us ls rest H; simpl in H.
    - inversion H; subst. exists []. reflexivity.
    - apply rbind_val in H. destruct H as [l [us1 [H1 H]]]. apply rbind_val in H. destruct H as [ls' [us2 [H2 H3]]].
      inversion H3; subst. unfold runif_in_circle in H1. apply uniform_circle_sound in H1. destruct H1 as [_ [_ [u1 ->]]].
      apply IH in H2. destruct H2 as [u2 ->]. exists (u1 ++ u2). rewrite app_assoc. reflexivity. }
  apply Us in H3. destruct H3 as [used ->].
  apply draw_block_val in H1. apply draw_block_val in H2. destruct H1 as [-> L1]. destruct H2 as [-> L2].
  assert (Bp : combine (map (uniform (bxmin b) (bxmax b)) ux) (map (uniform (bymin b) (bymax b)) uy) =
               block_points b k (ux ++ uy)).
  { unfold block_points. rewrite combine_map2.
    replace (firstn k (ux ++ uy)) with ux; [replace (skipn k (ux ++ uy)) with uy; [reflexivity|]|].
    - rewrite <- L1. rewrite skipn_app, skipn_all, Nat.sub_diag. reflexivity.
    - rewrite <- L1. rewrite firstn_app, firstn_all, Nat.sub_diag. simpl. rewrite app_nil_r. reflexivity. }
  assert (Lc : List.length (block_points b k (ux ++ uy)) = k).
  { unfold block_points. rewrite map_length, combine_length, firstn_length, skipn_length, app_length. lia. }
  rewrite Bp in F, H4.
  destruct pnts as [|p0 pnts]; [discriminate|]. split.
  { intro K. apply Forall2_len in F. rewrite Lc, K in F. discriminate. }
  inversion H4; subst us3. exists (ux ++ uy), (block_points b k (ux ++ uy)), (p0 :: pnts).
  split; [reflexivity|]. split; [rewrite app_length; lia|]. split; [exact Lc|]. split.
  { exists used. rewrite <- !app_assoc. reflexivity. }
  split; [exact F|]. subst res. apply Sh.
Qed.
