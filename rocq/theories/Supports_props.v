(** Supports given as numpy integers, floats and long tuples. Property C156. *)
From Coq Require Import ZArith QArith Qminmax List Bool String Reals Lia Lqa.
From Verif Require Import Base BaseLemmas Spec Quadrat_model Geometry_model Random_model DistStats_model DistStats_spec DistStats_proofs DistStats_props
  Ripley_model Ripley_proofs Supports_model.
Import ListNotations.
Local Open Scope Q_scope.

(** ** Specification *)
(** The support reaches from [lo] to [hi]: the least and the greatest distance, or half a
    unit to either side when all distances are equal. *)
Definition Spans (d : list Q) (lo hi : Q) : Prop :=
  ((exists x y, In x d /\ In y d /\ x < y) /\ least lo d /\ (exists y, In y d /\ y == hi) /\ (forall y, In y d -> y <= hi)) \/
  (forall x, In x d -> lo == x - (1 # 2) /\ hi == x + (1 # 2)).
(** [n] equal steps over that span, with the share of all distances below every inner
    value, 0 at the start and 1 at the end. *)
Definition DataBins (n : Z) (d sup : list Q) (v : list xq) : Prop :=
  Z.of_nat (List.length sup) = (n + 1)%Z /\ List.length v = List.length sup /\
  (exists lo hi, lo < hi /\ Spans d lo hi /\ evenly lo hi sup /\ nth 0 sup 0 == lo /\ nth (List.length sup - 1) sup 0 == hi) /\
  nth 0 v NaN = Fin 0 /\ (exists q, nth (List.length v - 1) v NaN = Fin q /\ q == 1) /\
  forall k a, (1 <= k < List.length sup - 1)%nat -> Counts (fun x => x < nth k sup 0) d a ->
    exists q, nth k v NaN = Fin q /\ q * inject_Z (Z.of_nat (List.length d)) == inject_Z (Z.of_nat a).

(** ** Lemmas *)
Lemma outer_spans : forall d, d <> [] -> fst (outer_edges d) < snd (outer_edges d) /\ Spans d (fst (outer_edges d)) (snd (outer_edges d)) /\
  forall x, In x d -> fst (outer_edges d) <= x <= snd (outer_edges d).
Proof.
  intros [|x l] NE; [contradiction|]. cbn [outer_edges]. destruct (Qmin_list_le l x) as [A1 A2]. destruct (Qmax_list_ge l x) as [B1 B2].
  assert (A : forall y, In y (x :: l) -> Qmin_list x l <= y) by (intros y [<-|I]; auto). assert (B : forall y, In y (x :: l) -> y <= Qmax_list x l) by (intros y [<-|I]; auto).
  destruct (Qmin_list_in l x) as [lo [IL EL]]. destruct (Qmax_list_in l x) as [hi [IH EH]].
  destruct (Qeq_bool (Qmin_list x l) (Qmax_list x l)) eqn:E; cbn [fst snd].
  - apply Qeq_bool_eq in E. split; [lra|]. split.
    + right. intros y I. pose proof (A y I). pose proof (B y I). split; lra.
    + intros y I. pose proof (A y I). pose proof (B y I). lra.
  - apply Qeq_bool_neq in E. pose proof (A _ IH). assert (LT : Qmin_list x l < Qmax_list x l) by (apply Qnot_le_lt; intro X; apply E; pose proof (A x (or_introl eq_refl)); lra).
    split; [exact LT|]. split; [left|intros y I; split; auto]. split; [exists lo, hi; repeat split; auto; lra|]. split; [split; [exists lo; auto|exact A]|]. split; [exists hi; auto|exact B].
Qed.

Lemma evenly_mono : forall a b l, a <= b -> evenly a b l -> nondecreasing l.
Proof.
  intros a b l AB E i j IJ. pose proof (E i ltac:(lia)) as Ei. pose proof (E j ltac:(lia)) as Ej.
  destruct (Nat.eq_dec i j) as [->|NE]; [apply Qle_refl|].
  set (m := (Z.of_nat (List.length l) - 1)%Z) in *. assert (M : (0 < m)%Z) by (unfold m; lia).
  assert (MQ : 0 < inject_Z m) by (change 0 with (inject_Z 0); rewrite <- Zlt_Qlt; exact M).
  assert (X : inject_Z (m - Z.of_nat i) == inject_Z m - inject_Z (Z.of_nat i)) by (unfold Z.sub; rewrite inject_Z_plus, inject_Z_opp; ring).
  assert (Y : inject_Z (m - Z.of_nat j) == inject_Z m - inject_Z (Z.of_nat j)) by (unfold Z.sub; rewrite inject_Z_plus, inject_Z_opp; ring).
  assert (W : inject_Z (Z.of_nat i) <= inject_Z (Z.of_nat j)) by (rewrite <- Zle_Qle; lia).
  rewrite X in Ei. rewrite Y in Ej. apply (Qmult_le_r _ _ (inject_Z m) MQ). rewrite Ei, Ej. nra.
Qed.

Lemma bins_spec : forall n d sup v, d <> [] -> cdf_bins d (ObjInt n) = Ok (sup, v) -> (1 <= n)%Z /\ DataBins n d sup v.
Proof.
  intros n d sup v NE H. unfold cdf_bins in H. cbn [bin_edges] in H. destruct (Z.ltb_spec n 1) as [L|L]; [discriminate H|]. split; [exact L|].
  destruct (linspace _ _ (n + 1)) as [e|x] eqn:EL; cbn [bind] in H; [|discriminate H]. destruct (cdf d e) as [w|x] eqn:EC; cbn [bind] in H; [|discriminate H].
  injection H as <- <-. destruct (C61_linspace _ _ _ _ EL) as [LE [EV [F0 [F1 _]]]]. destruct (outer_spans d NE) as [LT [SP IN]].
  assert (L2 : (2 <= List.length e)%nat) by lia. destruct (cdf_spec d e w L2 EC) as [_ [LW [W0 _]]].
  specialize (F0 ltac:(lia)). specialize (F1 ltac:(lia)).
  assert (R : forall x, In x d -> nth 0 e 0 <= x /\ x <= nth (List.length e - 1) e 0) by (intros x I; destruct (IN x I); rewrite F0, F1; auto).
  split; [lia|]. split; [exact LW|]. split.
  { exists (fst (outer_edges d)), (snd (outer_edges d)). repeat split; auto. }
  split; [exact W0|]. split.
  - rewrite LW. destruct (cdf_last d e w L2 EC) as [_ [X|X]]; [|exact X]. exfalso.
    destruct (C51_cdf d e (evenly_mono _ _ _ (Qlt_le_weak _ _ LT) EV) L2) as [st [E' Y]].
    { destruct d as [|x d]; [contradiction|]. exists x. split; [left; reflexivity|]. apply R. left. reflexivity. }
    rewrite EC in E'. injection E' as <-. destruct Y as [_ [_ [[q [Y1 _]] _]]]. rewrite X in Y1. discriminate Y1.
  - intros k a K C. exact (C52_ecdf d e w NE L2 EC R k a K C).
Qed.

Lemma prepare_split : forall coords s d m h edge nn,
  prepare coords s d m h edge nn =
  let! smh := prepare coords (SupArr []) d m h edge nn in let '(_, m', h') := smh in let! l := make_support (nn m') s in Ok (l, m', h').
Proof.
  intros coords s d m h edge nn. unfold prepare. destruct edge; [reflexivity|]. destruct (prepare_hull coords h) as [r|e]; cbn [bind]; [|reflexivity].
  destruct (is_none d && _); [reflexivity|]. destruct m; reflexivity.
Qed.

Section Functions.
Variable query : metric -> list pt -> pt -> nat -> row.
Variable dist : metric -> pt -> pt -> Q.
Variable shape : list pt -> hullres -> hull.
Notation f_form := (f_form query shape).
Notation g_form := (g_form query).
Notation k_form := (k_form query dist).
Notation l_form := (l_form query dist).

(** ** C156 *)
(** The forms of [Ripley_model] are those of the other theorems. *)
Theorem C156_known : forall coords s d m h edge us lin,
  f_form coords (SupKnown s) d m h edge us = f_fun query shape coords s d m h edge us /\
  g_form coords (SupKnown s) d m edge = g_fun query coords s d m edge /\
  k_form coords (SupKnown s) d m edge = k_fun query dist coords s d m edge /\
  l_form lin coords (SupKnown s) d m edge = l_fun query dist lin coords s d m edge.
Proof.
  intros coords s d m h edge us lin.
  assert (K0 : k_form coords (SupKnown s) d m edge = k_fun query dist coords s d m edge).
  { unfold Supports_model.k_form, k_fun. rewrite (prepare_split coords s). destruct (prepare coords (SupArr []) d m HNone edge _) as [[[s0 m'] h']|e]; cbn [bind]; [|reflexivity].
    cbn [make_object]. destruct (make_support (nnd query coords m') s) as [l|e]; cbn [bind]; [|reflexivity]. destruct h'; try reflexivity. unfold k_stat.
    destruct (k_distances _ d _) as [l'|e]; reflexivity. }
  split; [|split; [|split; [exact K0|]]].
  - unfold Supports_model.f_form, f_fun. rewrite (prepare_split coords s). destruct (prepare coords (SupArr []) d m h edge _) as [[[s0 m'] h']|e]; cbn [bind lift rbind]; [|reflexivity].
    cbn [make_object]. destruct (make_support (nnd query coords m') s) as [l|e]; cbn [bind lift rbind]; [|reflexivity].
    destruct d as [|dl|k0 p mm|fl].
    + destruct (poisson _ None _ us) as [a us'|e|]; cbn [rbind]; try reflexivity. destruct (two_dim a) as [rs|e]; cbn [lift rbind]; [|reflexivity].
      destruct (nearest_distances query m' coords rs) as [ds|e]; cbn [lift rbind]; [|reflexivity]. unfold f_stat. cbn [f_distances lift rbind bind]. unfold cdf_bins. cbn [bin_edges bind]. destruct (cdf ds l); reflexivity.
    + unfold f_stat. cbn [f_distances lift rbind bind]. unfold cdf_bins. cbn [bin_edges bind]. destruct (cdf dl l); reflexivity.
    + unfold f_stat. destruct (f_distances (List.length coords) (D2 k0 p mm) []) as [ds|e]; cbn [lift rbind bind]; [|reflexivity]. unfold cdf_bins. cbn [bin_edges bind]. destruct (cdf ds l); reflexivity.
    + unfold f_stat. cbn [f_distances lift rbind bind]. unfold cdf_bins. cbn [bin_edges bind]. destruct (cdf fl l); reflexivity.
  - unfold Supports_model.g_form, g_fun. rewrite (prepare_split coords s). destruct (prepare coords (SupArr []) d m HNone edge _) as [[[s0 m'] h']|e]; cbn [bind]; [|reflexivity].
    cbn [make_object]. destruct (make_support (nnd query coords m') s) as [l|e]; cbn [bind]; [|reflexivity]. unfold g_stat.
    destruct (g_distances _ d _) as [ds|e]; cbn [bind]; [|reflexivity]. unfold cdf_bins. cbn [bin_edges bind]. destruct (cdf ds l); reflexivity.
  - unfold Supports_model.l_form, l_fun. rewrite K0. reflexivity.
Qed.
Print Assumptions C156_known.

(** A numpy integer n: g and f cut the range of the distances themselves into n bins, so
    that the support has n + 1 values from the least to the greatest distance and the last
    value is 1; a Python integer n stands for n values from 0. *)
Theorem C156_numpy_int_refuted : forall coords n d m edge sup v,
  g_form coords (SupNumpyInt n) d m edge = Ok (sup, v) ->
  (exists l m', g_distances (List.length coords) d (nnd query coords m') = Ok l /\ (l <> [] -> (1 <= n)%Z /\ DataBins n l sup v)) /\
  (forall sup' v', g_form coords (SupKnown (SupInt n)) d m edge = Ok (sup', v') ->
     List.length sup' <> List.length sup /\ ((1 <= n)%Z -> nth 0 sup' 0 == 0)).
Proof.
  intros coords n d m edge sup v H.
  assert (LN : Z.of_nat (List.length sup) = (n + 1)%Z /\ (1 <= n)%Z).
  { unfold Supports_model.g_form in H. destruct (prepare _ _ _ _ _ _ _) as [[[s0 m'] h']|e]; cbn [bind make_object] in H; [|discriminate H].
    destruct (g_distances _ d _) as [l|e]; cbn [bind] in H; [|discriminate H]. unfold cdf_bins in H. cbn [bin_edges] in H. destruct (Z.ltb_spec n 1); [discriminate H|].
    destruct (linspace _ _ _) as [e0|] eqn:EL; cbn [bind] in H; [|discriminate H]. destruct (cdf l e0); cbn [bind] in H; [|discriminate H]. injection H as <- _.
    destruct (C61_linspace _ _ _ _ EL) as [LE _]. split; lia. }
  split.
  - unfold Supports_model.g_form in H. destruct (prepare _ _ _ _ _ _ _) as [[[s0 m'] h']|e]; cbn [bind make_object] in H; [|discriminate H].
    destruct (g_distances _ d (nnd query coords m')) as [l|e] eqn:EG; cbn [bind] in H; [|discriminate H]. exists l, m'. split; [exact EG|]. intro NE. apply bins_spec; assumption.
  - intros sup' v' H'. destruct (C156_known coords (SupInt n) d m HNone edge [] false) as [_ [E _]]. rewrite E in H'. clear E. unfold g_fun in H'.
    rewrite prepare_split in H'. destruct (prepare coords (SupArr []) d m HNone edge _) as [[[s0 m'] h']|e]; cbn [bind make_support] in H'; [|discriminate H'].
    destruct (nnd query coords m') as [[|x l]|e]; cbn [bind] in H'; try discriminate H'. destruct (linspace 0 (Qmax_list x l) n) as [e0|] eqn:EL; cbn [bind] in H'; [|discriminate H'].
    destruct (g_stat _ e0 d _); cbn [bind] in H'; [|discriminate H']. injection H' as <- _. destruct (C61_linspace _ _ _ _ EL) as [LE [_ [F0 _]]]. split; [lia|exact F0].
Qed.
Print Assumptions C156_numpy_int_refuted.

(** The same for f, whose distances belong to points of the hull or are given. *)
Theorem C156_f_numpy_int_refuted : forall coords n d m h edge us sup v rest,
  f_form coords (SupNumpyInt n) d m h edge us = Val (sup, v) rest ->
  exists l, (forall g, d = D1 g -> l = g) /\ (l <> [] -> (1 <= n)%Z /\ DataBins n l sup v).
Proof.
  intros coords n d m h edge us sup v rest H. unfold Supports_model.f_form in H.
  destruct (prepare _ _ _ _ _ _ _) as [[[s0 m'] h']|e]; cbn [lift rbind make_object] in H; [|discriminate H].
  assert (FIN : forall l us0, lift (cdf_bins l (ObjInt n)) us0 = Val (sup, v) rest -> l <> [] -> (1 <= n)%Z /\ DataBins n l sup v).
  { intros l us0 X NE. destruct (cdf_bins l (ObjInt n)) as [[a b]|] eqn:E; cbn [lift] in X; [|discriminate X]. injection X as <- <- _. apply bins_spec; assumption. }
  destruct d as [|dl|k0 p mm|fl].
  - destruct (poisson _ None _ us) as [a us'|e|]; cbn [rbind] in H; try discriminate H. destruct (two_dim a) as [rs|e]; cbn [lift rbind] in H; [|discriminate H].
    destruct (nearest_distances query m' coords rs) as [ds|e]; cbn [lift rbind f_distances] in H; [|discriminate H]. exists ds. split; [discriminate|]. exact (FIN ds us' H).
  - cbn [f_distances lift rbind] in H. exists dl. split; [intros g E; injection E as <-; reflexivity|]. exact (FIN dl us H).
  - destruct (f_distances _ _ _) as [ds|e]; cbn [lift rbind] in H; [|discriminate H]. exists ds. split; [discriminate|]. exact (FIN ds us H).
  - cbn [f_distances lift rbind] in H. exists fl. split; [discriminate|]. exact (FIN fl us H).
Qed.
Print Assumptions C156_f_numpy_int_refuted.

(** k and l take a single number, integer or not, for a distance; f and g never accept a float. *)
Theorem C156_number : forall coords q n d m h edge us lin,
  k_form coords (SupFloat q) d m edge = k_fun query dist coords (SupArr [q]) d m edge /\
  k_form coords (SupNumpyInt n) d m edge = k_fun query dist coords (SupArr [inject_Z n]) d m edge /\
  l_form lin coords (SupFloat q) d m edge = l_fun query dist lin coords (SupArr [q]) d m edge /\
  l_form lin coords (SupNumpyInt n) d m edge = l_fun query dist lin coords (SupArr [inject_Z n]) d m edge /\
  (forall r, g_form coords (SupFloat q) d m edge <> Ok r) /\ (forall r rest, f_form coords (SupFloat q) d m h edge us <> Val r rest) /\
  (forall e r, g_form coords (SupKnown (SupArr e)) d m edge = Ok r -> g_form coords (SupFloat q) d m edge = Raise TypeError).
Proof.
  intros coords q n d m h edge us lin.
  assert (KF : k_form coords (SupFloat q) d m edge = k_fun query dist coords (SupArr [q]) d m edge).
  { destruct (C156_known coords (SupArr [q]) d m h edge us lin) as [_ [_ [E _]]]. rewrite <- E. reflexivity. }
  assert (KI : k_form coords (SupNumpyInt n) d m edge = k_fun query dist coords (SupArr [inject_Z n]) d m edge).
  { destruct (C156_known coords (SupArr [inject_Z n]) d m h edge us lin) as [_ [_ [E _]]]. rewrite <- E. reflexivity. }
  split; [exact KF|]. split; [exact KI|]. split; [unfold Supports_model.l_form, l_fun; rewrite KF; reflexivity|]. split; [unfold Supports_model.l_form, l_fun; rewrite KI; reflexivity|]. split; [|split].
  - intros r H. unfold Supports_model.g_form in H. destruct (prepare _ _ _ _ _ _ _) as [[[s0 m'] h']|e]; cbn [bind make_object] in H; [|discriminate H].
    destruct (g_distances _ d _) as [l|e]; discriminate H.
  - intros r rest H. unfold Supports_model.f_form in H. destruct (prepare _ _ _ _ _ _ _) as [[[s0 m'] h']|e]; cbn [lift rbind make_object] in H; [|discriminate H].
    destruct d as [|dl|k0 p mm|fl].
    + destruct (poisson _ None _ us) as [a us'|e|]; cbn [rbind] in H; try discriminate H. destruct (two_dim a) as [rs|e]; cbn [lift rbind] in H; [|discriminate H].
      destruct (nearest_distances query m' coords rs) as [ds|e]; discriminate H.
    + discriminate H.
    + destruct (f_distances _ _ _); discriminate H.
    + discriminate H.
  - intros e r H. unfold Supports_model.g_form in *. destruct (prepare _ _ _ _ _ _ _) as [[[s0 m'] h']|x]; cbn [bind make_object make_support] in *; [|discriminate H].
    destruct (g_distances _ d _) as [l|x]; cbn [bind] in *; [reflexivity|discriminate H].
Qed.
Print Assumptions C156_number.

(** A tuple of four or more numbers is a list of bin edges for f and g; k and l fail on it. *)
Theorem C156_tuple_refuted : forall coords e d m h edge us lin,
  g_form coords (SupTuple e) d m edge = g_fun query coords (SupArr e) d m edge /\
  f_form coords (SupTuple e) d m h edge us = f_fun query shape coords (SupArr e) d m h edge us /\
  (forall r, k_fun query dist coords (SupArr e) d m edge = Ok r ->
     k_form coords (SupTuple e) d m edge = Raise AttributeError /\ l_form lin coords (SupTuple e) d m edge = Raise AttributeError).
Proof.
  intros coords e d m h edge us lin. destruct (C156_known coords (SupArr e) d m h edge us lin) as [E1 [E2 [E3 _]]]. split; [rewrite <- E2; reflexivity|]. split; [rewrite <- E1; reflexivity|].
  intros r H. rewrite <- E3 in H.
  assert (KT : k_form coords (SupTuple e) d m edge = Raise AttributeError).
  { unfold Supports_model.k_form in *. destruct (prepare _ _ _ _ _ _ _) as [[[s0 m'] h']|x]; cbn [bind make_object make_support] in *; [|discriminate H].
    destruct h'; try discriminate H. destruct (k_distances _ d _) as [l|x]; cbn [bind k_support] in *; [reflexivity|discriminate H]. }
  split; [exact KT|]. unfold Supports_model.l_form. rewrite KT. reflexivity.
Qed.
Print Assumptions C156_tuple_refuted.

(** No bins: ValueError from f and g, although k takes the number for a distance. *)
Theorem C156_no_bins : forall coords n d m edge, (n < 1)%Z -> (forall r, g_form coords (SupNumpyInt n) d m edge <> Ok r) /\
  (forall e r, g_form coords (SupKnown (SupArr e)) d m edge = Ok r -> g_form coords (SupNumpyInt n) d m edge = Raise ValueError).
Proof.
  intros coords n d m edge N.
  assert (B : forall l, cdf_bins l (ObjInt n) = Raise ValueError) by (intro l; unfold cdf_bins; cbn [bin_edges]; destruct (Z.ltb_spec n 1); [reflexivity|lia]).
  split.
  - intros r H. unfold Supports_model.g_form in H. destruct (prepare _ _ _ _ _ _ _) as [[[s0 m'] h']|e]; cbn [bind make_object] in H; [|discriminate H].
    destruct (g_distances _ d _) as [l|e]; cbn [bind] in H; [rewrite B in H|]; discriminate H.
  - intros e r H. unfold Supports_model.g_form in *. destruct (prepare _ _ _ _ _ _ _) as [[[s0 m'] h']|x]; cbn [bind make_object make_support] in *; [|discriminate H].
    destruct (g_distances _ d _) as [l|x]; cbn [bind] in *; [apply B|discriminate H].
Qed.
Print Assumptions C156_no_bins.
End Functions.

(** Three points with the distances 3, 5, 4 given: numpy.int64(2) and 2 as support; four points
    with equal distances; the distance 4 for k. *)
Definition no_query : metric -> list pt -> pt -> nat -> row := fun _ _ _ k => List.repeat (1, 0%nat) k.
Definition three : list pt := [(0, 0); (3, 0); (3, 4)].
Example C156_case :
  (exists a b, g_form no_query three (SupNumpyInt 2) (D1 [3; 5; 4]) (MName "euclidean") false = Ok ([3 + 0 * ((5 - 3) / 2); a; b], [Fin 0; Fin (1 # 3); Fin (3 # 3)]) /\ a == 4 /\ b == 5) /\
  (exists v, k_form no_query (fun _ _ _ => 0) three (SupNumpyInt 4) (D1 [3; 5; 4]) (MName "euclidean") false = Ok ([4], [Fin v]) /\ v == 8 # 3) /\
  k_form no_query (fun _ _ _ => 0) three (SupTuple [1; 2; 3; 4]) (D1 [3; 5; 4]) (MName "euclidean") false = Raise AttributeError /\
  g_form no_query three (SupFloat (1 # 2)) (D1 [3; 5; 4]) (MName "euclidean") false = Raise TypeError /\
  (exists a b v w, g_form no_query three (SupNumpyInt 1) (D1 [2; 2; 2]) (MName "euclidean") false = Ok ([a; b], [Fin v; Fin w]) /\ a == 3 # 2 /\ b == 5 # 2 /\ v == 0 /\ w == 1).
Proof.
  split; [do 2 eexists; split; [vm_compute; reflexivity|split; reflexivity]|]. split; [eexists; split; [vm_compute; reflexivity|reflexivity]|].
  split; [vm_compute; reflexivity|]. split; [vm_compute; reflexivity|]. do 4 eexists. split; [vm_compute; reflexivity|]. repeat split; reflexivity.
Qed.
Print Assumptions C156_case.
