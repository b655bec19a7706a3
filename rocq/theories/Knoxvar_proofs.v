(** The second moment of the number of close pairs over all relabellings. *)
From Coq Require Import ZArith QArith List Bool Arith Lia Lqa Permutation Factorial.
From Verif Require Import Base BaseLemmas Spec Spacetime_model Spacetime_spec Pairs_proofs Spacetime_proofs Hyper_proofs Perms_proofs.
Import ListNotations.
Local Open Scope nat_scope.

Definition total_on (l : list nat) (f : nat -> nat) : nat := list_sum (map f l).
(** The sum of [G] over the arrangements of [k] elements of [l]. *)
Definition arr_sum (k : nat) (l : list nat) (G : list nat -> nat) : nat := list_sum (map G (perms_n k l)).
Lemma arr_0 : forall l G, arr_sum 0 l G = G [].
Proof. intros l G. unfold arr_sum. cbn. lia. Qed.
Lemma arr_step : forall k l G, arr_sum (S k) l G = list_sum (map (fun p => arr_sum k (snd p) (fun y => G (fst p :: y))) (sel l)).
Proof.
  intros k l G. unfold arr_sum at 1. cbn [perms_n]. rewrite list_sum_flat_map. apply list_sum_map_ext. intros p _. rewrite map_map. reflexivity.
Qed.
Lemma psum_first : forall k l G, k <= length l -> psum l (fun r => G (firstn k r)) = fact (length l - k) * arr_sum k l G.
Proof.
  induction k as [|k IH]; intros l G LE.
  - cbn [firstn]. rewrite psum_const, arr_0, Nat.sub_0_r. reflexivity.
  - rewrite psum_step by (intros ->; cbn in LE; lia). rewrite arr_step, <- list_sum_scale. apply list_sum_map_ext. intros p P. pose proof (sel_len _ _ P) as L.
    cbn [firstn]. rewrite (IH (snd p) (fun y => G (fst p :: y))) by lia. f_equal. f_equal. lia.
Qed.
(** Images of different elements. *)
Lemma images : forall n E x G, Enum (seq 0 n) E -> NoDup x -> (forall i, In i x -> i < n) ->
  list_sum (map (fun r => G (map (fun i => nth i r 0) x)) E) = fact (n - length x) * arr_sum (length x) (seq 0 n) G.
Proof.
  intros n E x G HE ND B. destruct (complete n x ND B) as [rest PR]. pose proof (enum_positions n E _ HE PR) as HE2.
  assert (LX : length x <= n) by (pose proof (Permutation_length PR) as X; rewrite app_length, seq_length in X; lia).
  rewrite (list_sum_map_ext _ _ (fun r => (fun q => G (firstn (length x) q)) (map (fun j => nth j r 0) (x ++ rest)))).
  - rewrite <- (map_map (fun r => map (fun j => nth j r 0) (x ++ rest)) (fun q => G (firstn (length x) q))).
    rewrite (enum_sum (seq 0 n)); [|apply seq_NoDup|exact HE2]. rewrite psum_first by (rewrite seq_length; exact LX). rewrite seq_length. reflexivity.
  - intros r _. cbn beta. f_equal. rewrite map_app, firstn_app, map_length, Nat.sub_diag. cbn [firstn]. rewrite app_nil_r, firstn_all2 by (rewrite map_length; auto). reflexivity.
Qed.
Lemma perms_n_sound : forall k l x, NoDup l -> In x (perms_n k l) -> NoDup x /\ incl x l /\ length x = k.
Proof.
  induction k as [|k IH]; intros l x ND H.
  - destruct H as [<-|[]]. split; [constructor|split; [intros i []|reflexivity]].
  - cbn [perms_n] in H. apply in_flat_map in H. destruct H as [p [P H]]. apply in_map_iff in H. destruct H as [y [<- H]].
    destruct (sel_nodup _ _ ND P) as [N1 [N2 [N3 N4]]]. destruct (IH _ _ N1 H) as [Y1 [Y2 Y3]]. split; [constructor; [intro X; apply N2, Y2, X|exact Y1]|].
    split; [|cbn; lia]. intros i [<-|I]; [exact N3|]. apply N4, Y2, I.
Qed.
(** One kind of arrangement: the sum over all relabellings is a product. *)
Lemma joint_arr : forall n E k (F G : list nat -> nat), Enum (seq 0 n) E ->
  list_sum (map (fun r => arr_sum k (seq 0 n) (fun x => F x * G (map (fun i => nth i r 0) x))) E) =
  fact (n - k) * (arr_sum k (seq 0 n) F * arr_sum k (seq 0 n) G).
Proof.
  intros n E k F G HE. unfold arr_sum at 1. rewrite list_sum_swap.
  rewrite (list_sum_map_ext _ _ (fun x => (fact (n - k) * arr_sum k (seq 0 n) G) * F x)).
  - rewrite list_sum_scale. fold (arr_sum k (seq 0 n) F). ring.
  - intros x X. destruct (perms_n_sound _ _ _ (seq_NoDup n 0) X) as [ND [IN LX]]. rewrite list_sum_scale, (images n E x G HE ND), LX; [ring|].
    intros i I. apply IN, in_seq in I. lia.
Qed.

(** A symmetric relation without loops, as a matrix. *)
Section Matrix.
Variable w : nat -> nat -> nat.
Hypothesis sym : forall i j, w i j = w j i.
Hypothesis loop : forall i, w i i = 0.
Definition w2 (x : list nat) : nat := match x with [i; j] => w i j | _ => 0 end.
Definition w3 (x : list nat) : nat := match x with [i; j; k] => w i j * w i k | _ => 0 end.
Definition w4 (x : list nat) : nat := match x with [i; j; k; m] => w i j * w k m | _ => 0 end.
Lemma ls_cons : forall a l, list_sum (a :: l) = a + list_sum l.
Proof. reflexivity. Qed.
Lemma sel_split : forall l p (f : nat -> nat), In p (sel l) -> list_sum (map f l) = f (fst p) + list_sum (map f (snd p)).
Proof. intros l p f P. rewrite <- (list_sum_perm _ _ (Permutation_map f (sel_perm _ _ P))). reflexivity. Qed.
Lemma arr_1 : forall l G, arr_sum 1 l G = list_sum (map (fun i => G [i]) l).
Proof. intros l G. rewrite arr_step. rewrite (list_sum_map_ext _ _ (fun p => (fun i => G [i]) (fst p))) by (intros; apply arr_0). apply (sel_sum l (fun i => G [i])). Qed.
(** Pairs. *)
Lemma pairs_any : forall l (h : nat -> nat -> nat), (forall i, h i i = 0) -> arr_sum 2 l (fun x => match x with [i; j] => h i j | _ => 0 end) = list_sum (map (fun i => list_sum (map (h i) l)) l).
Proof.
  intros l h HL. rewrite arr_step, <- (sel_sum l (fun i => list_sum (map (h i) l))). apply list_sum_map_ext. intros p P. rewrite arr_1. rewrite (sel_split _ _ (h (fst p)) P), HL. reflexivity.
Qed.
Definition dg (l : list nat) (i : nat) : nat := list_sum (map (w i) l).
Definition tot (l : list nat) : nat := list_sum (map (dg l) l).
Definition squares (l : list nat) : nat := list_sum (map (fun i => list_sum (map (fun j => w i j * w i j) l)) l).
Definition degs2 (l : list nat) : nat := list_sum (map (fun i => dg l i * dg l i) l).
Lemma arr_w2 : forall l, arr_sum 2 l w2 = tot l.
Proof using loop. intros l. apply (pairs_any l w loop). Qed.
Lemma arr_w22 : forall l, arr_sum 2 l (fun x => w2 x * w2 x) = squares l.
Proof using loop.
  intros l. unfold squares. rewrite <- (pairs_any l (fun i j => w i j * w i j)) by (intro; rewrite loop; reflexivity). unfold arr_sum. apply list_sum_map_ext. intros x _. destruct x as [|i [|j [|k x]]]; reflexivity.
Qed.
Lemma weighted_deg : forall l, list_sum (map (fun i => list_sum (map (fun j => w i j * dg l i) l)) l) = degs2 l /\
  list_sum (map (fun i => list_sum (map (fun j => w i j * dg l j) l)) l) = degs2 l.
Proof using sym.
  intro l. assert (W : forall i, list_sum (map (fun j => w i j * dg l i) l) = dg l i * dg l i).
  { intro i. rewrite (list_sum_map_ext _ _ (fun j => dg l i * w i j)) by (intros; ring). rewrite list_sum_scale. reflexivity. }
  split; [apply list_sum_map_ext; intros i _; apply W|]. rewrite list_sum_swap. apply list_sum_map_ext. intros j _. rewrite <- W. apply list_sum_map_ext. intros i _. rewrite sym. reflexivity.
Qed.
(** Two neighbours of one element. *)
Lemma arr_w3 : forall l, arr_sum 3 l w3 + squares l = degs2 l.
Proof using sym loop.
  intro l. rewrite <- (proj1 (weighted_deg l)), <- (pairs_any l (fun i j => w i j * dg l i)) by (intro; rewrite loop; reflexivity). rewrite <- arr_w22.
  rewrite !arr_step, <- list_sum_map_plus. apply list_sum_map_ext. intros p P. rewrite !arr_step, <- list_sum_map_plus. apply list_sum_map_ext. intros q Qq. rewrite arr_1, !arr_0. cbn [w2 w3].
  rewrite list_sum_scale. unfold dg. rewrite (sel_split _ _ (w (fst p)) P), (sel_split _ _ (w (fst p)) Qq), loop. ring.
Qed.
Lemma arr_w4_rest : forall l i j, arr_sum 2 l (fun y => w4 (i :: j :: y)) = w i j * list_sum (map (dg l) l).
Proof using loop.
  intros l i j. fold (tot l). rewrite <- arr_w2. unfold arr_sum. rewrite <- list_sum_scale. apply list_sum_map_ext. intros x _. destruct x as [|k [|m [|o x]]]; cbn [w2 w4]; lia.
Qed.
(** Two pairs without a common element. *)
Lemma arr_w4 : forall l, arr_sum 4 l w4 + 4 * degs2 l = tot l * tot l + 2 * squares l.
Proof using sym loop.
  intro l.
  assert (K : arr_sum 4 l w4 + 2 * (arr_sum 2 l (fun x => match x with [i; j] => w i j * dg l i | _ => 0 end) + arr_sum 2 l (fun x => match x with [i; j] => w i j * dg l j | _ => 0 end)) =
    tot l * arr_sum 2 l w2 + 2 * arr_sum 2 l (fun x => w2 x * w2 x)).
  { rewrite !arr_step, <- !list_sum_scale, <- !list_sum_map_plus, <- list_sum_scale, <- list_sum_map_plus. apply list_sum_map_ext. intros p P.
    rewrite !arr_step, <- !list_sum_scale, <- !list_sum_map_plus, <- list_sum_scale, <- list_sum_map_plus. apply list_sum_map_ext. intros q Qq.
    rewrite !arr_0. cbn [w2]. set (i := fst p) in *. set (j := fst q) in *. set (l2 := snd q) in *.
    assert (SP : forall f, list_sum (map f l) = f i + (f j + list_sum (map f l2))) by (intro f; rewrite (sel_split _ _ f P), (sel_split _ _ f Qq); reflexivity).
    rewrite (arr_w4_rest l2 i j).
    assert (TT : tot l + 2 * w i j = list_sum (map (dg l2) l2) + 2 * (dg l i + dg l j)).
    { assert (DG : forall m, dg l m = w i m + (w j m + dg l2 m)) by (intro m; unfold dg at 1; rewrite (SP (w m)), (sym m i), (sym m j); reflexivity).
      assert (D2 : list_sum (map (dg l) l2) = dg l2 i + (dg l2 j + list_sum (map (dg l2) l2))).
      { rewrite (list_sum_map_ext _ _ (fun m => w i m + (w j m + dg l2 m))) by (intros; apply DG). rewrite !list_sum_map_plus. reflexivity. }
      unfold tot. rewrite (SP (dg l)), D2. pose proof (DG i) as Di. pose proof (DG j) as Dj. rewrite loop in Di, Dj. rewrite (sym j i) in Di. lia. }
    transitivity (w i j * (list_sum (map (dg l2) l2) + 2 * (dg l i + dg l j))); [ring|]. rewrite <- TT. ring. }
  rewrite arr_w2, arr_w22 in K. rewrite !pairs_any in K by (intro; rewrite loop; reflexivity). destruct (weighted_deg l) as [D1 D2]. rewrite D1, D2 in K. lia.
Qed.
End Matrix.
(** The squares of the joint counts over all relabellings. *)
Lemma arr_ext : forall k l F G, (forall x, F x = G x) -> arr_sum k l F = arr_sum k l G.
Proof. intros k l F G H. apply list_sum_map_ext. intros x _. apply H. Qed.
Lemma second_moment : forall n E (f g : nat -> nat -> nat), Enum (seq 0 n) E -> (forall i j, f i j = f j i) -> (forall i j, g i j = g j i) ->
  (forall i, f i i = 0) -> (forall i, g i i = 0) ->
  list_sum (map (fun r => tot (fun i j => f i j * g (nth i r 0) (nth j r 0)) (seq 0 n) * tot (fun i j => f i j * g (nth i r 0) (nth j r 0)) (seq 0 n)) E) =
  fact (n - 4) * (arr_sum 4 (seq 0 n) (w4 f) * arr_sum 4 (seq 0 n) (w4 g)) + 4 * (fact (n - 3) * (arr_sum 3 (seq 0 n) (w3 f) * arr_sum 3 (seq 0 n) (w3 g))) +
  2 * (fact (n - 2) * (squares f (seq 0 n) * squares g (seq 0 n))).
Proof.
  intros n E f g HE Sf Sg Zf Zg. set (w := fun (r : list nat) i j => f i j * g (nth i r 0) (nth j r 0)).
  assert (SW : forall r i j, w r i j = w r j i) by (intros; unfold w; rewrite Sf, Sg; reflexivity).
  assert (ZW : forall r i, w r i i = 0) by (intros; unfold w; rewrite Zf; reflexivity).
  rewrite (list_sum_map_ext _ _ (fun r => (arr_sum 4 (seq 0 n) (fun x => w4 f x * w4 g (map (fun i => nth i r 0) x)) + 4 * arr_sum 3 (seq 0 n) (fun x => w3 f x * w3 g (map (fun i => nth i r 0) x))) +
    2 * arr_sum 2 (seq 0 n) (fun x => w2 f x * w2 f x * (fun y => w2 g y * w2 g y) (map (fun i => nth i r 0) x)))).
  - rewrite !list_sum_map_plus, !list_sum_scale, (joint_arr n E 4 (w4 f) (w4 g) HE), (joint_arr n E 3 (w3 f) (w3 g) HE).
    pose proof (joint_arr n E 2 (fun x => w2 f x * w2 f x) (fun y => w2 g y * w2 g y) HE) as J2. cbv beta in J2 |- *. rewrite J2, !arr_w22 by assumption. reflexivity.
  - intros r _. fold (w r). pose proof (arr_w4 (w r) (SW r) (ZW r) (seq 0 n)) as A4. pose proof (arr_w3 (w r) (SW r) (ZW r) (seq 0 n)) as A3. pose proof (arr_w22 (w r) (ZW r) (seq 0 n)) as A2.
    rewrite (arr_ext 4 _ (fun x => w4 f x * w4 g (map (fun i => nth i r 0) x)) (w4 (w r))).
    2:{ intros [|i [|j [|k [|m [|o x]]]]]; try reflexivity. cbn [w4 map]. unfold w. ring. }
    rewrite (arr_ext 3 _ (fun x => w3 f x * w3 g (map (fun i => nth i r 0) x)) (w3 (w r))).
    2:{ intros [|i [|j [|k [|m x]]]]; try reflexivity. cbn [w3 map]. unfold w. ring. }
    rewrite (arr_ext 2 _ (fun x => w2 f x * w2 f x * (w2 g (map (fun i => nth i r 0) x) * w2 g (map (fun i => nth i r 0) x))) (fun x => w2 (w r) x * w2 (w r) x)).
    2:{ intros [|i [|j [|k x]]]; try reflexivity. cbn [w2 map]. unfold w. ring. }
    rewrite A2. lia.
Qed.
