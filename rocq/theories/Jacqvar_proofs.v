(** Second moments of joint counts of two directed relations over all relabellings. *)
From Coq Require Import List Bool Arith Lia Permutation Factorial.
From Verif Require Import Base BaseLemmas Spec Spacetime_model Spacetime_spec Pairs_proofs Spacetime_proofs Hyper_proofs Perms_proofs Knoxvar_proofs.
Import ListNotations.
Local Open Scope nat_scope.

Section Directed.
Variable w : nat -> nat -> nat.
Hypothesis loop : forall i, w i i = 0.
(** Two arcs with a common element: from one, into one, and through one. *)
Definition out2 (x : list nat) : nat := match x with [i; j; k] => w i j * w i k | _ => 0 end.
Definition into2 (x : list nat) : nat := match x with [i; j; k] => w i j * w k j | _ => 0 end.
Definition next2 (x : list nat) : nat := match x with [i; j; k] => w i j * w j k | _ => 0 end.
Definition prev2 (x : list nat) : nat := match x with [i; j; k] => w i j * w k i | _ => 0 end.
Definition back2 (x : list nat) : nat := match x with [i; j] => w i j * w j i | _ => 0 end.
Definition same2 (x : list nat) : nat := match x with [i; j] => w i j * w i j | _ => 0 end.
Definition indeg (l : list nat) (j : nat) : nat := list_sum (map (fun i => w i j) l).

Lemma square_split : forall l, tot w l * tot w l =
  arr_sum 4 l (w4 w) + (arr_sum 3 l out2 + (arr_sum 3 l into2 + (arr_sum 3 l next2 + arr_sum 3 l prev2))) + (arr_sum 2 l same2 + arr_sum 2 l back2).
Proof using loop.
  intro l. rewrite <- (arr_w2 w loop l) at 2.
  rewrite !arr_step, <- !list_sum_scale, <- !list_sum_map_plus. apply list_sum_map_ext. intros p P.
  rewrite !arr_step, <- !list_sum_scale, <- !list_sum_map_plus. apply list_sum_map_ext. intros q Qq.
  set (i := fst p) in *. set (j := fst q) in *. set (l2 := snd q) in *.
  assert (SP : forall f, list_sum (map f l) = f i + (f j + list_sum (map f l2))) by (intro f; rewrite (sel_split _ _ f P), (sel_split _ _ f Qq); reflexivity).
  rewrite (arr_w4_rest w loop l2 i j), !arr_1, !arr_0. cbn [w2 out2 into2 next2 prev2 back2 same2].
  rewrite !list_sum_scale.
  assert (DG : forall m, dg w l m = w m i + (w m j + dg w l2 m)) by (intro m; unfold dg at 1; apply SP).
  assert (D2 : list_sum (map (dg w l) l2) = list_sum (map (fun m => w m i) l2) + (list_sum (map (fun m => w m j) l2) + list_sum (map (dg w l2) l2))).
  { rewrite (list_sum_map_ext _ _ (fun m => w m i + (w m j + dg w l2 m))) by (intros; apply DG). rewrite !list_sum_map_plus. reflexivity. }
  unfold tot. rewrite (SP (dg w l)), D2, (DG i), (DG j), !loop. unfold dg. ring.
Qed.
Lemma third : forall l (h : nat -> nat -> nat -> nat),
  arr_sum 3 l (fun x => match x with [i; j; k] => w i j * h i j k | _ => 0 end) + arr_sum 2 l (fun x => match x with [i; j] => w i j * (h i j i + h i j j) | _ => 0 end) =
  list_sum (map (fun i => list_sum (map (fun j => w i j * list_sum (map (h i j) l)) l)) l).
Proof using loop.
  intros l h. rewrite <- (pairs_any l (fun i j => w i j * list_sum (map (h i j) l))) by (intro; rewrite loop; reflexivity).
  rewrite !arr_step, <- !list_sum_map_plus. apply list_sum_map_ext. intros p P.
  rewrite !arr_step, <- !list_sum_map_plus. apply list_sum_map_ext. intros q Qq.
  rewrite arr_1, !arr_0, list_sum_scale. rewrite (sel_split _ _ (h (fst p) (fst q)) P), (sel_split _ _ (h (fst p) (fst q)) Qq). ring.
Qed.
Lemma swap_sum : forall l (f : nat -> nat -> nat), list_sum (map (fun i => list_sum (map (f i) l)) l) = list_sum (map (fun j => list_sum (map (fun i => f i j) l)) l).
Proof using. clear loop. intros l f. apply (list_sum_swap nat nat f l l). Qed.
Lemma out_sum : forall l, arr_sum 3 l out2 + arr_sum 2 l same2 = list_sum (map (fun i => dg w l i * dg w l i) l).
Proof using loop.
  intro l. pose proof (third l (fun i _ k => w i k)) as T. cbv beta in T.
  rewrite (arr_ext 2 l _ same2) in T by (intros [|i [|j [|k x]]]; try reflexivity; cbn; rewrite loop; ring).
  change (arr_sum 3 l (fun x => match x with [i; j; k] => w i j * w i k | _ => 0 end)) with (arr_sum 3 l out2) in T. rewrite T. apply list_sum_map_ext. intros i _.
  rewrite (list_sum_map_ext _ _ (fun j => dg w l i * w i j)) by (intros; apply Nat.mul_comm). rewrite list_sum_scale. reflexivity.
Qed.
Lemma into_sum : forall l, arr_sum 3 l into2 + arr_sum 2 l same2 = list_sum (map (fun j => indeg l j * indeg l j) l).
Proof using loop.
  intro l. pose proof (third l (fun _ j k => w k j)) as T. cbv beta in T.
  rewrite (arr_ext 2 l _ same2) in T by (intros [|i [|j [|k x]]]; try reflexivity; cbn; rewrite loop; ring).
  change (arr_sum 3 l (fun x => match x with [i; j; k] => w i j * w k j | _ => 0 end)) with (arr_sum 3 l into2) in T. rewrite T, swap_sum. apply list_sum_map_ext. intros j _.
  rewrite (list_sum_map_ext _ _ (fun i => indeg l j * w i j)) by (intros; apply Nat.mul_comm). rewrite list_sum_scale. reflexivity.
Qed.
Lemma next_sum : forall l, arr_sum 3 l next2 + arr_sum 2 l back2 = list_sum (map (fun j => indeg l j * dg w l j) l).
Proof using loop.
  intro l. pose proof (third l (fun _ j k => w j k)) as T. cbv beta in T.
  rewrite (arr_ext 2 l _ back2) in T by (intros [|i [|j [|k x]]]; try reflexivity; cbn; rewrite loop; ring).
  change (arr_sum 3 l (fun x => match x with [i; j; k] => w i j * w j k | _ => 0 end)) with (arr_sum 3 l next2) in T. rewrite T, swap_sum. apply list_sum_map_ext. intros j _.
  rewrite (list_sum_map_ext _ _ (fun i => dg w l j * w i j)) by (intros; apply Nat.mul_comm). rewrite list_sum_scale. apply Nat.mul_comm.
Qed.
Lemma prev_sum : forall l, arr_sum 3 l prev2 + arr_sum 2 l back2 = list_sum (map (fun i => indeg l i * dg w l i) l).
Proof using loop.
  intro l. pose proof (third l (fun i _ k => w k i)) as T. cbv beta in T.
  rewrite (arr_ext 2 l _ back2) in T by (intros [|i [|j [|k x]]]; try reflexivity; cbn; rewrite loop; ring).
  change (arr_sum 3 l (fun x => match x with [i; j; k] => w i j * w k i | _ => 0 end)) with (arr_sum 3 l prev2) in T. rewrite T. apply list_sum_map_ext. intros i _.
  rewrite (list_sum_map_ext _ _ (fun j => indeg l i * w i j)) by (intros; apply Nat.mul_comm). rewrite list_sum_scale. reflexivity.
Qed.
Lemma back_sum : forall l, arr_sum 2 l back2 = list_sum (map (fun i => list_sum (map (fun j => w i j * w j i) l)) l).
Proof using loop. intro l. apply (pairs_any l (fun i j => w i j * w j i)). intro; rewrite loop; reflexivity. Qed.
Lemma same_sum : forall l, arr_sum 2 l same2 = list_sum (map (fun i => list_sum (map (fun j => w i j * w i j) l)) l).
Proof using loop. intro l. apply (pairs_any l (fun i j => w i j * w i j)). intro; rewrite loop; reflexivity. Qed.
End Directed.

(** The squares of the joint counts over all relabellings. *)
Lemma moment_directed : forall n E (f g : nat -> nat -> nat), Enum (seq 0 n) E -> (forall i, f i i = 0) -> (forall i, g i i = 0) ->
  list_sum (map (fun r => tot (fun i j => f i j * g (nth i r 0) (nth j r 0)) (seq 0 n) * tot (fun i j => f i j * g (nth i r 0) (nth j r 0)) (seq 0 n)) E) =
  fact (n - 4) * (arr_sum 4 (seq 0 n) (w4 f) * arr_sum 4 (seq 0 n) (w4 g)) +
  fact (n - 3) * (arr_sum 3 (seq 0 n) (out2 f) * arr_sum 3 (seq 0 n) (out2 g) + arr_sum 3 (seq 0 n) (into2 f) * arr_sum 3 (seq 0 n) (into2 g) +
                  arr_sum 3 (seq 0 n) (next2 f) * arr_sum 3 (seq 0 n) (next2 g) + arr_sum 3 (seq 0 n) (prev2 f) * arr_sum 3 (seq 0 n) (prev2 g)) +
  fact (n - 2) * (arr_sum 2 (seq 0 n) (same2 f) * arr_sum 2 (seq 0 n) (same2 g) + arr_sum 2 (seq 0 n) (back2 f) * arr_sum 2 (seq 0 n) (back2 g)).
Proof.
  intros n E f g HE Zf Zg. set (w := fun (r : list nat) i j => f i j * g (nth i r 0) (nth j r 0)).
  assert (ZW : forall r i, w r i i = 0) by (intros; unfold w; rewrite Zf; reflexivity).
  set (im := fun (r x : list nat) => map (fun i => nth i r 0) x).
  rewrite (list_sum_map_ext _ _ (fun r =>
    arr_sum 4 (seq 0 n) (fun x => w4 f x * w4 g (im r x)) + (arr_sum 3 (seq 0 n) (fun x => out2 f x * out2 g (im r x)) + (arr_sum 3 (seq 0 n) (fun x => into2 f x * into2 g (im r x)) +
      (arr_sum 3 (seq 0 n) (fun x => next2 f x * next2 g (im r x)) + arr_sum 3 (seq 0 n) (fun x => prev2 f x * prev2 g (im r x))))) +
    (arr_sum 2 (seq 0 n) (fun x => same2 f x * same2 g (im r x)) + arr_sum 2 (seq 0 n) (fun x => back2 f x * back2 g (im r x))))).
  - rewrite !list_sum_map_plus. unfold im.
    rewrite (joint_arr n E 4 (w4 f) (w4 g) HE), (joint_arr n E 3 (out2 f) (out2 g) HE), (joint_arr n E 3 (into2 f) (into2 g) HE), (joint_arr n E 3 (next2 f) (next2 g) HE), (joint_arr n E 3 (prev2 f) (prev2 g) HE),
      (joint_arr n E 2 (same2 f) (same2 g) HE), (joint_arr n E 2 (back2 f) (back2 g) HE). ring.
  - intros r _. fold (w r). rewrite (square_split (w r) (ZW r)).
    rewrite (arr_ext 4 _ (fun x => w4 f x * w4 g (im r x)) (w4 (w r))) by (intros [|i [|j [|k [|m [|o x]]]]]; try reflexivity; cbn; unfold w; ring).
    rewrite (arr_ext 3 _ (fun x => out2 f x * out2 g (im r x)) (out2 (w r))) by (intros [|i [|j [|k [|m x]]]]; try reflexivity; cbn; unfold w; ring).
    rewrite (arr_ext 3 _ (fun x => into2 f x * into2 g (im r x)) (into2 (w r))) by (intros [|i [|j [|k [|m x]]]]; try reflexivity; cbn; unfold w; ring).
    rewrite (arr_ext 3 _ (fun x => next2 f x * next2 g (im r x)) (next2 (w r))) by (intros [|i [|j [|k [|m x]]]]; try reflexivity; cbn; unfold w; ring).
    rewrite (arr_ext 3 _ (fun x => prev2 f x * prev2 g (im r x)) (prev2 (w r))) by (intros [|i [|j [|k [|m x]]]]; try reflexivity; cbn; unfold w; ring).
    rewrite (arr_ext 2 _ (fun x => same2 f x * same2 g (im r x)) (same2 (w r))) by (intros [|i [|j [|k x]]]; try reflexivity; cbn; unfold w; ring).
    rewrite (arr_ext 2 _ (fun x => back2 f x * back2 g (im r x)) (back2 (w r))) by (intros [|i [|j [|k x]]]; try reflexivity; cbn; unfold w; ring).
    reflexivity.
Qed.
