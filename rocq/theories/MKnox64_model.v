(** The modified Knox statistic and the expected Knox table on binary64.
    spacetime.py 583-640 (modified_knox), 763-807 (_knox). *)
From Coq Require Import ZArith List Bool.
From Flocq Require Import BinarySingleNaN.
From Verif Require Import Base F64_model Area64_model Spacetime_model.
Import ListNotations.

(** 592-600: one entry of [timemat * spacmat], for the boolean matrices [sm] and
    [tm] of close pairs. *)
Definition bit64 (b : bool) : f64 := fint (if b then 1 else 0).
Definition entry64 (sm tm : list (list bool)) (i j : nat) : f64 :=
  fmul (fmul (fint 1) (bit64 (mget tm i j))) (fmul (fint 1) (bit64 (mget sm i j))).
Definition knoxmat64 (sm tm : list (list bool)) (n : nat) : list f64 :=
  flat_map (fun i => map (entry64 sm tm i) (seq 0 n)) (seq 0 n).
(** 604-606: integers. *)
Definition expstat (sm tm : list (list bool)) (n : nat) : Z :=
  Zsum (map (fun j => (col_sum sm n j * col_sum tm n j)%Z) (seq 0 n)).
(** 601 and 609, for the number [sum] of numpy's sum of the entries. *)
Definition mk64 (sum : f64) (ex : Z) (n : nat) : f64 :=
  let n64 := fint (Z.of_nat n) in
  fdiv (fsub (fsub sum n64) (fdiv (fint ex) (fsub n64 (fint 1)))) (fint 2).
(** numpy adds the entries in some order. *)
Definition MKnox64 (sm tm : list (list bool)) (n : nat) (x : f64) : Prop :=
  exists t, Adds t (knoxmat64 sm tm n) /\ x = mk64 (tsum t) (expstat sm tm n) n.

(** 763-788: the totals are halves of sums of set sizes; [pairs] is n (n - 1) / 2. *)
Definition half64 (k : Z) : f64 := fdiv (fint k) (fint 2).
Definition e00_64 (a b : Z) (n : nat) : f64 :=
  fdiv (fmul (half64 a) (half64 b)) (half64 (Z.of_nat n * (Z.of_nat n - 1))).
(** 804-807: the sum of the table with three entries set is taken in some order, perhaps
    from an additional zero. *)
Definition Expected64 (a b : Z) (n : nat) (e : f64 * f64 * f64 * f64) : Prop :=
  let e00 := e00_64 a b n in let e01 := fsub (half64 a) e00 in let e10 := fsub (half64 b) e00 in
  exists t, Adds t [e00; e01; e10; fint 0] /\ (length (leaves t) <= 5)%nat /\
    e = (e00, e01, e10, fsub (half64 (Z.of_nat n * (Z.of_nat n - 1))) (tsum t)).
