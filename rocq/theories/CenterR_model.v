(** Model of pointpats/centrography.py: std_distance, ellipse and dtot (array
    versions). Real numbers stand for float64, because of square roots and
    angles. *)
From Coq Require Import Reals Ratan List Bool String Ascii Arith.
From Verif Require Import Base.
Import ListNotations.
Local Open Scope R_scope.

Notation rpt := (R * R)%type.
Definition Rsum (l : list R) : R := fold_right Rplus 0 l.

(** centrography.py 581-585 [std_distance]; None stands for NaN (no points). *)
Definition std_distance (pts : list rpt) : option R :=
  match pts with
  | [] => None
  | _ =>
    let n := INR (List.length pts) in
    let mx := Rsum (map fst pts) / n in
    let my := Rsum (map snd pts) / n in
    Some (sqrt ((Rsum (map (fun p => fst p * fst p) pts) / n - mx * mx) +
                (Rsum (map (fun p => snd p * snd p) pts) / n - my * my)))
  end.

(** centrography.py 834-839 [dtot]. *)
Definition dtot (c : rpt) (pts : list rpt) : R :=
  Rsum (map (fun p => let xd := fst p - fst c in let yd := snd p - snd c in sqrt (xd * xd + yd * yd)) pts).

(** ** ellipse *)
(** numpy floats that arise here: finite, plus infinity, NaN. *)
Inductive xr : Type := RFin (r : R) | RInf | RNan.

(** [np.sqrt]. *)
Definition xsqrt (r : R) : xr := if Rlt_dec r 0 then RNan else RFin (sqrt r).
(** Product of two numbers that are not negative. *)
Definition xmul (a b : xr) : xr :=
  match a, b with
  | RFin x, RFin y => RFin (x * y)
  | RNan, _ | _, RNan => RNan
  | RInf, RInf => RInf
  | RFin x, RInf | RInf, RFin x => if Req_EM_T x 0 then RNan else RInf
  end.
(** [a > b]; comparisons with NaN are false. *)
Definition xgt (a b : xr) : bool :=
  match a, b with
  | RFin x, RFin y => if Rgt_dec x y then true else false
  | RInf, RFin _ => true
  | _, _ => false
  end.
(** [np.sqrt(n) / np.sqrt(n - 2)] times a finite positive factor [c]: a division
    by zero for n = 2, the root of a negative number for n < 2. *)
Definition dof_correction (c : R) (n : nat) : xr :=
  match n with
  | 0%nat | 1%nat => RNan
  | 2%nat => RInf
  | _ => RFin (c * sqrt (INR n) / sqrt (INR n - 2))
  end.

(** [str.lower] on ASCII letters. *)
Definition lower_char (c : ascii) : ascii :=
  let k := nat_of_ascii c in
  if ((65 <=? k) && (k <=? 90))%nat then ascii_of_nat (k + 32) else c.
Fixpoint lower (s : string) : string :=
  match s with
  | EmptyString => EmptyString
  | String c t => String (lower_char c) (lower t)
  end.

(** The weighted sums of centrography.py 687-698. [np.average] raises
    ZeroDivisionError for weights summing to zero. *)
Definition zip (w : list R) (pts : list rpt) : list (R * rpt) := combine w pts.
Definition wsum (f : rpt -> R) (w : list R) (pts : list rpt) : R :=
  Rsum (map (fun wp => f (snd wp) * fst wp) (zip w pts)).

(** centrography.py 700-714: the two angles. *)
Definition ellipse_angles (x2w y2w xyw : R) : R * R :=
  let den := 2 * xyw in
  let left := x2w - y2w in
  let right := sqrt (left ^ 2 + 4 * xyw ^ 2) in
  if Req_EM_T den 0 then (0, PI / 2)
  else (atan (- (left + right) / den), atan (- (left - right) / den)).

(** centrography.py 722-733: the corrections of one axis. *)
Definition corrected (method : string) (crimestatCorr degfreedCorr : bool) (n : nat) (s : xr) : xr :=
  if String.eqb method "crimestat" then xmul s (dof_correction (sqrt 2) n)
  else
    let s := if crimestatCorr then xmul s (RFin (sqrt 2)) else s in
    if degfreedCorr then xmul s (dof_correction 1 n) else s.

(** centrography.py 671-742 [ellipse]. *)
Definition ellipse (pts : list rpt) (weights : option (list R)) (method : string)
    (crimestatCorr degfreedCorr : bool) : res (xr * xr * R) :=
  let method := lower method in
  if negb (String.eqb method "crimestat" || String.eqb method "yuill") then Raise ValueError
  else
  let! w := match weights with
            | None => Ok (map (fun _ => 1) pts)
            | Some w => if Nat.eqb (List.length w) (List.length pts) then Ok w else Raise ValueError
            end in
  let sumw := Rsum w in
  if Req_EM_T sumw 0 then Raise ZeroDivisionError
  else
  let meanx := wsum fst w pts / sumw in
  let meany := wsum snd w pts / sumw in
  let m := map (fun p => (fst p - meanx, snd p - meany)) pts in
  let xyw := wsum (fun p => fst p * snd p) w m in
  let x2w := wsum (fun p => fst p ^ 2) w m in
  let y2w := wsum (fun p => snd p ^ 2) w m in
  let (theta1, theta2) := ellipse_angles x2w y2w xyw in
  let term := fun theta => wsum (fun p => (snd p * cos theta - fst p * sin theta) ^ 2) w m in
  let sx := xsqrt (term theta1 / sumw) in
  let sy := xsqrt (term theta2 / sumw) in
  let n := List.length pts in
  let sx := corrected method crimestatCorr degfreedCorr n sx in
  let sy := corrected method crimestatCorr degfreedCorr n sy in
  if xgt sy sx then Ok (sy, sx, theta1) else Ok (sx, sy, theta2).
