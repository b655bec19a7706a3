(** Model of the whole of mantel, pointpats/spacetime.py 286-398, on real numbers: numpy's
    powers and the errors and undefined values of scipy.stats.pearsonr.  [rd] turns the
    exact coefficient into the reported number. *)
From Coq Require Import ZArith QArith Qreals Reals List Bool Arith.
From Verif Require Import Base Spacetime_model Spacetime_spec Spacetime3_props PermMean_props KnoxSym_spec StSym_spec.
Import ListNotations.
Local Open Scope R_scope.

(** An entry of a float array: a number, infinite, or NaN. *)
Inductive xr : Type := Num (r : R) | Infinite | Undefined.

(** Lines 374-375 and 386: [b ** p]. A zero raised to a negative number is infinite; a
    negative number has only powers with integer exponents. *)
Definition power (b p : R) : xr :=
  if Req_EM_T p 0 then Num 1
  else if Rlt_dec 0 b then Num (Rpower b p)
  else if Req_EM_T b 0 then (if Rlt_dec 0 p then Num 0 else Infinite)
  else if Req_EM_T p (IZR (Int_part p)) then Num (powerRZ b (Int_part p)) else Undefined.

Fixpoint numbers (l : list xr) : option (list R) :=
  match l with
  | [] => Some []
  | Num r :: t => match numbers t with Some q => Some (r :: q) | None => None end
  | _ :: _ => None
  end.

(** scipy.stats.pearsonr(x, y)[0]: ValueError for lists of different lengths and for fewer
    than two values; NaN for a constant list and when an entry is infinite or NaN.  The
    separate formula for two values is never used: there are n (n - 1) / 2 pairs. *)
Definition pearsonr (rd : R -> xq) (x y : list xr) : res xq :=
  if negb (Nat.eqb (List.length x) (List.length y)) then Raise ValueError
  else if Nat.ltb (List.length x) 2 then Raise ValueError
  else match numbers x, numbers y with
       | Some a, Some b => Ok (coefficient rd a b)
       | _, _ => Ok NaN
       end.

(** Lines 374-375 and 386: the transformed entries below the diagonal. *)
Definition transformed (con pow : R) (m : list (list R)) : list xr := map (fun d => power (d + con) pow) (tril 0 m).

(** Lines 365-398; without permutations only the statistic is returned. *)
Definition mantel_full (rd : R -> xq) (scon spow tcon tpow : R) (s t : list vec) (perms : list (list nat)) : res (xq * option Q) :=
  let distmat := matrix edist s in
  let timemat := matrix edist t in
  let distvec := transformed scon spow distmat in
  let! stat := pearsonr rd (transformed tcon tpow timemat) distvec in
  match perms with
  | [] => Ok (stat, None)
  | _ => let! dist := mapM (fun ids => pearsonr rd (transformed tcon tpow (shuffle_matrix 0 timemat ids)) distvec) perms in
         Ok (stat, Some (masked_pvalue dist stat))
  end.
