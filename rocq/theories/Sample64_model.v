(** Uniform sampling on binary64.  random.py 128-188 (poisson), 471-551
    (_uniform_circle), process.py 27-68, 292-293, geometry.py 114-126 (contains).
    numpy makes a uniform number from 53 random bits and returns
    [low + (high - low) * u]; it raises OverflowError if [high - low] is infinite,
    which is not modelled.  The random integers below 2^53 are a list. *)
From Coq Require Import ZArith List Bool Arith.
From Flocq Require Import BinarySingleNaN.
From Verif Require Import F64_model.
Import ListNotations.

Definition unit64 (k : Z) : f64 := fdyadic k (-53).
(** rng.uniform(low, high). *)
Definition uniform64 (low high : f64) (k : Z) : f64 := fadd low (fmul (fsub high low) (unit64 k)).

(** [xmin, ymin, xmax, ymax]. *)
Record box64 : Type := mkbox64 { x0 : f64; y0 : f64; x1 : f64; y1 : f64 }.
Definition fle : f64 -> f64 -> bool := @Bleb 53 1024.
(** geometry.py 120-124. *)
Definition contains64 (b : box64) (p : fpt) : bool :=
  let in_x := fle (x0 b) (fst p) && fle (fst p) (x1 b) in
  let in_y := fle (y0 b) (snd p) && fle (snd p) (y1 b) in in_x && in_y.

(** 181-184. *)
Definition candidate64 (b : box64) (k l : Z) : fpt := (uniform64 (x0 b) (x1 b) k, uniform64 (y0 b) (y1 b) l).
(** 180-187, for one replication: the points and the numbers not used; None while
    more numbers are needed. *)
Fixpoint reject64 (b : box64) (ok : fpt -> bool) (us : list Z) (need : nat) {struct us} : option (list fpt * list Z) :=
  match need with
  | O => Some ([], us)
  | S m =>
      match us with
      | k :: l :: us' =>
          let c := candidate64 b k l in
          if ok c then match reject64 b ok us' m with Some (ps, rest) => Some (c :: ps, rest) | None => None end
          else reject64 b ok us' need
      | _ => None
      end
  end.
(** 178-187. *)
Fixpoint poisson64 (b : box64) (ok : fpt -> bool) (n s : nat) (us : list Z) : option (list (list fpt) * list Z) :=
  match s with
  | O => Some ([], us)
  | S s' =>
      match reject64 b ok us n with
      | Some (ps, us') => match poisson64 b ok n s' us' with Some (r, rest) => Some (ps :: r, rest) | None => None end
      | None => None
      end
  end.

(** 528-540: offsets from the centre in the disc whose points are in the hull. *)
Definition fneg : f64 -> f64 := @Bopp 53 1024.
Definition place64 (c p : fpt) : fpt := (fadd (fst p) (fst c), fadd (snd p) (snd c)).
Definition in_disc64 (r : f64) (p : fpt) : bool := fle (fadd (fmul (fst p) (fst p)) (fmul (snd p) (snd p))) (fmul r r).
Definition offsets64 (r : f64) (ok : fpt -> bool) (c : fpt) (us vs : list Z) : list fpt :=
  filter (fun p => in_disc64 r p && ok (place64 c p)) (combine (map (uniform64 (fneg r) r) us) (map (uniform64 (fneg r) r) vs)).
(** 527-548, one block of numbers for each turn; [fuel] bounds the turns. *)
Fixpoint circle64 (fuel burn n : nat) (r : f64) (ok : fpt -> bool) (c : fpt) (good : list fpt) (us : list Z) : option (list fpt) :=
  if Nat.ltb (length good) n then
    match fuel with
    | O => None
    | S fuel' =>
        let k := burn * n in
        if Nat.ltb (length us) (k + k) then None else
        let cand := offsets64 r ok c (firstn k us) (firstn k (skipn k us)) in
        let need := n - length good in
        if Nat.ltb need (length cand) then Some (good ++ firstn need cand)
        else circle64 fuel' burn n r ok c (good ++ cand) (skipn (k + k) us)
    end
  else Some good.
(** 551. *)
Definition uniform_circle64 (burn n : nat) (r : f64) (ok : fpt -> bool) (c : fpt) (us : list Z) : option (list fpt) :=
  match circle64 (S (length us)) burn n r ok c [] us with Some g => Some (map (place64 c) g) | None => None end.
