(** What is expected of samplers that draw blocks of candidates. *)
From Coq Require Import Reals QArith List.
From Verif Require Import Base Quadrat_model Random_model Joint_spec.
Import ListNotations.
Local Open Scope R_scope.

(** The expectation of f over one candidate, given that it is acceptable. *)
Definition share (G : list Q) (w : Q -> R) (mk : Q -> Q -> pt) (ok : pt -> bool) (f : pt -> R) : R :=
  kept G w mk ok f / kept G w mk ok always.
(** A point of the square of half side r about c, and whether it is in the disc and in the region. *)
Definition around (r : Q) (c : pt) (u v : Q) : pt := (uniform (- r) r u + fst c, uniform (- r) r v + snd c)%Q.
Definition in_disc (r : Q) (c : pt) (region : pt -> bool) (p : pt) : bool :=
  (Qle_bool ((fst p - fst c) * (fst p - fst c) + (snd p - snd c) * (snd p - snd c)) (r * r) && region p)%Q%bool.
(** f11(p11) * f12(p12) * ... * f21(p21) * ... *)
Definition prod_all (fss : list (list (pt -> R))) (pss : list (list pt)) : R :=
  prod (map (fun fp => prod_at (fst fp) (snd fp)) (combine fss pss)).
