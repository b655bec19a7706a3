(** Specification of what a point pattern shows. *)
From Coq Require Import ZArith QArith List Bool String.
From Verif Require Import Base Quadrat_model Pattern_model Pattern_spec PatternView_model.
Import ListNotations.
Local Open Scope Q_scope.

(** The dots on the axes: the two series side by side. *)
Definition dots (g : figure) : list (cell * cell) := combine (fg_x g) (fg_y g).
Definition at_pt (p : pt) : cell * cell := (CNum (fst p), CNum (snd p)).
Definition swap_pt (p : pt) : pt := (snd p, fst p).

(** Has flip_coordinates been called an odd number of times? *)
Definition is_flip (o : op) : bool := match o with OFlip => true | _ => false end.
Definition flipped (ops : list op) : bool := Nat.odd (List.length (filter is_flip ops)).
(** Histories in which no column of the data frame is written. *)
Definition no_marks (ops : list op) : Prop := forall m n, ~ In (OAddMarks m n) ops.
Definition no_window (ops : list op) : Prop := forall w, ~ In (OSetWindow w) ops.

(** The figure of a pattern of these points. *)
Definition shows (g : figure) (title : string) (pts : list pt) (outlines : list (list (list pt))) : Prop :=
  fg_title g = title /\ dots g = map at_pt pts /\ fg_patches g = outlines /\ fg_equal g = true /\
  List.length (fg_x g) = List.length pts /\ List.length (fg_y g) = List.length pts.

(** Two objects no later call can tell apart: every attribute read after the same
    further calls has the same value, and the same picture is drawn. *)
Definition same_reads (hullf : list pt -> list pt) (s s' : pattern) : Prop :=
  forall a, fst (read hullf a s) = fst (read hullf a s').
