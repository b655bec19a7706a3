(** What the drawings of local Knox statistics should show. *)
From Coq Require Import ZArith QArith List Bool String Sorting.Sorted.
From Verif Require Import Base Spacetime_model KnoxObj_model KnoxObj_props Explore_model.
Import ListNotations.
Local Open Scope Q_scope.

(** The p-values a caller asks for. *)
Definition Used (o : kl_obj) (inf : inference) (ps : list Q) : Prop :=
  match inf with
  | Permutation_ => match kl_p_sims o with Some q => ps = q | None => ps = kl_p_hg o end
  | Analytic => ps = kl_p_hg o
  | OtherInference => False
  end.

(** The class of row [i] of the frame. *)
Definition Class (f : frame) (delta tau crit : Q) (ps : list Q) (i : nat) (k : klass) : Prop :=
  match k with
  | Focal => nth i ps 0 <= crit
  | Neighbor => ~ nth i ps 0 <= crit /\ exists j, FNear f delta tau i j /\ nth j ps 0 <= crit
  | Nonsig => ~ nth i ps 0 <= crit /\ forall j, FNear f delta tau i j -> ~ nth j ps 0 <= crit
  end.
Definition key_of (k : klass) : string :=
  match k with Focal => "focal" | Neighbor => "neighbor" | Nonsig => "nonsig" end.

(** A mark shows row [i]. *)
Definition Shows (f : frame) (index : list Z) (ps : list Q) (i : nat) (m : mark) : Prop :=
  mk_id m = nth i index 0%Z /\ At f i (fst (mk_at m)) (snd (mk_at m)) (mk_time m) /\ mk_p m = nth i ps 0.

(** [marks] shows, in the order of the frame, the rows satisfying [P], each once. *)
Definition Exactly {A : Type} (show : nat -> A -> Prop) (n : nat) (P : nat -> Prop) (marks : list A) : Prop :=
  exists sel, StronglySorted lt sel /\ (forall i, In i sel <-> (i < n)%nat /\ P i) /\ Forall2 show sel marks.

(** The rows whose class has colour [c]. *)
Definition Colored (f : frame) (delta tau crit : Q) (ps : list Q) (colors : palette) (c : string) (i : nat) : Prop :=
  exists k, Class f delta tau crit ps i k /\ dict_get colors (key_of k) = Ok c.

(** The labels of the rows close to row [i], in the order of the frame; missing if there are none. *)
Definition CloseLabels (f : frame) (delta tau : Q) (index : list Z) (i : nat) (v : option (list Z)) : Prop :=
  exists js, StronglySorted lt js /\ (forall j, In j js <-> FNear f delta tau i j) /\
    v = match js with [] => None | _ => Some (map (fun j => nth j index 0%Z) js) end.

Definition complete (colors : palette) : Prop := forall k, exists c, dict_get colors (key_of k) = Ok c.
Definition distinct_colors (colors : palette) : Prop :=
  forall k k' c, dict_get colors (key_of k) = Ok c -> dict_get colors (key_of k') = Ok c -> k = k'.
