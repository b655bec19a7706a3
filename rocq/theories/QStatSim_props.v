(** Theorems about the grids used for the simulated patterns of QStatistic. *)
From Coq Require Import ZArith QArith List Bool Lia Lqa.
From Verif Require Import Base BaseLemmas Spec Quadrat_model Geometry_model Random_model QStat_model
  Pattern_spec Pattern_proofs.
Import ListNotations.
Local Open Scope Q_scope.

(** ** C82 *)
(** The grid of a simulated pattern has the same numbers of rows and columns (or the
    same side length) but is laid over the bounding box of that pattern. *)
Theorem C82_own_bounding_box : forall m pts m', sim_manager m pts = Ok m' ->
  match m, m' with
  | MRect r, MRect r' => rm_cols r' = rm_cols r /\ rm_rows r' = rm_rows r /\ rm_points r' = pts /\ tight_box (rm_mbb r') pts
  | MHex h, MHex h' => hx_l h' = hx_l h /\ hx_points h' = pts /\ tight_box (hx_mbb h') pts
  | _, _ => False
  end.
Proof.
  intros m pts m' H. unfold sim_manager in H. destruct m as [r|h].
  - unfold rect_init in H. destruct (compute_mbb pts) as [b|] eqn:E; [|discriminate]. cbn in H.
    inversion H; subst. simpl. repeat (split; [reflexivity|]). apply mbb_tight_box. exact E.
  - unfold hex_init in H. destruct (compute_mbb pts) as [b|] eqn:E; [|discriminate]. cbn [bind] in H.
    repeat match type of H with context [if ?c then _ else _] => destruct c; cbn [bind] in H end;
      try discriminate; inversion H; subst; simpl; repeat (split; [reflexivity|]); apply mbb_tight_box; exact E.
Qed.
Print Assumptions C82_own_bounding_box.

(** Four simulated points in one corner of the window [0,10]x[0,10], observed grid 2
    by 2 over the window: on that grid the counts are 4,0,0,0 with statistic 12, but
    the simulated statistic is 0, the one of a perfectly even pattern. *)
Theorem C82_corner_refuted :
  let corner := [(0, 0); (1, 0); (0, 1); (1, 1)] in
  let observed := [(0, 0); (10, 10)] in
  exists m d a b, rect_init observed 2 2 0 0 = Ok m /\
    sim_chi2 (MRect m) (Arr3 1 4 [corner]) 0 = Ok (Fin a) /\ a == 0 /\
    rect_location_sta (mkrect corner (rm_mbb m) (rm_cols m) (rm_rows m) (rm_w m) (rm_h m) (rm_num m)) = Ok d /\
    dvals d = [4; 0; 0; 0]%Z /\ chisquare (counts_of d) = Fin b /\ b == 12.
Proof.
  do 4 eexists. repeat (split; [vm_compute; reflexivity|]). vm_compute. reflexivity.
Qed.
Print Assumptions C82_corner_refuted.
