(** Theorems on the symmetries of the quadrat counts and of the quadrat test. *)
From Coq Require Import ZArith QArith List Bool Arith Lia Lqa Permutation.
From Verif Require Import Base BaseLemmas Spec Quadrat_model Quadrat_spec Quadrat_proofs Geometry_model Random_model QStat_model QStat_proofs
  Symmetry_spec Symmetry_proofs QuadratSym_spec QuadratSym_proofs.
Import ListNotations.
Local Open Scope Q_scope.

(** ** C121 *)
(** Rectangles: the dictionary of counts (or the exception) does not depend on the order of
    the points, nor on the origin and the unit of each axis. *)
Theorem C121_rectangle : forall cx cy a b pts pts' nx ny rw rh rw' rh', 0 < cx -> 0 < cy -> rescaled_pattern cx cy a b pts pts' ->
  rw' == cx * rw -> rh' == cy * rh ->
  (let! r := rect_init pts' nx ny rw' rh' in rect_location_sta r) = (let! r := rect_init pts nx ny rw rh in rect_location_sta r).
Proof.
  intros cx cy a b pts pts' nx ny rw rh rw' rh' CX CY H E1 E2.
  pose proof (rect_init_times cx cy a b pts pts' nx ny rw rh rw' rh' CX CY H E1 E2) as X.
  destruct (rect_init pts nx ny rw rh) as [r|e] eqn:R1, (rect_init pts' nx ny rw' rh') as [r'|e'] eqn:R2; simpl in X; try tauto; cbn [bind]; [|congruence].
  destruct X as (X1 & X2 & X3). exact (sta_times cx cy a b pts pts' nx ny rw rh rw' rh' r r' CX CY H R1 R2 X2 X3 X1).
Qed.
Print Assumptions C121_rectangle.

(** Hexagons: the same for one unit of length. *)
Theorem C121_hexagon : forall c a b pts pts' lh sh lh' sh', 0 < c -> 0 < lh -> 0 < sh -> same_pattern c a b pts pts' ->
  lh' == c * lh -> sh' == c * sh ->
  (let! h := hex_init pts' lh' sh' in hex_location_sta h) = (let! h := hex_init pts lh sh in hex_location_sta h).
Proof.
  intros c a b pts pts' lh sh lh' sh' C L S H E1 E2. pose proof (hex_init_times c a b pts pts' lh sh lh' sh' C H L S E1 E2) as X.
  destruct (hex_init pts lh sh) as [h|e], (hex_init pts' lh' sh') as [h'|e']; simpl in X; try tauto; cbn [bind]; [|congruence].
  destruct X as (X1 & X2 & X3 & X4 & X5). exact (hex_sta_times c a b pts pts' h h' C X4 X5 H X2 X3 X1).
Qed.
Print Assumptions C121_hexagon.

(** The whole test: with the same random numbers the cells, counts, chi-square statistic,
    contributions, simulated statistics and Monte Carlo p-value are identical. *)
Theorem C121_qstatistic : forall c a b pts pts' shape nx ny rw rh lh sh rw' rh' lh' sh' n w w' us, 0 < c -> same_pattern c a b pts pts' ->
  (shape = ShHex -> 0 < lh /\ 0 < sh) -> rw' == c * rw -> rh' == c * rh -> lh' == c * lh -> sh' == c * sh ->
  moved_hull c a b w w' -> h_area w' == c * c * h_area w ->
  qstatistic pts' shape nx ny rw' rh' lh' sh' n w' us = qstatistic pts shape nx ny rw rh lh sh n w us.
Proof. exact qstat_times. Qed.
Print Assumptions C121_qstatistic.

(** The default window, the box of the points, meets the conditions of the last theorem. *)
Theorem C121_default_window : forall c a b pts pts' x y, 0 < c -> same_pattern c a b pts pts' ->
  compute_mbb pts = Ok x -> compute_mbb pts' = Ok y ->
  moved_hull c a b (bbox_hull x) (bbox_hull y) /\ h_area (bbox_hull y) == c * c * h_area (bbox_hull x).
Proof.
  intros c a b pts pts' x y C H X Y. pose proof (mbb_times c a b pts pts' C H) as M. rewrite X, Y in M. simpl in M.
  split; [apply box_hull_times; assumption|]. exact (area_times c a b x y M).
Qed.
Print Assumptions C121_default_window.

(** Exchanged axes: rows become columns, and the statistic keeps its value. *)
Theorem C121_swap : forall pts nx ny rw rh, spread fst pts -> spread snd pts -> valid_grid nx ny rw rh ->
  exists r r' d d', rect_init pts nx ny rw rh = Ok r /\ rect_init (map swapped pts) ny nx rh rw = Ok r' /\
    rect_location_sta r = Ok d /\ rect_location_sta r' = Ok d' /\ rm_cols r' = rm_rows r /\ rm_rows r' = rm_cols r /\
    (forall ix iy, (0 <= ix < rm_cols r)%Z -> (0 <= iy < rm_rows r)%Z -> dget d' (iy + ix * rm_rows r)%Z = dget d (ix + iy * rm_cols r)%Z) /\
    xtimes 1 (chisquare (counts_of d)) (chisquare (counts_of d')).
Proof.
  intros pts nx ny rw rh SX SY V. destruct (swap_counts pts nx ny rw rh SX SY V) as (r & r' & d & d' & A1 & A2 & A3 & A4 & A5 & A6 & A7 & A8).
  exists r, r', d, d'. do 7 (split; [assumption|]). pose proof (chisquare_perm _ _ (Permutation_map inject_Z A8)) as X. unfold counts_of.
  destruct (chisquare (map inject_Z (dvals d))), (chisquare (map inject_Z (dvals d'))); simpl; try tauto. unfold times. rewrite X. ring.
Qed.
Print Assumptions C121_swap.

(** Mirror image, numbers of columns and rows given: columns are reversed and the statistic
    keeps its value if no point is on a line between two columns. *)
Theorem C121_mirror : forall pts nx ny rw rh k, spread fst pts -> spread snd pts -> rw == 0 \/ rh == 0 -> (1 <= nx)%Z -> (1 <= ny)%Z ->
  exists r r' d d', rect_init pts nx ny rw rh = Ok r /\ rect_init (map (mirrored k) pts) nx ny rw rh = Ok r' /\
    rect_location_sta r = Ok d /\ rect_location_sta r' = Ok d' /\
    ((forall p, In p pts -> ~ on_line (bxmin (rm_mbb r)) (bxmax (rm_mbb r)) nx (fst p)) ->
     (forall ix iy, (0 <= ix < nx)%Z -> (0 <= iy < ny)%Z -> dget d' (nx - 1 - ix + iy * nx)%Z = dget d (ix + iy * nx)%Z) /\
     xtimes 1 (chisquare (counts_of d)) (chisquare (counts_of d'))).
Proof.
  intros pts nx ny rw rh k SX SY WH NX NY. destruct (mirror_counts pts nx ny rw rh k SX SY WH NX NY) as (r & r' & d & d' & A1 & A2 & A3 & A4 & A5).
  exists r, r', d, d'. do 4 (split; [assumption|]). intro NL. destruct (A5 NL) as [A6 A7]. split; [exact A6|].
  pose proof (chisquare_perm _ _ (Permutation_map inject_Z A7)) as X. unfold counts_of.
  destruct (chisquare (map inject_Z (dvals d))), (chisquare (map inject_Z (dvals d'))); simpl; try tauto. unfold times. rewrite X. ring.
Qed.
Print Assumptions C121_mirror.

(** With a point on such a line the statistic of the mirror image can differ. *)
Theorem C121_mirror_refuted : exists pts k d d', spread fst pts /\ spread snd pts /\
  (let! r := rect_init pts 2 1 0 0 in rect_location_sta r) = Ok d /\
  (let! r := rect_init (map (mirrored k) pts) 2 1 0 0 in rect_location_sta r) = Ok d' /\
  exists s t, chisquare (counts_of d) = Fin s /\ chisquare (counts_of d') = Fin t /\ s == 0 /\ t == 1.
Proof.
  exists [(0, 0); (0, 1); (1, 0); (2, 1)], 2. do 2 eexists. split; [exists (0, 0), (2, 1); cbn; repeat split; auto; lra|].
  split; [exists (0, 0), (2, 1); cbn; repeat split; auto; lra|]. split; [vm_compute; reflexivity|]. split; [vm_compute; reflexivity|].
  do 2 eexists. split; [vm_compute; reflexivity|]. split; [vm_compute; reflexivity|]. split; vm_compute; reflexivity.
Qed.
Print Assumptions C121_mirror_refuted.

(** With a width and a height given, the grid starts at the lower left corner, and the mirror
    image can have another statistic although no point is on a line. *)
Theorem C121_mirror_width_refuted : exists pts k d d', spread fst pts /\ spread snd pts /\
  (let! r := rect_init pts 1 1 2 2 in rect_location_sta r) = Ok d /\
  (let! r := rect_init (map (mirrored k) pts) 1 1 2 2 in rect_location_sta r) = Ok d' /\
  (forall p, In p pts -> 0 <= fst p <= 3 /\ ~ fst p == 2) /\
  exists s t, chisquare (counts_of d) = Fin s /\ chisquare (counts_of d') = Fin t /\ s < t.
Proof.
  exists [(0, 0); (3 # 2, 1); (3 # 2, 1); (5 # 2, 1); (3, 0)], 3. do 2 eexists. split; [exists (0, 0), (3, 0); cbn; repeat split; auto 10; lra|].
  split; [exists (0, 0), (3 # 2, 1); cbn; repeat split; auto; lra|]. split; [vm_compute; reflexivity|]. split; [vm_compute; reflexivity|].
  split; [intros p P; cbn in P; repeat (destruct P as [<-|P]; [cbn; lra|]); destruct P|].
  do 2 eexists. split; [vm_compute; reflexivity|]. split; [vm_compute; reflexivity|]. vm_compute; reflexivity.
Qed.
Print Assumptions C121_mirror_width_refuted.

(** Hexagons have an orientation: exchanging the axes can change their number. *)
Theorem C121_hexagon_swap_refuted : exists pts lh sh d d', 0 < lh /\ 0 < sh /\
  (let! h := hex_init pts lh sh in hex_location_sta h) = Ok d /\
  (let! h := hex_init (map swapped pts) lh sh in hex_location_sta h) = Ok d' /\
  List.length d <> List.length d'.
Proof.
  exists [(0, 0); (3, 1); (9, 0); (5, 2)], 2, (7 # 4). do 2 eexists. split; [lra|]. split; [lra|].
  split; [vm_compute; reflexivity|]. split; [vm_compute; reflexivity|]. vm_compute. discriminate.
Qed.
Print Assumptions C121_hexagon_swap_refuted.

(** A pattern in kilometres and, in another order, in metres: the same dictionary and the
    same test. *)
Example C121_case :
  let pts := [(0, 0); (1, 2); (3, 1); (2, 2)] in let pts' := [(2007, 2005); (7, 5); (3007, 1005); (1007, 2005)] in
  same_pattern 1000 7 5 pts pts' /\
  (let! r := rect_init pts' 2 2 0 0 in rect_location_sta r) = Ok [(0, 1); (1, 0); (2, 1); (3, 2)]%Z /\
  (exists q, qstatistic pts ShRect 2 2 0 0 1 1 3 (bbox_hull (mkbox 0 0 3 2)) [1#5; 1#3; 3#4; 1#8; 1#2; 2#3; 1#4; 1#10; 2#5; 1#6; 3#5; 1#9; 1#7; 2#3; 4#5; 1#3; 1#2; 1#2; 1#5; 3#4; 1#3; 1#3; 2#3; 4#5] = Val q []
     /\ q_r_pvalue q <> None /\
   qstatistic pts' ShRect 2 2 0 0 1 1 3 (bbox_hull (mkbox 7 5 3007 2005)) [1#5; 1#3; 3#4; 1#8; 1#2; 2#3; 1#4; 1#10; 2#5; 1#6; 3#5; 1#9; 1#7; 2#3; 4#5; 1#3; 1#2; 1#2; 1#5; 3#4; 1#3; 1#3; 2#3; 4#5] = Val q []).
Proof.
  cbv zeta. split; [|split; [vm_compute; reflexivity|]].
  - exists [(2, 2); (0, 0); (3, 1); (1, 2)]. split.
    + apply (Permutation_trans (l' := (2, 2) :: [(0, 0); (1, 2); (3, 1)])).
      * apply (Permutation_sym (Permutation_cons_append [(0, 0); (1, 2); (3, 1)] (2, 2))).
      * repeat constructor.
    + repeat constructor; cbn; reflexivity.
  - eexists. split; [vm_compute; reflexivity|]. split; [vm_compute; discriminate|]. vm_compute. reflexivity.
Qed.
