(** Properties C99 and C100: inputs of the quadrat classes. *)
From Coq Require Import ZArith QArith List Bool Lia.
From Verif Require Import Base BaseLemmas Quadrat_model Geometry_model Random_model Random_proofs QStat_model Inputs_model.
Import ListNotations.
Local Open Scope Q_scope.

(** ** C99 *)
(** The coordinates of a series of geometries, in order. *)
Inductive Coords : list (option geo_item) -> list pt -> Prop :=
| co_nil : Coords [] []
| co_missing : forall l c, Coords l c -> Coords (None :: l) c
| co_empty : forall l c, Coords l c -> Coords (Some (IPoint None) :: l) c
| co_point : forall p l c, Coords l c -> Coords (Some (IPoint (Some p)) :: l) (p :: c)
| co_multi : forall m l c, Coords l c -> Coords (Some (IMulti m) :: l) (m ++ c).
(** Rows of an array with two columns. *)
Definition rows_of (l : list pt) : list (list Q) := map (fun p => [fst p; snd p]) l.

Lemma coords_flat : forall l, forallb point_type (missing_dropped l) = true ->
  Coords l (flat_map item_coords (missing_dropped l)).
Proof.
  induction l as [|[[[p|]|m|]|] l IH]; intro H; cbn in H.
  - constructor.
  - cbn. constructor. apply IH. exact H.
  - cbn. constructor. apply IH. exact H.
  - cbn. constructor. apply IH. exact H.
  - discriminate.
  - cbn. constructor. apply IH. exact H.
Qed.
Lemma coords_types : forall l c, Coords l c -> forallb point_type (missing_dropped l) = true /\ c = flat_map item_coords (missing_dropped l).
Proof.
  intros l c H. induction H as [|l c H [A B]|l c H [A B]|p l c H [A B]|m l c H [A B]]; cbn; split; auto; rewrite B; reflexivity.
Qed.
Lemma types : forall l, forallb point_type (missing_dropped l) = false <-> In (Some IOther) l.
Proof.
  induction l as [|[[p|m|]|] l IH]; cbn.
  - split; [discriminate|tauto].
  - rewrite IH. split; [auto|]. intros [H|H]; [discriminate|exact H].
  - rewrite IH. split; [auto|]. intros [H|H]; [discriminate|exact H].
  - split; auto.
  - rewrite IH. split; [auto|]. intros [H|H]; [discriminate|exact H].
Qed.

Theorem C99_geometries : forall l,
  (forall c, as_points_array (PGeo l) = Ok c <-> Coords l c /\ c <> []) /\
  (as_points_array (PGeo l) = Raise TypeError <-> In (Some IOther) l) /\
  (as_points_array (PGeo l) = Raise ValueError <-> Coords l []).
Proof.
  intro l. cbn [as_points_array]. destruct (forallb point_type (missing_dropped l)) eqn:T.
  - pose proof (coords_flat l T) as F. assert (U : forall c, Coords l c -> c = flat_map item_coords (missing_dropped l)) by (intros c C; apply coords_types; exact C).
    assert (N : ~ In (Some IOther) l) by (rewrite <- types; congruence).
    cbv zeta. destruct (flat_map item_coords (missing_dropped l)) as [|p t] eqn:E.
    + split; [|split; split; auto; try discriminate; try contradiction].
      intro c. split; [discriminate|]. intros [C X]. apply U in C. contradiction.
    + split; [|split; split; auto; try discriminate; try contradiction].
      * intro c. split.
        -- intro H. injection H as <-. split; [exact F|discriminate].
        -- intros [C X]. apply U in C. rewrite C. reflexivity.
      * intro C. apply U in C. discriminate.
  - apply types in T as T'. split; [|split; split; auto; try discriminate].
    + intro c. split; [discriminate|]. intros [C _]. apply coords_types in C. destruct C. congruence.
    + intro C. apply coords_types in C. destruct C. congruence.
Qed.
Print Assumptions C99_geometries.

(** Arrays: exactly two columns and at least one row. *)
Theorem C99_arrays : forall cols rows,
  ((exists c, as_points_array (PArray cols rows) = Ok c) <-> cols = 2%nat /\ rows <> []) /\
  (forall e, as_points_array (PArray cols rows) = Raise e -> e = ValueError) /\
  (forall c, c <> [] -> as_points_array (PArray 2 (rows_of c)) = Ok c) /\
  as_points_array POther = Raise ValueError.
Proof.
  intros cols rows. cbn [as_points_array]. split; [|split; [|split; [|reflexivity]]].
  - destruct (Nat.eqb_spec cols 2) as [E|E]; cbn [negb].
    + destruct rows; [|split; [split; [assumption|discriminate]|intro; eexists; reflexivity]].
      split; [intros [c H]; discriminate|]. intros [_ H]. contradiction.
    + split; [intros [c H]; discriminate|]. intros [H _]. contradiction.
  - intro e. destruct (negb (Nat.eqb cols 2)); [congruence|]. destruct rows; congruence.
  - intros c N. cbn. destruct c as [|p c]; [contradiction|]. cbn. apply f_equal. destruct p. f_equal. clear.
    induction c as [|[x y] c IH]; [reflexivity|]. cbn. f_equal. exact IH.
Qed.
Print Assumptions C99_arrays.

(** Whatever holds the points, the statistic is that of the array of coordinates. *)
Theorem C99_interchangeable : forall a c shape nx ny rw rh lh sh R w us,
  (a = PPattern c \/ exists l, a = PGeo l /\ Coords l c) -> c <> [] ->
  qstatistic_of a shape nx ny rw rh lh sh R w us = qstatistic_of (PArray 2 (rows_of c)) shape nx ny rw rh lh sh R w us /\
  qstatistic_of a shape nx ny rw rh lh sh R w us = qstatistic c shape nx ny rw rh lh sh R w us.
Proof.
  intros a c shape nx ny rw rh lh sh R w us H N. unfold qstatistic_of.
  destruct (C99_arrays 2 []) as (_ & _ & A & _). rewrite (A c N).
  destruct H as [->|(l & -> & C)]; [split; reflexivity|].
  destruct (C99_geometries l) as (G & _). destruct (G c) as [_ G2]. rewrite G2; [split; reflexivity|]. split; assumption.
Qed.
Print Assumptions C99_interchangeable.

Example C99_case :
  as_points_array (PGeo [Some (IPoint (Some (0, 0))); None; Some (IMulti [(1, 1); (2, 2)]); Some (IPoint None)]) = Ok [(0, 0); (1, 1); (2, 2)] /\
  as_points_array (PGeo [Some (IPoint (Some (0, 0))); Some IOther]) = Raise TypeError /\
  as_points_array (PGeo [None; Some (IPoint None)]) = Raise ValueError /\
  as_points_array (PArray 3 [[0; 0; 0]]) = Raise ValueError.
Proof. repeat split; reflexivity. Qed.

(** ** C100 *)
Section RNG.
Context {A : Type}.
Variables (seeded : Z -> list Q) (f : list Q -> run A) (w : world).

(** An integer seed: the outcome depends on the seed alone and nothing changes. *)
Theorem C100_integer : forall z w', fst (with_rng seeded (RngInt z) f w) = fst (with_rng seeded (RngInt z) f w') /\
  snd (with_rng seeded (RngInt z) f w) = w.
Proof. split; reflexivity. Qed.

(** A generator or bit generator: two calls in a row use consecutive parts of one
    stream; other objects are not touched. *)
Theorem C100_generator : forall o a1 a2 w1 w2,
  with_rng seeded (RngGenerator o) f w = (a1, w1) -> with_rng seeded (RngGenerator o) f w1 = (a2, w2) ->
  (forall v rest, a1 = Val v rest -> a2 = f rest) /\ a1 = f (w_gens w o) /\
  (forall i, i <> o -> w_gens w1 i = w_gens w i) /\ w_states w1 = w_states w /\ w_bits w1 = w_bits w /\ w_entropy w1 = w_entropy w.
Proof.
  intros o a1 a2 w1 w2 H1 H2. cbn [with_rng] in H1, H2. injection H1 as <- <-. injection H2 as <- _.
  split; [|split; [reflexivity|]].
  - intros v rest E. rewrite E. cbn [w_gens]. unfold upd. rewrite Nat.eqb_refl. reflexivity.
  - destruct (f (w_gens w o)); cbn [w_gens w_states w_bits w_entropy]; repeat split; auto.
    intros i N. unfold upd. destruct (Nat.eqb_spec i o); [contradiction|reflexivity].
Qed.
Theorem C100_bits : forall o a1 a2 w1 w2,
  with_rng seeded (RngBits o) f w = (a1, w1) -> with_rng seeded (RngBits o) f w1 = (a2, w2) ->
  (forall v rest, a1 = Val v rest -> a2 = f rest) /\ a1 = f (w_bits w o) /\
  (forall i, i <> o -> w_bits w1 i = w_bits w i) /\ w_states w1 = w_states w /\ w_gens w1 = w_gens w /\ w_entropy w1 = w_entropy w.
Proof.
  intros o a1 a2 w1 w2 H1 H2. cbn [with_rng] in H1, H2. injection H1 as <- <-. injection H2 as <- _.
  split; [|split; [reflexivity|]].
  - intros v rest E. rewrite E. cbn [w_bits]. unfold upd. rewrite Nat.eqb_refl. reflexivity.
  - destruct (f (w_bits w o)); cbn [w_gens w_states w_bits w_entropy]; repeat split; auto.
    intros i N. unfold upd. destruct (Nat.eqb_spec i o); [contradiction|reflexivity].
Qed.

(** A RandomState: the outcome is that of the integer seed it returns first, and it
    is advanced by exactly this one draw however many numbers are used. *)
Theorem C100_random_state : forall o z zs, w_states w o = z :: zs ->
  fst (with_rng seeded (RngState o) f w) = fst (with_rng seeded (RngInt z) f w) /\
  w_states (snd (with_rng seeded (RngState o) f w)) o = zs /\
  (forall i, i <> o -> w_states (snd (with_rng seeded (RngState o) f w)) i = w_states w i) /\
  w_gens (snd (with_rng seeded (RngState o) f w)) = w_gens w.
Proof.
  intros o z zs E. cbn [with_rng]. rewrite E. cbn [fst snd w_states w_gens]. unfold upd. rewrite Nat.eqb_refl.
  repeat split; auto. intros i N. destruct (Nat.eqb_spec i o); [contradiction|reflexivity].
Qed.
End RNG.
Print Assumptions C100_integer.
Print Assumptions C100_generator.
Print Assumptions C100_bits.
Print Assumptions C100_random_state.

(** Without simulations a Generator stays as it was, while a RandomState still loses
    one draw. *)
Theorem C100_no_simulations : forall seeded a shape nx ny rw rh lh sh R win w, (R <= 0)%Z ->
  (forall o i, w_gens (snd (with_rng seeded (RngGenerator o) (qstatistic_of a shape nx ny rw rh lh sh R win) w)) i = w_gens w i) /\
  (forall o z zs, w_states w o = z :: zs ->
     w_states (snd (with_rng seeded (RngState o) (qstatistic_of a shape nx ny rw rh lh sh R win) w)) o = zs).
Proof.
  intros seeded a shape nx ny rw rh lh sh R win w N. split.
  - intros o i. cbn [with_rng snd].
    assert (E : forall us q rest, qstatistic_of a shape nx ny rw rh lh sh R win us = Val q rest -> rest = us).
    { intros us q rest H. unfold qstatistic_of in H. apply rbind_val in H. destruct H as (pts & u1 & H1 & H). apply lift_val in H1. destruct H1 as [_ ->].
      unfold qstatistic in H. apply rbind_val in H. destruct H as (m & u2 & H1 & H). apply lift_val in H1. destruct H1 as [_ ->].
      apply rbind_val in H. destruct H as (d & u3 & H1 & H). apply lift_val in H1. destruct H1 as [_ ->].
      destruct (0 <? R)%Z eqn:E; [apply Z.ltb_lt in E; lia|]. injection H as _ <-. reflexivity. }
    destruct (qstatistic_of a shape nx ny rw rh lh sh R win (w_gens w o)) eqn:Q; cbn [w_gens]; try reflexivity.
    apply E in Q. rewrite Q. unfold upd. destruct (Nat.eqb_spec i o); [subst; reflexivity|reflexivity].
  - intros o z zs S. cbn [with_rng]. rewrite S. cbn [snd w_states]. unfold upd. rewrite Nat.eqb_refl. reflexivity.
Qed.
Print Assumptions C100_no_simulations.

Example C100_case : let w := mkworld (fun _ => [1; 2; 3]) (fun _ => [7; 8]%Z) (fun _ => []) [] in
  let use us := match us with [] => Short | u :: t => Val u t end in
  fst (with_rng (fun z => [inject_Z z]) (RngState 0) use w) = Val 7 [] /\
  fst (with_rng (fun z => [inject_Z z]) (RngGenerator 0) use (snd (with_rng (fun z => [inject_Z z]) (RngGenerator 0) use w))) = Val 2 [3].
Proof. split; reflexivity. Qed.
