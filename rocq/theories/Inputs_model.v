(** Model of the input handling of pointpats/quadrat_statistics.py: what is accepted
    as points, and as a random generator. *)
From Coq Require Import ZArith QArith List Bool.
From Verif Require Import Base Quadrat_model Geometry_model Random_model QStat_model.
Import ListNotations.
Local Open Scope Q_scope.

(** A geometry in a GeoSeries: a point (None for POINT EMPTY), a multi-point, or
    any other type. *)
Inductive geo_item : Type := IPoint (p : option pt) | IMulti (l : list pt) | IOther.
(** The [points] argument. A third coordinate of a geometry is not read. *)
Inductive points_arg : Type :=
| PGeo (l : list (option geo_item))         (* GeoSeries or GeoDataFrame; None is a missing geometry *)
| PPattern (l : list pt)                    (* PointPattern with these coordinates *)
| PArray (cols : nat) (rows : list (list Q))  (* anything numpy.asarray turns into a 2-d array *)
| POther.                                   (* other dimensions, e.g. a GeometryArray *)

Definition missing_dropped (l : list (option geo_item)) : list geo_item :=
  flat_map (fun g => match g with Some g => [g] | None => [] end) l.
Definition point_type (g : geo_item) : bool := match g with IOther => false | _ => true end.
(** [get_coordinates]. *)
Definition item_coords (g : geo_item) : list pt :=
  match g with IPoint (Some p) => [p] | IPoint None => [] | IMulti l => l | IOther => [] end.
Definition row_pt (r : list Q) : pt := (nth 0 r 0, nth 1 r 0).

(** quadrat_statistics.py 33-77 [_as_points_array]. *)
Definition as_points_array (a : points_arg) : res (list pt) :=
  match a with
  | PGeo l =>
      let gs := missing_dropped l in
      if forallb point_type gs then
        let coords := flat_map item_coords gs in
        match coords with [] => Raise ValueError | _ => Ok coords end
      else Raise TypeError
  | PPattern l => Ok l
  | PArray cols rows =>
      if negb (Nat.eqb cols 2) then Raise ValueError
      else match rows with [] => Raise ValueError | _ => Ok (map row_pt rows) end
  | POther => Raise ValueError
  end.

(** 607-640: the statistic of any accepted input. *)
Definition qstatistic_of (a : points_arg) (shape : qshape) (nx ny : Z) (rw rh lh sh : Q)
    (realizations : Z) (w : hull) (us : list Q) : run qresult :=
  rbind (lift (as_points_array a) us) (fun pts us => qstatistic pts shape nx ny rw rh lh sh realizations w us).

(** ** Generators *)
(** The [rng] argument; objects are named by numbers. *)
Inductive rng_arg : Type :=
| RngNone | RngInt (z : Z) | RngGenerator (o : nat) | RngState (o : nat) | RngBits (o : nat).
(** The state of the world: the numbers a Generator will return, the integers a
    RandomState will return from [randint(0, 2**32 - 1)], the numbers a Generator
    around a BitGenerator will return, and the numbers of generators seeded from
    the operating system. *)
Record world : Type := mkworld {
  w_gens : nat -> list Q; w_states : nat -> list Z; w_bits : nat -> list Q; w_entropy : list (list Q) }.

Definition upd {A : Type} (f : nat -> A) (o : nat) (a : A) : nat -> A := fun i => if Nat.eqb i o then a else f i.

(** quadrat_statistics.py 94-127 [_coerce_rng], followed by a use [f] of the
    generator: [seeded z] is the stream of [default_rng(z)]; the numbers that [f]
    does not use stay with the object. *)
Definition with_rng {A : Type} (seeded : Z -> list Q) (r : rng_arg) (f : list Q -> run A) (w : world) : run A * world :=
  match r with
  | RngNone => match w_entropy w with
               | [] => (Short, w)
               | s :: e => (f s, mkworld (w_gens w) (w_states w) (w_bits w) e)
               end
  | RngInt z => (f (seeded z), w)
  | RngGenerator o =>
      let out := f (w_gens w o) in
      (out, match out with Val _ rest => mkworld (upd (w_gens w) o rest) (w_states w) (w_bits w) (w_entropy w) | _ => w end)
  | RngState o =>
      match w_states w o with
      | [] => (Short, w)
      | z :: zs => (f (seeded z), mkworld (w_gens w) (upd (w_states w) o zs) (w_bits w) (w_entropy w))
      end
  | RngBits o =>
      let out := f (w_bits w o) in
      (out, match out with Val _ rest => mkworld (w_gens w) (w_states w) (upd (w_bits w) o rest) (w_entropy w) | _ => w end)
  end.
