(** Specifications for the simulators: what a user can observe of the output. *)
From Coq Require Import ZArith QArith List Bool.
From Verif Require Import Base Quadrat_model Geometry_model Random_model.
Import ListNotations.
Local Open Scope Q_scope.

(** The generator returns numbers in [0,1). *)
Definition unit_stream (us : list Q) : Prop := Forall (fun u => 0 <= u < 1) us.

(** A sane bounding box. *)
Definition sane_box (b : box) : Prop := bxmin b <= bxmax b /\ bymin b <= bymax b.

(** Closed containment in a box, coordinatewise. *)
Definition in_box (b : box) (p : pt) : Prop :=
  (bxmin b <= fst p <= bxmax b) /\ (bymin b <= snd p <= bymax b).

(** All points of an array, replication by replication. *)
Definition arr_points (a : arr) : list pt :=
  match a with Arr1 p => [p] | Arr2 l => l | Arr3 _ _ d => concat d end.

(** The documented shape: (n,2) for one replication, else (s,n,2). *)
Definition doc_shape (n s : nat) : list nat :=
  if Nat.eqb s 1 then [n; 2%nat] else [s; n; 2%nat].

(** The rows of the array are [s] replications of [n] points. *)
Definition holds_replications (a : arr) (d : list (list pt)) (n s : nat) : Prop :=
  List.length d = s /\ Forall (fun l => List.length l = n) d /\ arr_points a = concat d.

(** Rounding towards zero. *)
Definition truncates (z : Z) (q : Q) : Prop :=
  (0 <= q -> inject_Z z <= q < inject_Z z + 1) /\
  (q <= 0 -> inject_Z z - 1 < q <= inject_Z z).

(** Closed disc. *)
Definition in_disc (r : Q) (c p : pt) : Prop :=
  (fst p - fst c) * (fst p - fst c) + (snd p - snd c) * (snd p - snd c) <= r * r.

(** A cluster of [m] points: its seed first, the others within [r] of the seed
    and inside the hull. *)
Definition is_cluster (h : hull) (seed : pt) (r : Q) (m : nat) (cl : list pt) : Prop :=
  List.length cl = m /\ exists tl, cl = seed :: tl /\
    forall p, In p tl -> in_disc r seed p /\ h_contains h p = true.

(** A replication made of [k] clusters, of nearly equal sizes, around [k] seeds
    that lie in the hull; [radius_ok seeds radii] says where the radii come from. *)
Definition clustered (h : hull) (k n : nat) (radius_ok : list pt -> list Q -> Prop) (rep : list pt) : Prop :=
  exists seeds radii groups,
    List.length seeds = k /\ List.length radii = k /\ radius_ok seeds radii /\
    (forall p, In p seeds -> h_contains h p = true) /\
    List.length groups = k /\ concat groups = rep /\
    (forall i sd r g, nth_error seeds i = Some sd -> nth_error radii i = Some r ->
       nth_error groups i = Some g ->
       is_cluster h sd r (List.length g) g /\
       (n / k <= List.length g <= n / k + 1)%nat).

(** The documented meaning of the [intensity] and [size] arguments (docstring
    of parse_size_and_intensity): number of observations and of replications. *)
Inductive documented (area : Q) : option Q -> size_arg -> Z -> Z -> Prop :=
| doc_default : documented area None SNone 100 1
| doc_intensity : forall i n, truncates n (i * area) -> documented area (Some i) SNone n 1
| doc_n : forall n, documented area None (SInt n) n 1
| doc_replications : forall i n s, truncates n (i * area) -> documented area (Some i) (SInt s) n s
| doc_both : forall n s, documented area None (STuple [n; s]) n s.

(** Where the cluster radii come from: given (once for all or per seed) or
    half of the smallest distance between seeds, [halfmin]. *)
Definition radii_of (halfmin : list pt -> Q) (rad : radius_arg) (k : nat) (seeds : list pt) (radii : list Q) : Prop :=
  match rad with
  | RadNone => radii = List.repeat (halfmin seeds) k
  | RadScalar q => radii = List.repeat q k
  | RadArr l => radii = l
  end.

