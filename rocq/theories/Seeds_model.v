(** Model of the seeding inside cluster_poisson and cluster_normal
    (pointpats/random.py): every replication draws its parents from a new generator
    made from a small integer. *)
From Coq Require Import ZArith QArith List Bool.
From Verif Require Import Base Quadrat_model Geometry_model Random_model.
Import ListNotations.

(** The range of [rng.integers(100_000)]. *)
Definition seed_range : Z := 100000.

(** random.py 356-360: [gen z] is the stream of [default_rng([z])]; [center_seeds]
    are the integers drawn. *)
Definition cluster_poisson_seeded (gen : Z -> list Q) (h : hull) (halfmin : list pt -> Q) (intensity : option Q)
    (size : size_arg) (n_seeds : Z) (rad : radius_arg) (center_seeds : list Z) (us : list Q) : run arr :=
  cluster_poisson h halfmin intensity size n_seeds rad (map gen center_seeds) us.

(** random.py 439-446 and 464: [gen z] is the stream of [default_rng(z)]; each
    replication has one integer for the centres and one for each cluster. *)
Definition cluster_normal_seeded (gen : Z -> list Q) (h : hull) (mk : cov_arg -> pt -> Q -> Q -> pt)
    (meansq : list pt -> Q) (cov : cov_arg) (size : size_arg) (n_seeds : Z)
    (seeds : list (Z * list Z)) : run (arr * list cov_arg) :=
  cluster_normal h mk meansq cov size n_seeds (map (fun sc => (gen (fst sc), map gen (snd sc))) seeds).
