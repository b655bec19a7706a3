(** Model of pointpats/random.py.  The random generator is a list of numbers;
    [Short] means that the list was too short for the run to finish. *)
From Coq Require Import ZArith QArith Qround Qabs Qminmax Qpower List Bool.
From Verif Require Import Base Quadrat_model Geometry_model.
Import ListNotations.
Local Open Scope Q_scope.

(** Outcome of a randomised computation: a value and the unused numbers, an
    exception, or an exhausted stream. *)
Inductive run (A : Type) : Type :=
| Val (a : A) (rest : list Q)
| Exc (e : exn)
| Short.
Arguments Val {A} _ _.
Arguments Exc {A} _.
Arguments Short {A}.

Definition rbind {A B : Type} (r : run A) (f : A -> list Q -> run B) : run B :=
  match r with Val a us => f a us | Exc e => Exc e | Short => Short end.

Definition lift {A : Type} (r : res A) (us : list Q) : run A :=
  match r with Ok a => Val a us | Raise e => Exc e end.

(** Arrays with the shapes that [squeeze] can produce. [Arr3 s n d]: shape (s,n,2). *)
Inductive arr : Type :=
| Arr1 (p : pt)
| Arr2 (l : list pt)
| Arr3 (s n : nat) (d : list (list pt)).

Definition arr_shape (a : arr) : list nat :=
  match a with
  | Arr1 _ => [2]
  | Arr2 l => [List.length l; 2]
  | Arr3 s n _ => [s; n; 2]
  end%nat.

(** numpy squeeze of an (s,n,2) array. *)
Definition squeeze (s n : nat) (d : list (list pt)) : arr :=
  if Nat.eqb s 1 then
    if Nat.eqb n 1 then match d with [[p]] => Arr1 p | _ => Arr3 s n d end
    else match d with [l] => Arr2 l | _ => Arr3 s n d end
  else if Nat.eqb n 1 then Arr2 (concat d)
  else Arr3 s n d.

(** ** parse_size_and_intensity, random.py 41-120 *)

Inductive size_arg : Type :=
| SNone | SInt (z : Z) | STuple (l : list Z)
| SOther.  (* any other object, e.g. a list or a numpy integer *)

(** [n / area(hull)] *)
Definition div_area (n : Z) (h : hull) : res xq :=
  if Qeq_bool (h_area h) 0 && negb (h_np h) then Raise ZeroDivisionError
  else Ok (xdiv (inject_Z n) (h_area h)).

Definition parse_size_and_intensity (h : hull) (intensity : option Q) (size : size_arg)
  : res (Z * Z * xq) :=
  match size with
  | SNone =>
      match intensity with
      | Some i => Ok (Qtrunc (h_area h * i), 1%Z, Fin i)
      | None => let! i := div_area 100 h in Ok (100%Z, 1%Z, i)
      end
  | STuple [n; s] =>
      match intensity with
      | None => let! i := div_area n h in Ok (n, s, i)
      | Some _ => Raise ValueError
      end
  | STuple _ => Raise ValueError
  | SInt z =>
      match intensity with
      | Some i => Ok (Qtrunc (i * h_area h), z, Fin i)
      | None => let! i := div_area z h in Ok (z, 1%Z, i)
      end
  | SOther => Raise ValueError
  end.

(** numpy.empty((s, n, 2)) raises ValueError for negative dimensions. *)
Definition alloc (n s : Z) : res (nat * nat) :=
  if (n <? 0)%Z || (s <? 0)%Z then Raise ValueError else Ok (Z.to_nat n, Z.to_nat s).

(** rng.uniform(a, b) from a number u in [0,1). *)
Definition uniform (a b u : Q) : Q := a + (b - a) * u.

(** Rejection loop shared by [poisson] (178-187) and [normal] (277-283): draw
    a candidate from two numbers, keep it when the hull contains it, until
    [need] points are found. *)
Fixpoint reject (mk : Q -> Q -> pt) (ok : pt -> bool) (us : list Q) (need : nat) {struct us}
  : run (list pt) :=
  match need with
  | O => Val [] us
  | S m =>
      match us with
      | u :: v :: us' =>
          let c := mk u v in
          if ok c then rbind (reject mk ok us' m) (fun l us'' => Val (c :: l) us'')
          else reject mk ok us' need
      | _ => Short
      end
  end.

(** The outer loop over replications. *)
Fixpoint replicate (f : list Q -> run (list pt)) (s : nat) (us : list Q) : run (list (list pt)) :=
  match s with
  | O => Val [] us
  | S s' => rbind (f us) (fun l us' =>
            rbind (replicate f s' us') (fun ls us'' => Val (l :: ls) us''))
  end.

(** Candidate of [poisson] (181-184): uniform in the bounding box. *)
Definition box_candidate (b : box) (u v : Q) : pt :=
  (uniform (bxmin b) (bxmax b) u, uniform (bymin b) (bymax b) v).

(** random.py 128-188 [poisson]. *)
Definition poisson (h : hull) (intensity : option Q) (size : size_arg) (us : list Q) : run arr :=
  rbind (lift (parse_size_and_intensity h intensity size) us) (fun nsi us =>
  let '(n, s, _) := nsi in
  rbind (lift (alloc n s) us) (fun ns us =>
  let '(n, s) := ns in
  rbind (replicate (fun us => reject (box_candidate (h_bbox h)) (h_contains h) us n) s us)
        (fun d us => Val (squeeze s n d) us))).

(** ** normal, random.py 191-284 *)

(** The [cov] argument. [CArr shape]: an array with the given shape. *)
Inductive cov_arg : Type := CNone | CScalar (q : Q) | CArr (shape : list Z) | COther.

(** Checks of lines 245-264; [s] is the number of simulations. *)
Definition check_cov (c : cov_arg) (s : Z) : res unit :=
  match c with
  | CNone | CScalar _ => Ok tt
  | CArr [a; b] => if (a =? 2)%Z && (b =? 2)%Z then Ok tt else Raise AssertionError
  | CArr [k; a; b] =>
      if (a =? 2)%Z && (b =? 2)%Z && (k =? s)%Z then Ok tt else Raise AssertionError
  | CArr _ => Ok tt (* other dimensions fall through both checks *)
  | COther => Raise ValueError
  end.

(** [mk i] turns the standard-normal draws of replication [i] into a candidate:
    [center + candidate * sd] (279-280).  Square roots and the correlation
    matrix are inside this function, which is arbitrary.  Arrays of dimension
    other than 2, 3 make the later matrix code fail; they are excluded. *)
Fixpoint replicate_i (f : nat -> list Q -> run (list pt)) (i s : nat) (us : list Q)
  : run (list (list pt)) :=
  match s with
  | O => Val [] us
  | S s' => rbind (f i us) (fun l us' =>
            rbind (replicate_i f (S i) s' us') (fun ls us'' => Val (l :: ls) us''))
  end.

Definition normal (h : hull) (mk : nat -> Q -> Q -> pt) (c : cov_arg) (size : size_arg)
    (us : list Q) : run arr :=
  rbind (lift (parse_size_and_intensity h None size) us) (fun nsi us =>
  let '(n, s, _) := nsi in
  rbind (lift (check_cov c s) us) (fun _ us =>
  rbind (lift (alloc n s) us) (fun ns us =>
  let '(n, s) := ns in
  rbind (replicate_i (fun i us => reject (mk i) (h_contains h) us n) 0 s us)
        (fun d us => Val (squeeze s n d) us)))).

(** ** _uniform_circle, random.py 471-551 (and process.py 27-68 without hull) *)

(** Take a block of [k] numbers from the stream. *)
Fixpoint draw_block (k : nat) (us : list Q) : run (list Q) :=
  match k with
  | O => Val [] us
  | S k' => match us with
            | [] => Short
            | u :: us' => rbind (draw_block k' us') (fun l us'' => Val (u :: l) us'')
            end
  end.

(** Lines 528-540: candidates of one block that fall in the disc and the hull
    (offsets from the centre). *)
Definition circle_candidates (r : Q) (c : pt) (inhull : pt -> bool) (xs ys : list Q) : list pt :=
  filter (fun p => Qle_bool (fst p * fst p + snd p * snd p) (r * r)
                   && inhull (fst p + fst c, snd p + snd c))
         (combine xs ys).

(** Lines 520-548; [good] holds the offsets accepted so far, [n] the target.
    [fuel] bounds the number of blocks. *)
Fixpoint circle_loop (fuel : nat) (burn n : nat) (r : Q) (c : pt) (inhull : pt -> bool)
    (good : list pt) (us : list Q) : run (list pt) :=
  if Nat.ltb (List.length good) n then
    match fuel with
    | O => Short
    | S fuel' =>
        rbind (draw_block (burn * n) us) (fun ux us =>
        rbind (draw_block (burn * n) us) (fun uy us =>
          let xs := map (uniform (- r) r) ux in
          let ys := map (uniform (- r) r) uy in
          let cand := circle_candidates r c inhull xs ys in
          let need := (n - List.length good)%nat in
          if Nat.ltb need (List.length cand)
          then Val (good ++ firstn need cand) us
          else circle_loop fuel' burn n r c inhull (good ++ cand) us))
    end
  else Val good us.

(** The whole function; [None] for the hull means no hull restriction. *)
Definition uniform_circle (n : nat) (r : Q) (c : pt) (burn : nat) (h : option hull) (us : list Q)
  : run (list pt) :=
  let inhull := match h with Some h => h_contains h | None => fun _ => true end in
  rbind (circle_loop (S (List.length us)) burn n r c inhull [] us)
        (fun good us => Val (map (fun p => (fst p + fst c, snd p + snd c)) good) us).

(** ** cluster_poisson, random.py 287-387 *)

(** sizes of numpy.array_split of n rows in k sections (k >= 1). *)
Definition split_sizes (n k : nat) : list nat :=
  List.repeat (n / k + 1)%nat (n mod k) ++ List.repeat (n / k)%nat (k - n mod k).

Inductive radius_arg : Type := RadNone | RadScalar (q : Q) | RadArr (l : list Q).

(** One replication (364-386) once the seeds are a proper (n_seeds,2) array:
    clusters are filled one after the other. *)
Fixpoint fill_clusters (h : hull) (l : list (pt * Q * nat)) (us : list Q) : run (list (list pt)) :=
  match l with
  | [] => Val [] us
  | (seed, radius, m) :: l' =>
      rbind (match m with
             | O => Exc PlainException
             | S O => Val [seed] us
             | S m' => rbind (uniform_circle m' radius seed 2 (Some h) us)
                             (fun cand us => Val (seed :: cand) us)
             end) (fun cl us =>
      rbind (fill_clusters h l' us) (fun cls us => Val (cl :: cls) us))
  end.

Fixpoint zip3 {A B C : Type} (a : list A) (b : list B) (c : list C) : list (A * B * C) :=
  match a, b, c with
  | x :: a', y :: b', z :: c' => (x, y, z) :: zip3 a' b' c'
  | _, _, _ => []
  end.

(** Radii known before the loop (341-349): AssertionError on a wrong number. *)
Definition fixed_radii (rad : radius_arg) (k : Z) : res (option (list Q)) :=
  match rad with
  | RadNone => Ok None
  | RadScalar q => Ok (Some (List.repeat q (Z.to_nat k)))
  | RadArr l => if (Z.of_nat (List.length l) =? k)%Z then Ok (Some l) else Raise AssertionError
  end.

(** One replication. [halfmin] is [0.5 * pdist(seeds).min()] as a function of
    the seeds (scipy, square roots).  [seeds] is the array returned by the
    inner [poisson] call.  With a single seed the array is one-dimensional:
    pdist raises ValueError; [seeds[0]] is the x coordinate, which is stored
    (broadcast to both coordinates) when the cluster has one point and cannot
    be unpacked (TypeError) when it has more. *)
Definition cluster_replication (h : hull) (halfmin : list pt -> Q) (radii : option (list Q))
    (k n : nat) (seeds : arr) (us : list Q) : run (list pt) :=
  match seeds with
  | Arr2 sd =>
      let rs := match radii with Some r => r | None => List.repeat (halfmin sd) k end in
      rbind (fill_clusters h (zip3 sd rs (split_sizes n k)) us) (fun cls us => Val (concat cls) us)
  | Arr1 p =>
      match radii with
      | None => Exc ValueError
      | Some _ => match n with
                  | O => Exc PlainException
                  | S O => Val [(fst p, fst p)] us
                  | _ => Exc TypeError
                  end
      end
  | Arr3 _ _ _ => Exc ValueError
  end.

(** The loop over replications; [seed_streams] are the numbers returned by the
    generators created for the seeds of each replication. *)
Fixpoint cluster_loop (h : hull) (halfmin : list pt -> Q) (radii : option (list Q))
    (k : Z) (n s : nat) (seed_streams : list (list Q)) (us : list Q) : run (list (list pt)) :=
  match s with
  | O => Val [] us
  | S s' =>
      match seed_streams with
      | [] => Short
      | ss :: sss =>
          match poisson h None (SInt k) ss with
          | Exc e => Exc e
          | Short => Short
          | Val seeds _ =>
              if (k <=? 0)%Z then Exc ValueError (* array_split / pdist().min() *)
              else
              rbind (cluster_replication h halfmin radii (Z.to_nat k) n seeds us) (fun l us =>
              rbind (cluster_loop h halfmin radii k n s' sss us) (fun ls us => Val (l :: ls) us))
          end
      end
  end.

Definition cluster_poisson (h : hull) (halfmin : list pt -> Q) (intensity : option Q)
    (size : size_arg) (n_seeds : Z) (rad : radius_arg)
    (seed_streams : list (list Q)) (us : list Q) : run arr :=
  rbind (lift (fixed_radii rad n_seeds) us) (fun radii us =>
  rbind (lift (parse_size_and_intensity h intensity size) us) (fun nsi us =>
  let '(n, s, _) := nsi in
  rbind (lift (alloc n s) us) (fun ns us =>
  let '(n, s) := ns in
  rbind (cluster_loop h halfmin radii n_seeds n s seed_streams us)
        (fun d us => Val (squeeze s n d) us)))).

(** ** strauss, random.py 561-702 *)

(** Squared distance; [query_pairs r] lists the pairs with distance <= r. *)
Definition d2 (p q : pt) : Q :=
  (fst p - fst q) * (fst p - fst q) + (snd p - snd q) * (snd p - snd q).
Definition close (r : Q) (p q : pt) : bool := Qle_bool 0 r && Qle_bool (d2 p q) (r * r).

(** random.py 554-558 [_pairwise_count_kdtree] on a two-dimensional array. *)
Fixpoint pair_count (r : Q) (l : list pt) : Z :=
  match l with
  | [] => 0%Z
  | p :: t => (Z.of_nat (count (close r p) t) + pair_count r t)%Z
  end.

(** numpy.vstack([points, new_point]) for a two-dimensional [points]. *)
Definition vstack_rows (pts : list pt) (a : arr) : list pt :=
  match a with Arr1 p => pts ++ [p] | Arr2 l => pts ++ l | Arr3 _ _ _ => pts end.

Fixpoint delete_nth {A : Type} (i : nat) (l : list A) : list A :=
  match l, i with
  | [], _ => []
  | _ :: t, O => t
  | x :: t, S i' => x :: delete_nth i' t
  end.

Definition draw1 (us : list Q) : run Q :=
  match us with [] => Short | u :: us' => Val u us' end.

Definition Qmin1 (q : Q) : Q := Qmin 1 q.

(** A birth move (662-669) for a two-dimensional array of points. *)
Definition birth (h : hull) (n : Z) (gamma r : Q) (pts : list pt) (us : list Q) : run (list pt) :=
  rbind (poisson h (Some 1) SNone us) (fun newp us =>
    let trial := vstack_rows pts newp in
    let dk := (pair_count r trial - pair_count r pts)%Z in
    let ratio := inject_Z n * Qpower gamma dk / (Qlen pts + 1) in
    rbind (draw1 us) (fun u us => Val (if Qltb u (Qmin1 ratio) then trial else pts) us)).

(** A death move (671-687). [rng.integers(0, m)] is floor(u*m). *)
Definition death (n : Z) (gamma r : Q) (pts : list pt) (us : list Q) : run (list pt) :=
  if (n <? Z.of_nat (List.length pts))%Z then
    rbind (draw1 us) (fun w us =>
      let idx := Z.to_nat (Qfloor (w * Qlen pts)) in
      let trial := delete_nth idx pts in
      let dk := (pair_count r pts - pair_count r trial)%Z in
      let den := inject_Z n * Qpower gamma dk in
      if Qeq_bool den 0 then Exc RuntimeError
      else
        let ratio := Qlen pts / den in
        rbind (draw1 us) (fun u us => Val (if Qltb u (Qmin1 ratio) then trial else pts) us))
  else Val pts us.

(** The Metropolis-Hastings loop (660-687) for a two-dimensional array.
    [rng.random()] at line 661 is only called when there are enough points. *)
Fixpoint mh_loop (h : hull) (n : Z) (gamma r : Q) (iters : nat) (pts : list pt) (us : list Q)
  : run (list pt) :=
  match iters with
  | O => Val pts us
  | S k =>
      rbind (if (Z.of_nat (List.length pts) <? n)%Z then birth h n gamma r pts us
             else rbind (draw1 us) (fun u us =>
                    if Qltb u (1 # 2) then birth h n gamma r pts us
                    else death n gamma r pts us))
            (fun pts us => mh_loop h n gamma r k pts us)
  end.

(** The same loop when the initial call returned a one-dimensional array
    (exactly one point): [len(points)] is 2, and the KD-tree of a 1-d array
    raises ValueError in every birth and every executed death move. *)
Fixpoint mh_loop1 (h : hull) (n : Z) (iters : nat) (us : list Q) : run unit :=
  match iters with
  | O => Val tt us
  | S k =>
      let birth1 us := rbind (poisson h (Some 1) SNone us) (fun _ _ => Exc ValueError) in
      if (2 <? n)%Z then birth1 us
      else rbind (draw1 us) (fun u us =>
             if Qltb u (1 # 2) then birth1 us
             else if (n <? 2)%Z
                  then rbind (draw1 us) (fun _ _ => Exc ValueError)
                  else mh_loop1 h n k us)
  end.

(** One attempt (656-691): [Some rows] when enough points were found.
    For the one-dimensional array, [points.shape[0]] is 2 and the assignment of
    [points[:n]] broadcasts. *)
Definition attempt (h : hull) (n : nat) (gamma r : Q) (n_iter : nat) (us : list Q)
  : run (option (list pt)) :=
  let initial := (3 * n / 2)%nat in
  rbind (poisson h (Some (inject_Z (Z.of_nat initial))) SNone us) (fun a us =>
  match a with
  | Arr2 pts =>
      rbind (mh_loop h (Z.of_nat n) gamma r n_iter pts us) (fun pts us =>
        Val (if Nat.leb n (List.length pts) then Some (firstn n pts) else None) us)
  | Arr1 p =>
      rbind (mh_loop1 h (Z.of_nat n) n_iter us) (fun _ us =>
        Val (match n with
             | O => Some []
             | S O => Some [(fst p, fst p)]
             | S (S O) => Some [p; p]
             | _ => None
             end) us)
  | Arr3 _ _ _ => Exc ValueError
  end).

(** Lines 651-700: up to [max_iter] attempts per replication. *)
Fixpoint attempts (h : hull) (n : nat) (gamma r : Q) (n_iter : nat) (max_iter : nat) (us : list Q)
  : run (list pt) :=
  match max_iter with
  | O => Exc RuntimeError
  | S m =>
      rbind (attempt h n gamma r n_iter us) (fun o us =>
        match o with
        | Some l => Val l us
        | None => attempts h n gamma r n_iter m us
        end)
  end.

Definition strauss (h : hull) (intensity : option Q) (size : size_arg) (gamma r : Q)
    (n_iter max_iter : nat) (us : list Q) : run arr :=
  rbind (lift (parse_size_and_intensity h intensity size) us) (fun nsi us =>
  let '(n, s, _) := nsi in
  rbind (lift (alloc n s) us) (fun ns us =>
  let '(n, s) := ns in
  rbind (replicate (attempts h n gamma r n_iter max_iter) s us)
        (fun d us => Val (squeeze s n d) us))).

(** ** cluster_normal, random.py 390-467 *)

(** One cluster (447-466) around [center]: [m] points, [m >= 2] of them drawn by
    [normal] with its own generator (stream [cs]).  The result of [normal] is
    squeezed to one dimension when m = 2; vstack accepts both. *)
Definition normal_cluster (h : hull) (mk : cov_arg -> pt -> Q -> Q -> pt) (cov : cov_arg)
    (center : pt) (m : nat) (cs : list Q) : run (list pt) :=
  match m with
  | O => Exc PlainException
  | S O => Val [center] cs
  | S m' =>
      rbind (normal h (fun _ => mk cov center) cov (SInt (Z.of_nat m')) cs) (fun cand cs =>
        match cand with
        | Arr1 p => Val [center; p] cs
        | Arr2 l => Val (center :: l) cs
        | Arr3 _ _ _ => Exc ValueError
        end)
  end.

Fixpoint fill_normal (h : hull) (mk : cov_arg -> pt -> Q -> Q -> pt) (cov : cov_arg)
    (l : list (pt * nat)) (streams : list (list Q)) : run (list (list pt)) :=
  match l with
  | [] => Val [] []
  | (c, m) :: l' =>
      match streams with
      | [] => Short
      | cs :: css =>
          rbind (normal_cluster h mk cov c m cs) (fun cl _ =>
          rbind (fill_normal h mk cov l' css) (fun cls us => Val (cl :: cls) us))
      end
  end.

(** The loop over replications (441-467). [meansq centers] stands for
    [pdist(centers).mean() ** 2].  The default covariance is assigned to [cov]
    in the first replication and kept (443-444).  With one seed [centers] is a
    one-dimensional array: pdist raises ValueError (default cov); otherwise the
    two coordinates are taken for two centres: with one observation the second
    access [clusters[1]] raises IndexError, with more the vstack of a scalar
    and a point raises ValueError. The result pairs each replication with the
    covariance that was used. *)
Fixpoint normal_loop (h : hull) (mk : cov_arg -> pt -> Q -> Q -> pt) (meansq : list pt -> Q)
    (cov : cov_arg) (k : Z) (n s : nat)
    (streams : list (list Q * list (list Q))) : run (list (list pt * cov_arg)) :=
  match s with
  | O => Val [] []
  | S s' =>
      match streams with
      | [] => Short
      | (ss, cs) :: rest =>
          match poisson h None (SInt k) ss with
          | Exc e => Exc e
          | Short => Short
          | Val (Arr1 _) _ =>
              match cov, n with
              | CNone, _ => Exc ValueError
              | _, O => Exc PlainException
              | _, S O => Exc IndexError
              | _, _ => Exc ValueError
              end
          | Val (Arr2 centers) _ =>
              if (k <=? 0)%Z then Exc ValueError (* array_split in 0 sections *)
              else
              let cov' := match cov with CNone => CScalar (meansq centers) | c => c end in
              rbind (fill_normal h mk cov' (combine centers (split_sizes n (Z.to_nat k))) cs)
                (fun cls _ =>
              rbind (normal_loop h mk meansq cov' k n s' rest) (fun ls us =>
                Val ((concat cls, cov') :: ls) us))
          | Val (Arr3 _ _ _) _ => Exc ValueError
          end
      end
  end.

(** random.py 390-467 [cluster_normal]. *)
Definition cluster_normal (h : hull) (mk : cov_arg -> pt -> Q -> Q -> pt) (meansq : list pt -> Q)
    (cov : cov_arg) (size : size_arg) (n_seeds : Z)
    (streams : list (list Q * list (list Q))) : run (arr * list cov_arg) :=
  rbind (lift (parse_size_and_intensity h None size) []) (fun nsi us =>
  let '(n, s, _) := nsi in
  rbind (lift (alloc n s) us) (fun ns us =>
  let '(n, s) := ns in
  rbind (normal_loop h mk meansq cov n_seeds n s streams)
        (fun d us => Val (squeeze s n (map fst d), map snd d) us))).
