(** Model of the forms in which the simulators of pointpats/random.py take their
    arguments: a hull as a numpy array, as a Python list or tuple, or as a
    geometry; radii and covariances that are neither numbers nor arrays. The
    models of [Random_model] are the case of a geometry (or box) and of numbers
    and arrays. *)
From Coq Require Import ZArith QArith Qabs List Bool.
From Verif Require Import Base Quadrat_model Geometry_model Random_model.
Import ListNotations.
Local Open Scope Q_scope.

(** What is passed as [hull]. Nested lists hold pairs of numbers. *)
Inductive hullform : Type :=
| FArray (a : nparr)       (* numpy.ndarray *)
| FSequence (a : nparr)    (* list or tuple of numbers or of pairs *)
| FGeom (h : hull).        (* shapely geometry or scipy ConvexHull *)

(** random.py 174-175, 239-240, 339-340, 640-641: an array that is not of shape
    (4,) is replaced by the bounding box of its rows; anything else is kept. *)
Definition enter (f : hullform) : res hullform :=
  match f with
  | FArray (Vec [x0; y0; x1; y1]) => Ok f
  | FArray a => let! b := geo_bbox a in Ok (FGeom (bbox_hull b))
  | _ => Ok f
  end.

(** The value of [area(hull)]: a number, or one number for each column (from four rows). *)
Inductive areaval : Type := ANum (q : Q) (np : bool) | AVec.

(** geometry.py 35-45 and 58-65 [area]: a sequence is made an array; four entries are needed. *)
Definition form_area (f : hullform) : res areaval :=
  match f with
  | FGeom h => Ok (ANum (h_area h) (h_np h))
  | FArray (Vec [x0; y0; x1; y1]) | FSequence (Vec [x0; y0; x1; y1]) =>
      Ok (ANum (Qabs ((x1 - x0) * (y1 - y0))) true)
  | FArray (Pts [_; _; _; _]) | FSequence (Pts [_; _; _; _]) => Ok AVec
  | _ => Raise AssertionError
  end.

(** random.py 41-120 with that area: [int] of an array of two numbers raises
    TypeError; a number divided by it is an array, which is not used. The checks
    of [size] that come before the area are computed first. *)
Definition form_parse (f : hullform) (intensity : option Q) (size : size_arg) : res (Z * Z) :=
  match size, intensity with
  | SOther, _ => Raise ValueError
  | STuple [_; _], Some _ => Raise ValueError
  | STuple [n; s], None =>
      let! a := form_area f in
      match a with
      | ANum q np => let! _ := div_area n (mkhull q (mkbox 0 0 0 0) (fun _ => false) np) in Ok (n, s)
      | AVec => Ok (n, s)
      end
  | STuple _, _ => Raise ValueError
  | SNone, Some i =>
      let! a := form_area f in
      match a with ANum q _ => Ok (Qtrunc (q * i), 1%Z) | AVec => Raise TypeError end
  | SNone, None =>
      let! a := form_area f in
      match a with
      | ANum q np => let! _ := div_area 100 (mkhull q (mkbox 0 0 0 0) (fun _ => false) np) in Ok (100%Z, 1%Z)
      | AVec => Ok (100%Z, 1%Z)
      end
  | SInt z, Some i =>
      let! a := form_area f in
      match a with ANum q _ => Ok (Qtrunc (i * q), z) | AVec => Raise TypeError end
  | SInt z, None =>
      let! a := form_area f in
      match a with
      | ANum q np => let! _ := div_area z (mkhull q (mkbox 0 0 0 0) (fun _ => false) np) in Ok (z, 1%Z)
      | AVec => Ok (z, 1%Z)
      end
  end.

(** geometry.py 69-100 [bbox] of a hull. *)
Definition form_bbox (f : hullform) : res box :=
  match f with
  | FGeom h => Ok (h_bbox h)
  | FArray a | FSequence a => geo_bbox a
  end.

(** geometry.py 103-146 [contains]: the default version, for sequences, raises. *)
Definition form_contains (f : hullform) (p : pt) : res bool :=
  match f with
  | FGeom h => Ok (h_contains h p)
  | FArray (Vec [x0; y0; x1; y1]) => Ok (box_contains (mkbox x0 y0 x1 y1) p)
  | FArray _ => Raise ValueError
  | FSequence _ => Raise NotImplementedError
  end.

(** The rejection loop (178-187, 277-283) with a test that can raise. *)
Fixpoint reject_form (mk : Q -> Q -> pt) (ok : pt -> res bool) (us : list Q) (need : nat) {struct us}
  : run (list pt) :=
  match need with
  | O => Val [] us
  | S m =>
      match us with
      | u :: v :: us' =>
          match ok (mk u v) with
          | Raise e => Exc e
          | Ok true => rbind (reject_form mk ok us' m) (fun l us'' => Val (mk u v :: l) us'')
          | Ok false => reject_form mk ok us' need
          end
      | _ => Short
      end
  end.

(** random.py 128-188 [poisson]. *)
Definition poisson_form (f : hullform) (intensity : option Q) (size : size_arg) (us : list Q) : run arr :=
  rbind (lift (enter f) us) (fun f us =>
  rbind (lift (form_parse f intensity size) us) (fun ns us =>
  let '(n, s) := ns in
  rbind (lift (alloc n s) us) (fun ns us =>
  let '(n, s) := ns in
  rbind (lift (form_bbox f) us) (fun b us =>
  rbind (replicate (fun us => reject_form (box_candidate b) (form_contains f) us n) s us)
        (fun d us => Val (squeeze s n d) us))))).

(** geometry.py 149-195 [centroid]: a sequence has no attribute [centroid]. *)
Definition form_centroid (f : hullform) : res unit :=
  match f with
  | FGeom _ => Ok tt
  | FArray a => let! _ := geo_centroid a in Ok tt
  | FSequence _ => Raise AttributeError
  end.

(** random.py 271-275: the diagonal of an array of fewer than two dimensions
    raises ValueError. Arrays of more than three dimensions are outside the model. *)
Definition diagonal_ok (c : cov_arg) : bool :=
  match c with
  | CArr [] | CArr [_] => false
  | _ => true
  end.

(** random.py 191-284 [normal]; [given] tells whether [center] is passed.
    [mk] is as in [Random_model.normal]. *)
Definition normal_form (f : hullform) (given : bool) (mk : nat -> Q -> Q -> pt) (c : cov_arg) (size : size_arg)
    (us : list Q) : run arr :=
  rbind (lift (enter f) us) (fun f us =>
  rbind (lift (if given then Ok tt else form_centroid f) us) (fun _ us =>
  rbind (lift (form_parse f None size) us) (fun ns us =>
  let '(n, s) := ns in
  rbind (lift (form_bbox f) us) (fun _ us =>
  rbind (lift (check_cov c s) us) (fun _ us =>
  rbind (lift (alloc n s) us) (fun ns us =>
  let '(n, s) := ns in
  rbind (replicate_i (fun i us => if diagonal_ok c then reject_form (mk i) (form_contains f) us n
                                  else Exc ValueError) 0 s us)
        (fun d us => Val (squeeze s n d) us))))))).

(** What is passed as [cluster_radius]: None, a number (int, float, numpy.float64)
    or an array; or anything else: a list, a tuple, a numpy integer. *)
Inductive radiusform : Type := RadKnown (r : radius_arg) | RadOther (l : list Q).

(** random.py 287-387 [cluster_poisson] on a geometry. For any other object no
    branch of 341-349 assigns [cluster_radii], which is read at line 365 after the
    seeds are drawn and the rows split: UnboundLocalError, a NameError. *)
Definition cluster_poisson_form (h : hull) (halfmin : list pt -> Q) (intensity : option Q)
    (size : size_arg) (n_seeds : Z) (rad : radiusform)
    (seed_streams : list (list Q)) (us : list Q) : run arr :=
  match rad with
  | RadKnown r => cluster_poisson h halfmin intensity size n_seeds r seed_streams us
  | RadOther _ =>
      rbind (lift (parse_size_and_intensity h intensity size) us) (fun nsi us =>
      let '(n, s, _) := nsi in
      rbind (lift (alloc n s) us) (fun ns us =>
      let '(n, s) := ns in
      match s with
      | O => Val (squeeze 0 n []) us
      | S _ =>
          match seed_streams with
          | [] => Short
          | ss :: _ =>
              match poisson h None (SInt n_seeds) ss with
              | Exc e => Exc e
              | Short => Short
              | Val _ _ => if (n_seeds <=? 0)%Z then Exc ValueError else Exc NameError
              end
          end
      end))
  end.
