(** * Geometry: pyirf/interpolation/utils.py, nearest_simplex_extrapolator.py, visible_edges_extrapolator.py *)
From Coq Require Import Reals List Bool ZArith Lia Lra.
From Verif Require Import Num Numpy Table Binning Utils Morph.
Import ListNotations.
Open Scope R_scope.

(** vectors of two components *)
Definition vsub (p q : point) : point := (fst p - fst q, snd p - snd q).
Definition vadd (p q : point) : point := (fst p + fst q, snd p + snd q).
Definition vscale (s : R) (p : point) : point := (s * fst p, s * snd p).
(** [np.dot], [np.linalg.norm], [np.cross] *)
Definition dot (p q : point) : R := fst p * fst q + snd p * snd q.
Definition vnorm (p : point) : R := sqrt (fst p * fst p + snd p * snd p).
Definition cross (p q : point) : R := fst p * snd q - snd p * fst q.
(** [np.isclose(x, 1)] *)
Definition isclose1 (x : R) : bool := Rleb (Rabs (x - 1)) (1/100000000 + 1/100000 * Rabs 1).

(** interpolation/utils.py:18-69 [plumb_point_dist], for points of two dimensions; a segment of
    length 0 (nan in numpy) is excluded in all theorems *)
Definition plumb_point_dist (line : point * point) (target : point) : R :=
  let A := fst line in
  let B := snd line in
  let P := target in
  let F1 := vadd A (vscale (/ dot (vsub B A) (vsub B A)) (vscale (dot (vsub P A) (vsub B A)) (vsub B A))) in
  let F2 := vadd B (vscale (/ dot (vsub A B) (vsub A B)) (vscale (dot (vsub P B) (vsub A B)) (vsub A B))) in
  let r1 := if Reqb (fst B - fst A) 0 then (snd F1 - snd A) / (snd B - snd A)
            else (fst F1 - fst A) / (fst B - fst A) in
  let r2 := if Reqb (fst A - fst B) 0 then (snd F2 - snd B) / (snd A - snd B)
            else (fst F2 - fst B) / (fst A - fst B) in
  if isclose1 (Rabs r1 + Rabs r2) && negb (isclose0 r1 || isclose0 r2) then
    Rabs (cross (vsub P A) (vsub B A)) / vnorm (vsub B A)
  else Rmin (vnorm (vsub A P)) (vnorm (vsub B P)).

(** interpolation/utils.py:72-92 [point_facet_angle] *)
Definition point_facet_angle (line : point * point) (target : point) : R :=
  let PB := vsub (snd line) target in
  let PA := vsub (fst line) target in
  dot PB PA / (vnorm PA * vnorm PB).

(** index of the first minimal element of a non-empty list, [before a b]: a sorts before b *)
Fixpoint first_best {A} (before : A -> A -> bool) (best : nat * A) (k : nat) (l : list A) : nat :=
  match l with
  | [] => fst best
  | a :: l' => first_best before (if before a (snd best) then (k, a) else best) (S k) l'
  end.
Definition argbest {A} (before : A -> A -> bool) (l : list A) : res nat :=
  match l with [] => Err IndexError | a :: l' => Ok (first_best before (0%nat, a) 1 l') end.
(** interpolation/utils.py:95-122 [find_nearest_facet]: structured arrays sort by their first
    field, then by the second; if two facets agree in both numpy's choice is not specified, here
    it is the first *)
Definition facet_before (a b : R * R) : bool := Rltb (fst a) (fst b) || (Reqb (fst a) (fst b) && Rltb (snd a) (snd b)).
Definition find_nearest_facet (qhull_points : list (point * point)) (target : point) : res nat :=
  argbest facet_before (map (fun line => (plumb_point_dist line target, point_facet_angle line target)) qhull_points).

Definition peqb (p q : point) : bool := Reqb (fst p) (fst q) && Reqb (snd p) (snd q).
Definition triple := (point * point * point)%type.
Definition corners (s : triple) : list point := let '(a, b, c) := s in [a; b; c].
(** interpolation/utils.py:125-151 [find_simplex_to_facet] *)
Definition find_simplex_to_facet (simplices_points : list triple) (facet : point * point) : res nat :=
  argbest (fun a b : nat => Nat.ltb b a)
    (map (fun s => count (fun p => peqb p (fst facet) || peqb p (snd facet)) (corners s)) simplices_points).

(** the part of scipy.spatial.Delaunay that is used: points, simplices and hull facets (indices) *)
Record triangulation := mkTri { points : list point; simplices : list (nat * nat * nat); hull : list (nat * nat) }.
Definition at_point (l : list point) (i : nat) : point := nth i l (0, 0).
Definition facet_points (t : triangulation) : list (point * point) :=
  map (fun f => (at_point (points t) (fst f), at_point (points t) (snd f))) (hull t).
Definition simplex_points (t : triangulation) : list triple :=
  map (fun '(i, j, k) => (at_point (points t) i, at_point (points t) j, at_point (points t) k)) (simplices t).
(** interpolation/utils.py:154-181 [find_nearest_simplex] *)
Definition find_nearest_simplex (t : triangulation) (target : point) : res nat :=
  do f <- find_nearest_facet (facet_points t) target;
  match nth_error (facet_points t) f with
  | Some facet => find_simplex_to_facet (simplex_points t) facet
  | None => Err IndexError
  end.

(** [np.sum(coefficients * rows, axis=0)] *)
Definition weighted_rows (n : nat) (c : list R) (rows : list (list R)) : list R :=
  column_sum n (zipwith (fun x r => map (fun v => x * v) r) c rows).

(** nearest_simplex_extrapolator.py:58-75 [ParametrizedNearestSimplexExtrapolator._extrapolate1D],
    96-118 [extrapolate], for a one-dimensional grid; every row of [params] is the flattened parameter
    array (of [n] entries) of one grid point *)
Definition list_min (l : list R) : R := match l with [] => 0 | a :: l' => fold_left Rmin l' a end.
Definition list_max (l : list R) : R := match l with [] => 0 | a :: l' => fold_left Rmax l' a end.
Definition segment_inds (grid : list R) (target : R) : Z * Z :=
  if Rltb target (list_min grid) then (0%Z, 1%Z) else ((-2)%Z, (-1)%Z).
Definition extrapolate1D (n : nat) (grid : list R) (params : list (list R)) (target : R) : res (list R) :=
  let (i, j) := segment_inds grid target in
  do g0 <- pyget grid i;
  do g1 <- pyget grid j;
  do c <- linesegment_1D_interpolation_coefficients g0 g1 target;
  do p0 <- pyget params i;
  do p1 <- pyget params j;
  Ok (weighted_rows n c [p0; p1]).
(** nearest_simplex_extrapolator.py:77-94 [_extrapolate2D] *)
Definition extrapolate_from (n : nat) (t : triangulation) (params : list (list R)) (simplex : nat) (target : point) : res (list R) :=
  match nth_error (simplices t) simplex with
  | Some (i, j, k) =>
      Ok (weighted_rows n (barycentric_2D_interpolation_coefficients (at_point (points t) i) (at_point (points t) j) (at_point (points t) k) target)
            [nth i params []; nth j params []; nth k params []])
  | None => Err IndexError
  end.
(** nearest_simplex_extrapolator.py:119-127 *)
Definition extrapolate2D (n : nat) (t : triangulation) (params : list (list R)) (target : point) : res (list R) :=
  do s <- find_nearest_simplex t target;
  extrapolate_from n t params s target.

(** nearest_simplex_extrapolator.py:237-251: clipping and normalising after the extrapolation, for
    all slices together *)
Definition nonneg_entry (x : num) : bool := nle (Fin 0) x.
Definition clip_entry (x : num) : num := if nlt x (Fin 0) then Fin 0 else x.
Definition renormalise (widths : list R) (slice : list num) : list num :=
  let norm := nsum (zipwith (fun x w => nmul x (Fin w)) slice widths) in
  map (fun x => if neqb norm (Fin 0) then Fin 0 else ndiv x norm) slice.
Definition clip_negative (bin_edges : list R) (n : normalization) (slices : list (list num)) : res (list (list num)) :=
  if forallb (forallb nonneg_entry) slices then Ok slices else
  let cut := map (map clip_entry) slices in
  do widths <- get_bin_width bin_edges n;
  Ok (map (renormalise widths) cut).
(** nearest_simplex_extrapolator.py:172-187, 206-228 [MomentMorphNearestSimplexExtrapolator.extrapolate]
    on a one-dimensional grid; [templates]: per grid point the histograms of all slices *)
Definition column {A} (k : nat) (rows : list (list A)) : list A :=
  flat_map (fun r => match nth_error r k with Some x => [x] | None => [] end) rows.
Definition morph_rows (bin_edges : list R) (n_slices : nat) (rows : list (list (list R))) (c : list R) (n : normalization) : res (list (list num)) :=
  moment_morph_estimation bin_edges (map (fun k => column k rows) (seq 0 n_slices)) c n.
Definition morph_extrapolate1D (grid bin_edges : list R) (n_slices : nat) (templates : list (list (list R))) (n : normalization) (target : R)
  : res (list (list num)) :=
  let (i, j) := segment_inds grid target in
  do g0 <- pyget grid i;
  do g1 <- pyget grid j;
  do c <- linesegment_1D_interpolation_coefficients g0 g1 target;
  do t0 <- pyget templates i;
  do t1 <- pyget templates j;
  do e <- morph_rows bin_edges n_slices [t0; t1] c n;
  clip_negative bin_edges n e.
(** nearest_simplex_extrapolator.py:189-204, 229-251, two-dimensional grid *)
Definition morph_extrapolate2D (t : triangulation) (bin_edges : list R) (n_slices : nat) (templates : list (list (list R))) (n : normalization)
    (target : point) : res (list (list num)) :=
  do s <- find_nearest_simplex t target;
  match nth_error (simplices t) s with
  | Some (i, j, k) =>
      do e <- morph_rows bin_edges n_slices [nth i templates []; nth j templates []; nth k templates []]
        (barycentric_2D_interpolation_coefficients (at_point (points t) i) (at_point (points t) j) (at_point (points t) k) target) n;
      clip_negative bin_edges n e
  | None => Err IndexError
  end.

(** an argument that may or may not be a number *)
Inductive pyval := PNum (x : num) | PNotNumber.
Definition is_integer (x : R) : bool := Reqb x (IZR (Int_part x)).
(** the test [(v <= 0) or ~np.isfinite(v) or (v != int(v))] *)
Definition positive_integer (v : num) : bool :=
  match v with Fin r => negb (Rleb r 0) && is_integer r | _ => false end.
(** visible_edges_extrapolator.py:139-153: the check of [m] in [__init__] *)
Definition check_m (m : pyval) : res num :=
  match m with
  | PNotNumber => Err TypeError
  | PNum v => if positive_integer v then Ok v else Err ValueError
  end.
(** visible_edges_extrapolator.py:15-59 [find_visible_facets]: [simplices_points] are the simplices of scipy's
    Delaunay triangulation of the grid points and the target; a simplex is assumed to have the
    target at most once (Delaunay drops repeated points) *)
Definition find_visible_facets (simplices_points : list triple) (target : point) : list (point * point) :=
  flat_map (fun s =>
    match filter (fun p => negb (peqb p target)) (corners s) with
    | [p; q] => [(p, q)]
    | _ => []
    end) simplices_points.
(** visible_edges_extrapolator.py:62-93 [compute_extrapolation_weights] *)
Definition compute_extrapolation_weights (visible : list (point * point)) (target : point) (m : nat) : list R :=
  let weights := map (fun line => acos (point_facet_angle line target) ^ (m + 1)) visible in
  map (fun w => w / rsum weights) weights.
(** visible_edges_extrapolator.py:155-198 [extrapolate] on a two-dimensional grid.  [visible] is the result
    of [find_visible_facets], [pshape] the shape of
    the parameters of one grid point.  The extrapolations from the simplices are squeezed, so an axis
    of length 1 in [pshape] misaligns them with the weights, which have one axis per axis of
    [params]: numpy then broadcasts all pairs and the sum over the first axis leaves every
    extrapolation times the sum of all weights.  Result: shape and flattened values. *)
Definition blend_visible (n : nat) (pshape : list nat) (weights : list R) (ext : list (list R)) : list nat * list R :=
  let kept := filter (fun d => negb (Nat.eqb d 1)) pshape in
  if Nat.eqb (length kept) (length pshape) then (1%nat :: pshape, weighted_rows n weights ext)
  else (1%nat :: repeat 1%nat (length pshape - length kept - 1) ++ length ext :: kept,
        concat (map (map (fun v => rsum (map (fun w => w * v) weights))) ext)).
Definition visible_edges_extrapolate (n : nat) (pshape : list nat) (t : triangulation) (params : list (list R)) (m : nat)
    (visible : list (point * point)) (target : point) : res (list nat * list R) :=
  match visible with
  | [_] => do e <- extrapolate2D n t params target; Ok (1%nat :: pshape, e)
  | _ =>
      do inds <- rmap (find_simplex_to_facet (simplex_points t)) visible;
      let weights := compute_extrapolation_weights visible target m in
      do ext <- rmap (fun i => extrapolate_from n t params i target) inds;
      Ok (blend_visible n pshape weights ext)
  end.
