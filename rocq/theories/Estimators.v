(** * Estimators: pyirf/interpolation/component_estimators.py, griddata_interpolator.py *)
From Coq Require Import String Reals List Bool ZArith Arith Lia Lra.
From Verif Require Import Num Numpy Sort Table Binning Utils Morph Geometry Quantile.
Import ListNotations.
Open Scope R_scope.

(** a point of the grid: its coordinates *)
Definition coords := list R.
(** the argument [grid_points]: not an array, an array of objects, of another type that is not a float, of floats
    with one axis, with two axes (number of columns, rows).  Arrays of zero or of more than two axes are not modelled *)
Inductive grid_arg := GNotArray | GObject | GNotFloat | G1 (l : list R) | G2 (n_dims : nat) (l : list coords).
(** component_estimators.py:44-88 [BaseComponentEstimator.__init__]: number of dimensions and points.  (The Delaunay
    triangulation built here for two and more dimensions is an argument of the functions that use it;
    it fails for points on a line, which is not modelled) *)
Definition base_init (grid_points : grid_arg) : res (nat * list coords) :=
  do dp <- match grid_points with
           | GNotArray | GObject | GNotFloat => Err TypeError
           | G1 l => Ok (1%nat, map (fun x => [x]) l)
           | G2 d l => Ok (d, l)
           end;
  if Nat.ltb (length (snd dp)) (fst dp + 1) then Err ValueError else Ok dp.

(** an interpolator or extrapolator class together with its keyword arguments: of which of the base classes
    required by the estimator it is a subclass (base_interpolators.py, base_extrapolators.py,
    nearest_neighbor_searcher.py:135-136, 170-171), and its constructor, which returns [__call__].
    [T]: the template of one grid point, [O]: the result *)
Record method (T O : Type) := mkMethod {
  is_interpolator : bool; is_extrapolator : bool; is_nearest : bool;
  create : list coords -> list T -> res (coords -> res O) }.
Arguments mkMethod {T O}. Arguments is_interpolator {T O}. Arguments is_extrapolator {T O}. Arguments is_nearest {T O}. Arguments create {T O}.
Record estimator (O : Type) := mkEst {
  grid_dim : nat; grid : list coords; interpolator : coords -> res O; extrapolator : option (coords -> res O) }.
Arguments mkEst {O}. Arguments grid_dim {O}. Arguments grid {O}. Arguments interpolator {O}. Arguments extrapolator {O}.

(** component_estimators.py:242-247, 345-350: [np.argsort] (order of equal points: as given) *)
Definition sort_points {T} (dim : nat) (points : list coords) (templates : list T) : list (coords * T) :=
  if Nat.eqb dim 1 then isort (fun p q => Rleb (hd 0 (fst p)) (hd 0 (fst q))) (combine points templates)
  else combine points templates.
(** component_estimators.py:242-273, 345-376: the part of the two constructors after the checks of the arrays *)
Definition make_methods {T O} (dim : nat) (points : list coords) (templates : list T) (interpolator_cls : method T O)
    (extrapolator_cls : option (method T O)) : res (estimator O) :=
  let s := sort_points dim points templates in
  if is_interpolator interpolator_cls then
    do f <- create interpolator_cls (map fst s) (map snd s);
    match extrapolator_cls with
    | None => Ok (mkEst dim (map fst s) f None)
    | Some e =>
        if is_extrapolator e then
          do h <- create e (map fst s) (map snd s);
          Ok (mkEst dim (map fst s) f (Some h))
        else Err TypeError
    end
  else Err TypeError.
(** component_estimators.py:285-376 [ParametrizedComponentEstimator.__init__]; params: None if it is not an array *)
Definition parametrized_init {T O} (grid_points : grid_arg) (params : option (list T)) (interpolator_cls : method T O)
    (extrapolator_cls : option (method T O)) : res (estimator O) :=
  do dp <- base_init grid_points;
  match params with
  | None => Err TypeError
  | Some params =>
      if Nat.eqb (length (snd dp)) (length params) then make_methods (fst dp) (snd dp) params interpolator_cls extrapolator_cls
      else Err ValueError
  end.
(** component_estimators.py:162-273 [DiscretePDFComponentEstimator.__init__]; the classes are functions of the edges;
    [n_bins]: length of the last axis of [binned_pdf] *)
Definition discrete_init {T O} (grid_points : grid_arg) (bin_edges : option (list R)) (binned_pdf : option (nat * list T))
    (interpolator_cls : list R -> method T O) (extrapolator_cls : option (list R -> method T O)) : res (estimator O) :=
  do dp <- base_init grid_points;
  match binned_pdf with
  | None => Err TypeError
  | Some (n_bins, templates) =>
      if Nat.eqb (length (snd dp)) (length templates) then
        match bin_edges with
        | None => Err TypeError
        | Some edges =>
            if Z.eqb (Z.of_nat n_bins) (Z.of_nat (length edges) - 1) then
              make_methods (fst dp) (snd dp) templates (interpolator_cls edges)
                match extrapolator_cls with Some e => Some (e edges) | None => None end
            else Err ValueError
        end
      else Err ValueError
  end.

(** the argument [target_point]: not an array, an array with one or with two axes *)
Inductive target_arg := TNotArray | TFlat (t : coords) | TRows (l : list coords).
(** component_estimators.py:90-101 [_target_in_grid]; [inside] is [Delaunay(points).find_simplex(t) >= 0] *)
Definition target_in_grid (inside : list coords -> coords -> bool) (dim : nat) (points : list coords) (t : coords) : bool :=
  if Nat.eqb dim 1 then Rleb (list_min (concat points)) (hd 0 t) && Rleb (hd 0 t) (list_max (concat points))
  else inside points t.
(** component_estimators.py:130-141: the checks of the target *)
Definition check_target (dim : nat) (target_point : target_arg) : res coords :=
  do t <- match target_point with
          | TNotArray => Err TypeError
          | TFlat t => Ok t
          | TRows [t] => Ok t
          | TRows _ => Err ValueError
          end;
  if Nat.eqb (length t) dim then Ok t else Err ValueError.
(** component_estimators.py:103-151 [__call__]; the boolean of the result: a warning was issued *)
Definition estimator_call {O} (inside : list coords -> coords -> bool) (est : estimator O) (target_point : target_arg) : res (bool * O) :=
  do t <- check_target (grid_dim est) target_point;
  if target_in_grid inside (grid_dim est) (grid est) t then do o <- interpolator est t; Ok (false, o)
  else match extrapolator est with
       | Some h => do o <- h t; Ok (true, o)
       | None => Err ValueError
       end.

(** ** classes for parametrised components; a template is the flattened array of [n] entries of one grid point *)
(** griddata_interpolator.py:11-70 [GridDataInterpolator], method "linear": [choose] are the weights of the grid points
    chosen by scipy; only asked for targets inside of the grid (outside, the result would be nan) *)
Definition weighted_templates (n : nat) (w : list (nat * R)) (templates : list (list R)) : list R :=
  weighted_rows n (map snd w) (map (fun i => nth i templates []) (map fst w)).
Definition griddata_method (choose : list coords -> coords -> list (nat * R)) (n : nat) : method (list R) (list R) :=
  mkMethod true false false (fun points templates => Ok (fun t => Ok (weighted_templates n (choose points t) templates))).
(** scipy [griddata] in one dimension is [interp1d]: weights of the two neighbours *)
Definition choose_1D (points : list coords) (t : coords) : list (nat * R) :=
  let x := concat points in
  let hi := Nat.min (Nat.max (count (fun a => Rltb a (hd 0 t)) x) 1) (length x - 1) in
  let w := (hd 0 t - nth (hi - 1) x 0) / (nth hi x 0 - nth (hi - 1) x 0) in
  [((hi - 1)%nat, 1 - w); (hi, w)].
(** nearest_neighbor_searcher.py:139-171 [ParametrizedNearestNeighborSearcher] (arrays with at least two axes) *)
Definition nearest_method (norm_ord : nat) : method (list R) (list R) :=
  mkMethod true true true (fun points templates => Ok (fun t =>
    do i <- nn_index points norm_ord t;
    match nth_error templates i with Some r => Ok r | None => Err IndexError end)).
(** nearest_simplex_extrapolator.py:28-127 [ParametrizedNearestSimplexExtrapolator], one dimension *)
Definition simplex_method_1D (n : nat) : method (list R) (list R) :=
  mkMethod false true false (fun points templates => Ok (fun t => extrapolate1D n (concat points) templates (hd 0 t))).

(** ** EffectiveAreaEstimator *)
(** component_estimators.py:433-453 (areas in m2; [min_effective_area] > 0) *)
Definition floor_at (min : R) (a : R) : R := if Rltb a min then min else a.
Definition aeff_init (grid_points : grid_arg) (areas : list (list R)) (min_effective_area : R) (interpolator_cls : method (list R) (list R))
    (extrapolator_cls : option (method (list R) (list R))) : res (estimator (list R)) :=
  parametrized_init grid_points (Some (map (map (fun a => ln (floor_at min_effective_area a))) areas)) interpolator_cls extrapolator_cls.
(** component_estimators.py:455-477 [__call__] *)
Definition aeff_call (inside : list coords -> coords -> bool) (est : estimator (list R)) (min_effective_area : R) (target_point : target_arg)
  : res (bool * list R) :=
  do wo <- estimator_call inside est target_point;
  Ok (fst wo, map (fun l => if Rltb (exp l) min_effective_area then 0 else exp l) (snd wo)).
(** component_estimators.py:433-442: the caller's array after the call of the constructor: [to_value] of an array that is
    already in m2 is a view of it, which is changed in place; any other unit: a copy *)
Definition caller_areas (in_m2 : bool) (min_effective_area : R) (areas : list (list R)) : list (list R) :=
  if in_m2 then map (map (floor_at min_effective_area)) areas else areas.

(** ** RadMaxEstimator *)
Inductive fill_arg := FillNone | FillInfer | FillValue (v : R).
(** [params]: the rad max tables in the order given by the caller; [fill_val] *)
Record rad_max_estimator := mkRM { rm_est : estimator (list R); rm_params : list (list R); fill_val : option R;
  interp_nearest : bool; extrap_nearest : bool }.
(** [if self.fill_val]: neither None nor 0 *)
Definition active_fill (f : option R) : option R := match f with Some v => if Reqb v 0 then None else Some v | None => None end.
(** component_estimators.py:483-558 [RadMaxEstimator.__init__] *)
Definition rad_max_init (grid_points : grid_arg) (rad_max : list (list R)) (fill_value : fill_arg) (interpolator_cls : method (list R) (list R))
    (extrapolator_cls : option (method (list R) (list R))) : res rad_max_estimator :=
  do est <- parametrized_init grid_points (Some rad_max) interpolator_cls extrapolator_cls;
  let f := match fill_value with FillNone => None | FillInfer => Some (list_max (concat rad_max)) | FillValue v => Some v end in
  match active_fill f with
  | Some _ => if Nat.leb 3 (grid_dim est) then Err ValueError else
      Ok (mkRM est rad_max f (is_nearest interpolator_cls) match extrapolator_cls with Some e => is_nearest e | None => false end)
  | None => Ok (mkRM est rad_max f (is_nearest interpolator_cls) match extrapolator_cls with Some e => is_nearest e | None => false end)
  end.
(** component_estimators.py:667 *)
Definition cap (fill x : R) : R := if Rltb fill x then fill else x.
(** component_estimators.py:613-629, 663-667: one entry, one dimension: [a], [b] the entries of the neighbours *)
Definition fill_1D (fill a b e : R) : R := cap fill (if Rleb fill a || Rleb fill b then fill else e).
(** component_estimators.py:630-667: one entry, two dimensions *)
Definition fill_2D (fill a b c e : R) : R :=
  let n := count (fun v => Rleb fill v) [a; b; c] in
  let e := if Nat.eqb n 1 then Rmin (Rmin a b) c else e in
  cap fill (if Nat.eqb n 2 || Nat.eqb n 3 then fill else e).
Fixpoint zip3 {A B C D} (f : A -> B -> C -> D) (l : list A) (m : list B) (n : list C) : list D :=
  match l, m, n with a :: l', b :: m', c :: n' => f a b c :: zip3 f l' m' n' | _, _, _ => [] end.
Definition min_entry (x : R) : R := if Rltb x 0 then 0 else x.
(** component_estimators.py:609-622: the positions of the neighbours in one dimension *)
Definition rm_segment (points : list R) (t : R) : res (Z * Z) :=
  if Rltb t (list_min points) then Ok (0%Z, 1%Z)
  else if Rltb (list_max points) t then Ok ((-2)%Z, (-1)%Z)
  else do b <- digitize1 (Fin t) (map Fin points); Ok ((Z.of_nat b - 1)%Z, Z.of_nat b).
(** component_estimators.py:560-669 [__call__].  [tri], [find]: scipy's triangulation of the grid points and its
    [find_simplex] (two dimensions).  [two_axes]: the rad max tables have one axis in addition to the grid points; if not,
    [mask[np.newaxis, :]] fails.  A target of shape (1, 2) outside of the grid fails in [np.dot] of point_facet_angle *)
Definition rad_max_call (inside : list coords -> coords -> bool) (tri : triangulation) (find : coords -> option nat) (two_axes : bool)
    (est : rad_max_estimator) (target_point : target_arg) : res (bool * list R) :=
  do wo <- estimator_call inside (rm_est est) target_point;
  let full := map min_entry (snd wo) in
  do t <- check_target (grid_dim (rm_est est)) target_point;
  let points := concat (grid (rm_est est)) in
  let x := hd 0 t in
  match active_fill (fill_val est) with
  | None => Ok (fst wo, full)
  | Some fill =>
      if Nat.eqb (grid_dim (rm_est est)) 1 then
        if ((Rltb x (list_min points) || Rltb (list_max points) x) && extrap_nearest est) || interp_nearest est then Ok (fst wo, full)
        else
          do s <- rm_segment points x;
          do a <- pyget (rm_params est) (fst s);
          do b <- pyget (rm_params est) (snd s);
          if two_axes then Ok (fst wo, zip3 (fill_1D fill) a b full) else Err IndexError
      else
        if (match find t with None => extrap_nearest est | Some _ => false end) || interp_nearest est then Ok (fst wo, full)
        else
          do i <- match find t with
                  | Some i => Ok i
                  | None => match target_point with
                            | TFlat _ => find_nearest_simplex tri (nth 0 t 0, nth 1 t 0)
                            | _ => Err ValueError
                            end
                  end;
          match nth_error (simplices tri) i with
          | None => Err IndexError
          | Some (p, q, r) =>
              do a <- pyget (rm_params est) (Z.of_nat p);
              do b <- pyget (rm_params est) (Z.of_nat q);
              do c <- pyget (rm_params est) (Z.of_nat r);
              if two_axes then Ok (fst wo, zip3 (fun ab c e => fill_2D fill (fst ab) (snd ab) c e) (combine a b) c full) else Err IndexError
          end
  end.

(** ** EnergyDispersionEstimator, PSFTableEstimator *)
(** arrays: shape and value at an index; [np.swapaxes(a, i, j)]: negative axes count from the end *)
Record array := mkA { ashape : list nat; aat : list nat -> R }.
Definition axis_of (ndim : nat) (axis : Z) : res nat :=
  let k := if Z.ltb axis 0 then (axis + Z.of_nat ndim)%Z else axis in
  if Z.ltb k 0 || Z.leb (Z.of_nat ndim) k then Err ValueError (* AxisError, a ValueError *) else Ok (Z.to_nat k).
Definition swap {A} (d : A) (i j : nat) (l : list A) : list A :=
  map (fun k => nth (if Nat.eqb k i then j else if Nat.eqb k j then i else k) l d) (seq 0 (length l)).
Definition swapaxes (a : array) (i j : Z) : res array :=
  do i <- axis_of (length (ashape a)) i;
  do j <- axis_of (length (ashape a)) j;
  Ok (mkA (swap 0%nat i j (ashape a)) (fun ix => aat a (swap 0%nat i j ix))).
(** the last axis as histograms: an interpolator that works slice by slice, [slices]: the histograms at one index of
    the other axes of all grid points; result of shape (1, ..., n_bins) *)
Definition last_slice (a : array) (ix : list nat) : list R :=
  map (fun k => aat a (ix ++ [k])) (seq 0 (last (ashape a) 0%nat)).
Definition interpolate_slices (slice : list (list R) -> list R) (a : array) : array :=
  mkA (1%nat :: tl (ashape a))
    (fun ix => nth (last ix 0%nat) (slice (map (fun p => last_slice a (p :: removelast (tl ix))) (seq 0 (hd 0%nat (ashape a))))) 0).
(** a nearest neighbour searcher: the array of one grid point, without a leading axis *)
Definition nearest_slice (p : nat) (a : array) : array := mkA (tl (ashape a)) (fun ix => aat a (p :: ix)).
(** component_estimators.py:673-756 [EnergyDispersionEstimator], 759-864 [PSFTableEstimator]: the axes; [f]: the
    inter- or extrapolation of the arrays of all grid points with the histograms along the last axis *)
Definition along_axis (f : array -> array) (axis : Z) (a : array) : res array :=
  do s <- swapaxes a axis (-1)%Z;
  swapaxes (f s) (-1)%Z axis.
(** component_estimators.py:816-829: keyword arguments, [dict.setdefault]; the same dict object is used by the caller *)
Inductive kwvalue := KNorm (n : normalization) | KOther (s : string).
Definition kwargs := list (string * kwvalue).
Fixpoint kwget (k : string) (d : kwargs) : option kwvalue :=
  match d with [] => None | (k', v) :: d' => if String.eqb k k' then Some v else kwget k d' end.
Definition setdefault (k : string) (v : kwvalue) (d : kwargs) : kwargs :=
  match kwget k d with Some _ => d | None => d ++ [(k, v)] end.
(** the dict after the call of [PSFTableEstimator(..., interpolator_kwargs=d)] *)
Definition psf_kwargs (d : option kwargs) : kwargs :=
  setdefault "normalization"%string (KNorm CONE_SOLID_ANGLE) match d with Some d => d | None => [] end.
(** the call of a class with keyword arguments: TypeError for one that it does not have *)
Definition accepts (parameters : list string) (d : kwargs) : res kwargs :=
  if forallb (fun kv => existsb (String.eqb (fst kv)) parameters) d then Ok d else Err TypeError.
(** keyword arguments of quantile_interpolator.py:157-164, moment_morph_interpolator.py:268, nearest_neighbor_searcher.py:107,
    and the normalisation that is used *)
Definition quantile_parameters : list string := ["quantile_resolution"; "normalization"]%string.
Definition morph_parameters : list string := ["normalization"]%string.
Definition nearest_parameters : list string := ["norm_ord"]%string.
Definition used_normalization (d : kwargs) : normalization :=
  match kwget "normalization" d with Some (KNorm n) => n | Some (KOther _) => Invalid | None => AREA end.
