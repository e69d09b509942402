(** * PDFEstimators: EnergyDispersionEstimator and PSFTableEstimator as a whole
    (pyirf/interpolation/component_estimators.py:673-864 with the discrete classes of pyirf/interpolation) *)
From Coq Require Import String Reals List Bool ZArith Arith Lia Lra.
From Verif Require Import Num Numpy Sort Table Binning Utils Morph Geometry Quantile Tensor Quantities Estimators.
Import ListNotations.
Open Scope R_scope.

(** indices of an array in C order, and the position of an index *)
Fixpoint all_indices (shape : list nat) : list (list nat) :=
  match shape with
  | [] => [[]]
  | n :: shape' => flat_map (fun i => map (cons i) (all_indices shape')) (seq 0 n)
  end.
Definition size (shape : list nat) : nat := fold_right Nat.mul 1%nat shape.
Fixpoint ravel (shape ix : list nat) : nat :=
  match shape, ix with
  | _ :: shape', i :: ix' => (i * size shape' + ravel shape' ix')%nat
  | _, _ => 0%nat
  end.
(** the axes between the first and the last *)
Definition inner (a : array) : list nat := removelast (tl (ashape a)).
(** the template of one grid point: its histograms along the last axis *)
Definition point_slices (a : array) (p : nat) : list (list R) := map (fun ix => last_slice a (p :: ix)) (all_indices (inner a)).
(** the result of a discrete inter- or extrapolator: the axes before those of the histograms ([1], or none), histograms *)
Definition slices := (list nat * list (list num))%type.
Definition pdf_method := method (list (list R)) slices.
(** [reshape] of the histograms to the shape of the templates *)
Definition assemble (inner : list nat) (n_bins : nat) (o : slices) : tensor :=
  mkT (fst o ++ inner ++ [n_bins])
    (fun ix => nth (last ix 0%nat) (nth (ravel inner (removelast (skipn (length (fst o)) ix))) (snd o) []) NaN).
(** [np.swapaxes] of an array of floats including nan *)
Definition tswapaxes (a : tensor) (i j : Z) : res tensor :=
  do i <- axis_of (length (shape a)) i;
  do j <- axis_of (length (shape a)) j;
  Ok (mkT (swap 0%nat i j (shape a)) (fun ix => at_ a (swap 0%nat i j ix))).

(** moment_morph_interpolator.py:183-260 with [binned_pdf] an array without ([unit] = false) or with a unit, which is
    not dimensionless.  In the latter case the assignment of numbers to some of the histograms (line 215) fails even if there
    are no such histograms: astropy converts the new values first *)
Definition morph_rows_q (unit : bool) (bin_edges : list R) (n_slices : nat) (rows : list (list (list R))) (c : list R) (n : normalization)
  : res (list (list num)) :=
  if unit then Err UnitConversionError else morph_rows bin_edges n_slices rows c n.
(** moment_morph_interpolator.py:301-319 [_interpolate1D], all histograms *)
Definition morph_interpolate1D (unit : bool) (grid bin_edges : list R) (n_slices : nat) (templates : list (list (list R))) (n : normalization)
    (target : R) : res (list (list num)) :=
  do target_bin <- digitize1 (Fin target) (map Fin grid);
  let i := (Z.of_nat target_bin - 1)%Z in
  let j := Z.of_nat target_bin in
  do g0 <- pyget grid i;
  do g1 <- pyget grid j;
  do c <- linesegment_1D_interpolation_coefficients g0 g1 target;
  do t0 <- pyget templates i;
  do t1 <- pyget templates j;
  morph_rows_q unit bin_edges n_slices [t0; t1] c n.
(** moment_morph_interpolator.py:321-340 [_interpolate2D], all histograms; [simplex]: see [interpolate2D] *)
Definition morph_interpolate2D (unit : bool) (grid : list point) (bin_edges : list R) (n_slices : nat) (templates : list (list (list R)))
    (n : normalization) (simplex : nat * nat * nat) (target : point) : res (list (list num)) :=
  let '(i, j, k) := simplex in
  match nth_error grid i, nth_error grid j, nth_error grid k, nth_error templates i, nth_error templates j, nth_error templates k with
  | Some p1, Some p2, Some p3, Some t1, Some t2, Some t3 =>
      morph_rows_q unit bin_edges n_slices [t1; t2; t3] (barycentric_2D_interpolation_coefficients p1 p2 p3 target) n
  | _, _, _, _, _, _ => Err IndexError
  end.
Definition plane (t : coords) : point := (nth 0 t 0, nth 1 t 0).
(** number of columns of the array of grid points *)
Definition columns_of (points : list coords) : nat := length (hd [] points).
(** moment_morph_interpolator.py:263-373 [MomentMorphInterpolator] *)
Definition morph_method (find : list coords -> coords -> nat * nat * nat) (unit : bool) (n_slices : nat) (n : normalization) (bin_edges : list R)
  : pdf_method :=
  mkMethod true false false (fun points templates =>
    if Nat.leb 3 (columns_of points) then Err NotImplementedError else
    Ok (fun t =>
      do o <- (if Nat.eqb (columns_of points) 1 then morph_interpolate1D unit (concat points) bin_edges n_slices templates n (hd 0 t)
               else morph_interpolate2D unit (map plane points) bin_edges n_slices templates n (find points t) (plane t));
      Ok ([1%nat], o))).
(** nearest_simplex_extrapolator.py:130-251 [MomentMorphNearestSimplexExtrapolator]; [tri]: scipy's triangulation.  With a unit
    the estimation fails (before it, only the weights are computed; their errors are not distinguished here) *)
Definition morph_extrapolator (tri : list coords -> triangulation) (unit : bool) (n_slices : nat) (n : normalization) (bin_edges : list R)
  : pdf_method :=
  mkMethod false true false (fun points templates =>
    if Nat.leb 3 (columns_of points) then Err NotImplementedError else
    Ok (fun t =>
      if unit then Err UnitConversionError else
      do o <- (if Nat.eqb (columns_of points) 1 then morph_extrapolate1D (concat points) bin_edges n_slices templates n (hd 0 t)
               else morph_extrapolate2D (tri points) bin_edges n_slices templates n (plane t));
      Ok ([1%nat], o))).
(** quantile_interpolator.py:154-266 [QuantileInterpolator]; [nq] = round(1 / quantile_resolution); [choose]: see [griddata].
    (A unit of the histograms drops out in the division by the largest value of the cdf; the result has none) *)
Definition quantile_method (choose : list coords -> coords -> list (nat * R)) (nq : nat) (n_slices : nat) (n : normalization) (bin_edges : list R)
  : pdf_method :=
  mkMethod true false false (fun points templates =>
    do eps <- rmap (fun k => quantile_init bin_edges (column k templates) n nq) (seq 0 n_slices);
    Ok (fun t =>
      do o <- rmap (fun ep : list R * list (option (list R)) =>
                norm_pdf (tl (pdf_from_ppf (fst ep) (griddata (choose points t) (snd ep)) (linspace01 nq))) (tl (fst ep)) n) eps;
      Ok ([1%nat], map (map Fin) o))).
(** nearest_neighbor_searcher.py:100-136 [DiscretePDFNearestNeighborSearcher]: the array of one grid point, without the
    first axis *)
Definition nearest_pdf_method (norm_ord : nat) (bin_edges : list R) : pdf_method :=
  mkMethod true true true (fun points templates => Ok (fun t =>
    do i <- nn_index points norm_ord t;
    match nth_error templates i with Some r => Ok ([], map (map Fin) r) | None => Err IndexError end)).

(** component_estimators.py:673-756 [EnergyDispersionEstimator], 759-864 [PSFTableEstimator]: the object *)
Record pdf_estimator := mkPE { pe_est : estimator slices; pe_axis : Z; pe_inner : list nat; pe_bins : nat }.
(** the constructor: the classes are functions of the number of histograms per grid point (their shape) and of the edges.
    Arrays with fewer than two axes are not modelled *)
Definition pdf_init (grid_points : grid_arg) (bin_edges : list R) (pdf : array) (interpolator_cls : nat -> list R -> pdf_method)
    (extrapolator_cls : option (nat -> list R -> pdf_method)) (axis : Z) : res pdf_estimator :=
  do s <- swapaxes pdf axis (-1)%Z;
  do est <- discrete_init grid_points (Some bin_edges)
      (Some (last (ashape s) 0%nat, map (point_slices s) (seq 0 (hd 0%nat (ashape s)))))
      (interpolator_cls (size (inner s))) match extrapolator_cls with Some e => Some (e (size (inner s))) | None => None end;
  Ok (mkPE est axis (inner s) (last (ashape s) 0%nat)).
(** component_estimators.py:738-756, 842-864 [__call__]; the boolean: a warning was issued *)
Definition pdf_call (inside : list coords -> coords -> bool) (pe : pdf_estimator) (target_point : target_arg) : res (bool * tensor) :=
  do wo <- estimator_call inside (pe_est pe) target_point;
  do o <- tswapaxes (assemble (pe_inner pe) (pe_bins pe) (snd wo)) (-1)%Z (pe_axis pe);
  Ok (fst wo, o).

(** component_estimators.py:679-736 [EnergyDispersionEstimator.__init__] *)
Definition edisp_init := pdf_init.
(** decorator [u.quantity_input] for one argument; None: an array without unit *)
Definition input_unit (needed : qunit) (u : option qunit) : res qunit :=
  match u with
  | None => Err TypeError
  | Some u => if deqb (qu_dim u) (qu_dim needed) then Ok u else Err UnitsError
  end.
(** component_estimators.py:764-840 [PSFTableEstimator.__init__]: the edges are converted to radian; the classes take
    the normalisation (PDFNormalization.CONE_SOLID_ANGLE unless the caller gives another one, see [psf_kwargs]).  The
    histograms keep their unit.  (Keyword arguments that a class does not take: see [accepts]) *)
Definition psf_init (grid_points : grid_arg) (source_offset_bins : list R) (bins_unit : option qunit) (psf : array) (psf_unit : option qunit)
    (interpolator_kwargs : option kwargs) (interpolator_cls : normalization -> nat -> list R -> pdf_method)
    (extrapolator_kwargs : option kwargs) (extrapolator_cls : option (normalization -> nat -> list R -> pdf_method)) (axis : Z) : res pdf_estimator :=
  do bu <- input_unit deg bins_unit;
  do _ <- input_unit (upow sr (-1)) psf_unit;
  pdf_init grid_points (map (fun x => x * (qu_scale bu / qu_scale rad)) source_offset_bins) psf
    (interpolator_cls (used_normalization (psf_kwargs interpolator_kwargs)))
    match extrapolator_cls with Some e => Some (e (used_normalization (psf_kwargs extrapolator_kwargs))) | None => None end axis.
