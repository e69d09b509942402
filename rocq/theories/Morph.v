(** * Morph: pyirf/interpolation/moment_morph_interpolator.py *)
From Coq Require Import Reals List Bool ZArith Lia Lra.
From Verif Require Import Num Numpy Sort Table Binning Utils.
Import ListNotations.
Open Scope R_scope.

(** interpolation/base_interpolators.py:17-24 [PDFNormalization]; [Invalid] is any other object *)
Inductive normalization := AREA | CONE_SOLID_ANGLE | Invalid.

(** interpolation/utils.py:8-15 [get_bin_width] *)
Definition get_bin_width (bin_edges : list R) (n : normalization) : res (list R) :=
  match n with
  | AREA => Ok (diffR bin_edges)
  | CONE_SOLID_ANGLE => Ok (diffR (map cone_solid_angle bin_edges))
  | Invalid => Err ValueError
  end.

(** Python indexing of a sequence: negative numbers count from the end *)
Definition pyget {A} (l : list A) (i : Z) : res A :=
  let j := if Z.ltb i 0 then (i + Z.of_nat (length l))%Z else i in
  if Z.ltb j 0 then Err IndexError
  else match nth_error l (Z.to_nat j) with Some x => Ok x | None => Err IndexError end.

(** binning.py:19-20 [bin_center], on finite edges *)
Definition mids (edges : list R) : list R := zipwith (fun a b => (1/2) * (a + b)) (but_last edges) (tl edges).
(** [np.average(x, weights=w)] *)
Definition average (x w : list R) : res R :=
  if Reqb (rsum w) 0 then Err ZeroDivisionError else Ok (rsum (zipwith Rmult x w) / rsum w).

(** moment_morph_interpolator.py:13-57 [_estimate_mean_std], for one histogram.  The masked
    assignment [std[mask] = uniform_std[...]] is done for all histograms at once in the code: it
    raises ValueError if the number of non-zero bins in the histograms with std = 0 is not the
    number of such histograms; here the check is made per histogram, which is the same for
    non-negative histograms (each of them has exactly one non-zero bin).  The square root of
    a negative variance (NaN; impossible for non-negative histograms) is not modelled. *)
Definition estimate_mean_std (bin_edges pdf : list R) (n : normalization) : res (R * R) :=
  let m := mids bin_edges in
  do width <- get_bin_width bin_edges n;
  let probability := zipwith Rmult pdf width in
  do mean <- average m probability;
  do var <- average (map (fun x => (x - mean) * (x - mean)) m) probability;
  let std := sqrt var in
  if Reqb std 0 then
    let uniform_std := map (fun w => sqrt (1/12) * w) (diffR bin_edges) in
    match filter (fun p => negb (Reqb (fst p) 0)) (combine pdf uniform_std) with
    | [p] => Ok (mean, snd p)
    | _ => Err ValueError
    end
  else Ok (mean, std).

(** moment_morph_interpolator.py:60-100 [_lookup], for one histogram *)
Definition lookup (bin_edges pdf x : list R) : res (list R) :=
  do bv <- calculate_bin_indices (mkArr (map Fin x) None) (mkArr (map Fin bin_edges) None);
  let binnr := zipwith (fun (i : Z) (valid : bool) => if valid then i else 0%Z) (fst bv) (snd bv) in
  let lu := map (fun i => nth (Z.to_nat i) pdf 0) binnr in
  Ok (zipwith (fun v (valid : bool) => if valid then v else 0) lu (snd bv)).

(** [np.linalg.inv] of a 2x2 matrix *)
Definition inv2 (m : (R * R) * (R * R)) : res ((R * R) * (R * R)) :=
  let '((a, b), (c, d)) := m in
  let det := a * d - b * c in
  if Reqb det 0 then Err LinAlgError else Ok ((d / det, - b / det), (- c / det, a / det)).
(** moment_morph_interpolator.py:103-135 [linesegment_1D_interpolation_coefficients]: the matrix
    has the rows [(g_i - m0)**0, (g_i - m0)**1] *)
Definition linesegment_1D_interpolation_coefficients (g0 g1 target : R) : res (list R) :=
  let m0 := g0 in
  do inv <- inv2 (((g0 - m0) ^ 0, (g0 - m0) ^ 1), ((g1 - m0) ^ 0, (g1 - m0) ^ 1));
  let v0 := (target - m0) ^ 0 in
  let v1 := (target - m0) ^ 1 in
  Ok [v0 * fst (fst inv) + v1 * fst (snd inv); v0 * snd (fst inv) + v1 * snd (snd inv)].

Definition point := (R * R)%type.
(** moment_morph_interpolator.py:138-180 [barycentric_2D_interpolation_coefficients]; for a
    degenerate triangle numpy returns inf/nan, here Coq's x / 0 (all theorems exclude this) *)
Definition barycentric_2D_interpolation_coefficients (p1 p2 p3 target : point) : list R :=
  let d13 := (fst p1 - fst p3, snd p1 - snd p3) in
  let d23 := (fst p2 - fst p3, snd p2 - snd p3) in
  let dp3 := (fst target - fst p3, snd target - snd p3) in
  let w1 := (snd d23 * fst dp3 + - fst d23 * snd dp3) / (snd d23 * fst d13 + - fst d23 * snd d13) in
  let w2 := (- snd d13 * fst dp3 + fst d13 * snd dp3) / (snd d23 * fst d13 + - fst d23 * snd d13) in
  let w3 := 1 - w1 - w2 in
  [w1; w2; w3].

(** [np.isclose(x, 0)] *)
Definition isclose0 (x : R) : bool := Rleb (Rabs x) (1/100000000).
(** column sums: [np.sum(rows, axis=0)] for rows of length [n] *)
Definition column_sum (n : nat) (rows : list (list R)) : list R :=
  map (fun k => rsum (map (fun r => nth k r 0) rows)) (seq 0 n).

(** moment_morph_interpolator.py:183-260 [moment_morph_estimation] for one slice (one choice of
    the axes between the first and the last): [binned_pdf] holds the histogram of each
    contributing grid point.  [sig_prime = 0] gives inf and then nan in every bin. *)
Definition moment_morph_slice (bin_edges : list R) (binned_pdf : list (list R)) (coefficients : list R)
    (n : normalization) : res (list num) :=
  let bin_mids := mids bin_edges in
  let n_bins := length bin_mids in
  let zero_template := existsb (fun pdf => isclose0 (rsum pdf)) binned_pdf in
  let binned_pdf := if zero_template then map (fun _ => repeat (1 / INR n_bins) n_bins) binned_pdf else binned_pdf in
  do ms <- rmap (fun pdf => estimate_mean_std bin_edges pdf n) binned_pdf;
  let mu_prime := rsum (zipwith (fun c m => c * fst m) coefficients ms) in
  let sig_prime := rsum (zipwith (fun c m => c * snd m) coefficients ms) in
  let aij := map (fun m => snd m / sig_prime) ms in
  let bij := zipwith (fun m a => fst m - mu_prime * a) ms aij in
  let transf_mids := zipwith (fun a b => map (fun x => a * x + b) bin_mids) aij bij in
  do transf_hist <- rmap (fun p => lookup bin_edges (fst p) (snd p)) (combine binned_pdf transf_mids);
  let f_new := column_sum n_bins
    (zipwith (fun ca h => map (fun x => fst ca * x * snd ca) h) (combine coefficients aij) transf_hist) in
  let f_new := if zero_template then repeat 0 n_bins else f_new in
  do bin_widths <- get_bin_width bin_edges n;
  let norm := rsum (zipwith Rmult f_new bin_widths) in
  if negb zero_template && Reqb sig_prime 0 then Ok (repeat NaN n_bins)
  else Ok (map (fun f => if Reqb norm 0 then Fin 0 else Fin (f / norm)) f_new).

(** moment_morph_interpolator.py:183-260 for all slices *)
Definition moment_morph_estimation (bin_edges : list R) (slices : list (list (list R))) (coefficients : list R)
    (n : normalization) : res (list (list num)) :=
  rmap (fun binned_pdf => moment_morph_slice bin_edges binned_pdf coefficients n) slices.

(** moment_morph_interpolator.py:301-320 [_interpolate1D]; [templates] are the histograms of the
    grid points, for one slice *)
Definition interpolate1D (grid_points bin_edges : list R) (templates : list (list R)) (n : normalization)
    (target : R) : res (list num) :=
  do target_bin <- digitize1 (Fin target) (map Fin grid_points);
  let i := (Z.of_nat target_bin - 1)%Z in
  let j := Z.of_nat target_bin in
  do g0 <- pyget grid_points i;
  do g1 <- pyget grid_points j;
  do coefficients <- linesegment_1D_interpolation_coefficients g0 g1 target;
  do t0 <- pyget templates i;
  do t1 <- pyget templates j;
  moment_morph_slice bin_edges [t0; t1] coefficients n.

(** component_estimators.py:242-247 and 345-350: grid points of one dimension are sorted
    together with their templates ([np.argsort]; for equal grid points the order is not
    specified by numpy, here it is the given one) *)
Definition sort_1D {A} (grid_points : list R) (templates : list A) : list (R * A) :=
  isort (fun p q => Rleb (fst p) (fst q)) (combine grid_points templates).
(** the estimator with a MomentMorphInterpolator on a one-dimensional grid, for a target
    inside the grid *)
Definition morph_estimate_1D (grid_points bin_edges : list R) (templates : list (list R)) (n : normalization)
    (target : R) : res (list num) :=
  let s := sort_1D grid_points templates in
  interpolate1D (map fst s) bin_edges (map snd s) n target.

(** moment_morph_interpolator.py:321-340 [_interpolate2D]: [simplex] is the row of
    [triangulation.simplices] containing the target, as found by scipy's Delaunay.find_simplex *)
Definition interpolate2D (grid_points : list point) (bin_edges : list R) (templates : list (list R))
    (n : normalization) (simplex : nat * nat * nat) (target : point) : res (list num) :=
  let '(i, j, k) := simplex in
  match nth_error grid_points i, nth_error grid_points j, nth_error grid_points k,
        nth_error templates i, nth_error templates j, nth_error templates k with
  | Some p1, Some p2, Some p3, Some t1, Some t2, Some t3 =>
      moment_morph_slice bin_edges [t1; t2; t3] (barycentric_2D_interpolation_coefficients p1 p2 p3 target) n
  | _, _, _, _, _, _ => Err IndexError
  end.
