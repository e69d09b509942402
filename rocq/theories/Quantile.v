(** * Quantile: pyirf/interpolation/nearest_neighbor_searcher.py, quantile_interpolator.py *)
From Coq Require Import Reals List Bool ZArith Lia Lra.
From Verif Require Import Num Numpy Table Binning Utils Morph Geometry.
Import ListNotations.
Open Scope R_scope.

(** [np.linalg.norm(v, ord=p)] of a vector, p = 1, 2, ...: the p-th root of the sum of |v_i|^p *)
Definition root (p : nat) (s : R) : R := if Reqb s 0 then 0 else Rpower s (/ INR p).
Definition pnorm (p : nat) (v : list R) : R := root p (rsum (map (fun x => Rabs x ^ p) v)).
(** nearest_neighbor_searcher.py:49-66: the check of [norm_ord] in [__init__] *)
Definition check_norm_ord (norm_ord : pyval) : res num :=
  match norm_ord with
  | PNotNumber => Err ValueError
  | PNum v => if positive_integer v then Ok v else Err ValueError
  end.
(** the values of an array with one or with more axes; the entry of one grid point is flattened *)
Inductive values := Flat (l : list R) | Rows (shape : list nat) (l : list (list R)).
(** nearest_neighbor_searcher.py:68-97 [interpolate]: shape and (flattened) content of [self.values[index, :]];
    one-dimensional values: too many indices *)
Definition nn_index (grid_points : list (list R)) (norm_ord : nat) (target : list R) : res nat :=
  argbest (fun a b => Rltb a b) (map (fun g => pnorm norm_ord (zipwith Rminus g target)) grid_points).
Definition nn_interpolate (grid_points : list (list R)) (v : values) (norm_ord : nat) (target : list R) : res (list nat * list R) :=
  do i <- nn_index grid_points norm_ord target;
  match v with
  | Flat _ => Err IndexError
  | Rows shape l => match nth_error l i with Some r => Ok (shape, r) | None => Err IndexError end
  end.

(** [np.cumsum] *)
Fixpoint cumsum_from (s : R) (l : list R) : list R := match l with [] => [] | a :: l' => (s + a) :: cumsum_from (s + a) l' end.
Definition cumsum (l : list R) : list R := cumsum_from 0 l.
(** quantile_interpolator.py:10-21 [cdf_values], one histogram (0/0 is set to 0; a histogram with entries
    of both signs and maximum 0 is not modelled) *)
Definition cdf_values (binned_pdf bin_edges : list R) (n : normalization) : res (list R) :=
  do w <- get_bin_width bin_edges n;
  let cdf := cumsum (zipwith Rmult binned_pdf w) in
  let m := list_max cdf in
  Ok (map (fun x => if Reqb m 0 then 0 else x / m) cdf).

(** scipy [interp1d(x, y)(t)], linear, for t in the range of an increasing x (and beyond it with the
    first / last segment: fill_value="extrapolate"): the index of the upper end of the segment is
    [searchsorted(x, t)] clipped to 1 .. n-1 *)
Definition interp_seg (x y : list R) (t : R) : R :=
  let i := count (fun a => Rltb a t) x in
  let hi := Nat.min (Nat.max i 1) (length x - 1) in
  let lo := (hi - 1)%nat in
  let slope := (nth hi y 0 - nth lo y 0) / (nth hi x 0 - nth lo x 0) in
  slope * (t - nth lo x 0) + nth lo y 0.
(** the same with fill_value=(0, 0), bounds_error=False *)
Definition interp_fill0 (x y : list R) (t : R) : R :=
  if Rltb t (nth 0 x 0) then 0 else if Rltb (nth (length x - 1) x 0) t then 0 else interp_seg x y t.

(** quantile_interpolator.py:44-77 [cropped_interp]: [last_0] and [first_1] are the positions of the last 0 and
    of the first 1 in the cdf *)
Fixpoint last_index (p : R -> bool) (k : nat) (l : list R) (found : nat) : nat :=
  match l with [] => found | a :: l' => last_index p (S k) l' (if p a then k else found) end.
Fixpoint first_index (p : R -> bool) (k : nat) (l : list R) : option nat :=
  match l with [] => None | a :: l' => if p a then Some k else first_index p (S k) l' end.
Definition changed (cdf : list R) (k : nat) : bool :=
  match k with O => true | S j => negb (Reqb (nth k cdf 0) (nth j cdf 0)) end.
Definition selected (cdf : list R) (last_0 first_1 : nat) (k : nat) : bool :=
  Nat.eqb k first_1 || (Nat.leb k first_1 && (Nat.eqb k last_0 || (Nat.leb last_0 k && changed cdf k))).
Definition cropped_interp (bin_mids cdf quantiles : list R) : res (list R) :=
  let last_0 := if Reqb (nth 0 cdf 0) 0 then last_index (fun x => Reqb x 0) 0 cdf 0 else 0%nat in
  match first_index (fun x => Reqb x 1) 0 cdf with
  | None => Err IndexError
  | Some first_1 =>
      let keep := filter (selected cdf last_0 first_1) (seq 0 (length cdf)) in
      let x := map (fun k => nth k cdf 0) keep in
      let y := map (fun k => nth k bin_mids 0) keep in
      Ok (map (interp_seg x y) quantiles)
  end.
(** quantile_interpolator.py:24-87 [ppf_values] for one histogram: nan (here: None) for an empty one *)
Definition ppf_values (bin_mids cdf quantiles : list R) : res (option (list R)) :=
  if Rltb 0 (rsum cdf) then do p <- cropped_interp bin_mids cdf quantiles; Ok (Some p) else Ok None.

(** scipy [griddata], linear: a weighted sum of the values at some grid points, with [weights] (position, weight)
    chosen by scipy (one dimension: the neighbours; two: the corners of the simplex), nan if one of the values
    is nan or (empty [weights]) outside of the convex hull *)
Fixpoint griddata (weights : list (nat * R)) (ppfs : list (option (list R))) : option (list R) :=
  match weights with
  | [] => None
  | [(i, c)] => match nth_error ppfs i with Some (Some p) => Some (map (fun v => c * v) p) | _ => None end
  | (i, c) :: weights' =>
      match nth_error ppfs i, griddata weights' ppfs with
      | Some (Some p), Some q => Some (zipwith (fun v u => c * v + u) p q)
      | _, _ => None
      end
  end.
(** quantile_interpolator.py:90-133 [pdf_from_ppf], one slice; nan everywhere gives 0 everywhere.  Equal
    neighbouring ppf values (inf, replaced by the largest float) are excluded in all theorems: they
    do not occur *)
Definition pdf_from_ppf (bin_edges : list R) (ppf : option (list R)) (quantiles : list R) : list R :=
  match ppf with
  | None => map (fun _ => 0) (but_last bin_edges)
  | Some p =>
      let pdf := zipwith Rdiv (diffR quantiles) (diffR p) in
      let mid := zipwith (fun a d => a + d / 2) (but_last p) (diffR p) in
      map (interp_fill0 mid pdf) (but_last bin_edges)
  end.
(** quantile_interpolator.py:136-151 [norm_pdf] *)
Definition norm_pdf (pdf bin_edges : list R) (n : normalization) : res (list R) :=
  do width <- get_bin_width bin_edges n;
  let norm := rsum pdf in
  Ok (zipwith (fun p w => if Reqb norm 0 then 0 else p / (norm * w)) pdf width).

(** [np.linspace(0, 1, n)] *)
Definition linspace01 (n : nat) : list R := map (fun k => INR k / INR (n - 1)) (seq 0 n).
(** quantile_interpolator.py:199-232 [QuantileInterpolator.__init__] for one slice: [templates] are the histograms
    of the grid points, [n_quantiles] = round(1 / quantile_resolution); results: the extended edges
    and the ppfs *)
Definition extended_edges (bin_edges : list R) : list R := nth 0 bin_edges 0 - nth 0 (diffR bin_edges) 0 :: bin_edges.
Definition quantile_init (bin_edges : list R) (templates : list (list R)) (n : normalization) (n_quantiles : nat)
  : res (list R * list (option (list R))) :=
  if forallb (fun h => Nat.eqb (length h) (length bin_edges - 1)) templates then
    let edges := extended_edges bin_edges in
    let bin_mids := mids edges in
    do ppfs <- rmap (fun h => do cdf <- cdf_values (0 :: h) edges n; ppf_values bin_mids cdf (linspace01 n_quantiles)) templates;
    Ok (edges, ppfs)
  else Err ValueError.
(** quantile_interpolator.py:234-266 [interpolate] for one slice *)
Definition quantile_interpolate (bin_edges : list R) (templates : list (list R)) (n : normalization) (n_quantiles : nat)
    (weights : list (nat * R)) : res (list R) :=
  do ep <- quantile_init bin_edges templates n n_quantiles;
  let pdf := tl (pdf_from_ppf (fst ep) (griddata weights (snd ep)) (linspace01 n_quantiles)) in
  norm_pdf pdf (tl (fst ep)) n.
