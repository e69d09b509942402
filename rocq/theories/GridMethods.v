(** * GridMethods: the extrapolators of parametrised components as classes
    (pyirf/interpolation/nearest_simplex_extrapolator.py, visible_edges_extrapolator.py), grids of one and two dimensions *)
From Coq Require Import String Reals List Bool ZArith Arith.
From Verif Require Import Num Numpy Morph Geometry Estimators PDFEstimators.
Import ListNotations.
Open Scope R_scope.

(** nearest_simplex_extrapolator.py:28-127 [ParametrizedNearestSimplexExtrapolator]; [tri]: scipy's triangulation of the
    grid points *)
Definition simplex_method (tri : list coords -> triangulation) (n : nat) : method (list R) (list R) :=
  mkMethod false true false (fun points templates =>
    if Nat.leb 3 (columns_of points) then Err NotImplementedError else
    Ok (fun t =>
      if Nat.eqb (columns_of points) 1 then extrapolate1D n (concat points) templates (hd 0 t)
      else extrapolate2D n (tri points) templates (plane t))).
(** visible_edges_extrapolator.py:96-198 [ParametrizedVisibleEdgesExtrapolator] with a valid [m], parameters of shape
    [pshape] per grid point; [full]: the simplices of scipy's triangulation of the grid points and the target.  (The
    result is flattened: see [visible_edges_extrapolate] for its shape) *)
Definition visible_method (tri : list coords -> triangulation) (full : list coords -> coords -> list triple) (n : nat) (pshape : list nat)
    (m : nat) : method (list R) (list R) :=
  mkMethod false true false (fun points templates =>
    if Nat.leb 3 (columns_of points) then Err NotImplementedError else
    Ok (fun t =>
      if Nat.eqb (columns_of points) 1 then extrapolate1D n (concat points) templates (hd 0 t)
      else do o <- visible_edges_extrapolate n pshape (tri points) templates m (find_visible_facets (full points t) (plane t)) (plane t);
           Ok (snd o))).
