(** * WeightsDouble: weights of the grid points in double precision.  The sign of zero is not modelled *)
From Coq Require Import Reals List Bool.
From Verif Require Import Num Numpy Double.
Import ListNotations.
Open Scope R_scope.

(** moment_morph_interpolator.py:138-183 [barycentric_2D_interpolation_coefficients], as
    [Morph.barycentric_2D_interpolation_coefficients], with every operation rounded; the changes of sign are exact *)
Definition barycentric_double (p1 p2 p3 target : num * num) : list num :=
  let d13 := (fsub (fst p1) (fst p3), fsub (snd p1) (snd p3)) in
  let d23 := (fsub (fst p2) (fst p3), fsub (snd p2) (snd p3)) in
  let dp3 := (fsub (fst target) (fst p3), fsub (snd target) (snd p3)) in
  let w1 := fdiv (fadd (fmul (snd d23) (fst dp3)) (fmul (nneg (fst d23)) (snd dp3)))
                 (fadd (fmul (snd d23) (fst d13)) (fmul (nneg (fst d23)) (snd d13))) in
  let w2 := fdiv (fadd (fmul (nneg (snd d13)) (fst dp3)) (fmul (fst d13) (snd dp3)))
                 (fadd (fmul (snd d23) (fst d13)) (fmul (nneg (fst d23)) (snd d13))) in
  let w3 := fsub (fsub (Fin 1) w1) w2 in
  [w1; w2; w3].
(** moment_morph_interpolator.py:103-135 [linesegment_1D_interpolation_coefficients] in double precision.  [inverse d]: the
    second row of numpy's inverse of the matrix with the rows (1, 0) and (1, d), whose first row is (1, 0); einsum adds the
    products for j = 0 (x ** 0 = 1) and j = 1 *)
Definition segment_double (inverse : num -> num * num) (g0 g1 target : num) : list num :=
  let inv := inverse (fsub g1 g0) in
  let x := fsub target g0 in
  [fadd (fmul (Fin 1) (Fin 1)) (fmul x (fst inv)); fadd (fmul (Fin 1) (Fin 0)) (fmul x (snd inv))].
(** nearest_simplex_extrapolator.py:70-94 [np.sum(coefficients * params[inds], axis=0)]: the rows are added one after the other *)
Definition estimate_double (coefficients : list num) (params : list (list num)) : list num :=
  match zipwith (fun c row => map (fmul c) row) coefficients params with
  | [] => []
  | r :: rows => fold_left (zipwith fadd) rows r
  end.
