(** * GaussianSpectrumDouble: power laws with a Gaussian bump in double precision. Energies in TeV *)
From Coq Require Import Reals.
From Verif Require Import Num Spectral Double EventWeightsDouble.
Open Scope R_scope.

(** spectral.py:268-279 [PowerLawWithExponentialGaussian.__call__].  [pow], [log10f], [expf]: numpy's power, logarithm and exponential function of doubles.
    Simplified: [x ** 2] is the rounded product of x with itself (numpy's fast path for squares) *)
Definition gaussian_spectrum_call_double (pow : num -> num -> num) (log10f expf : num -> num) (p : power_law_) (f mu sigma : R) (energy : num) : num :=
  let power := power_law_call_double pow p energy in
  let e := fdiv energy (Fin (pl_e_ref p)) in
  let log10_e := log10f e in
  let t := fdiv (fsub log10_e (Fin mu)) (Fin sigma) in
  let gauss := expf (fmul (Fin (- / 2)) (fmul t t)) in
  fmul power (fadd (Fin 1) (fmul (Fin f) (fsub (expf gauss) (Fin 1)))).
