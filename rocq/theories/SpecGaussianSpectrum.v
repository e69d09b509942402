(** * SpecGaussianSpectrum: power laws with a Gaussian bump *)
From Coq Require Import Reals.
From Flocq Require Import Core.
From Verif Require Import Num SpecDouble SpecEventWeights.
Open Scope R_scope.

(** norm * (E / E_ref)^index * (1 + f * (exp (exp (-1/2 * ((log10(E / E_ref) - mu) / sigma)^2)) - 1)) *)
Definition gaussian_spectrum_flux (norm index e_ref f mu sigma energy : R) : R :=
  power_law_flux norm index e_ref energy * (1 + f * (exp (exp (- (((ln (energy / e_ref) / ln 10 - mu) / sigma) ^ 2 / 2))) - 1)).
(** an exponential function that is accurate to two units of relative precision, but for numbers too small for a double *)
Definition accurate_exp (expf : num -> num) : Prop :=
  forall x, double x -> x <= 2 -> exists y, expf (Fin x) = Fin y /\ double y /\ 0 <= y /\ Rabs (y - exp x) <= 2 * eps53 * exp x + bpow radix2 (-1075).
