(** * SpecLogParabola: log parabolas *)
From Coq Require Import Reals.
From Verif Require Import Num SpecDouble.
Open Scope R_scope.

(** norm * (E / E_ref)^(a + b log10(E / E_ref)) *)
Definition log_parabola_flux (norm a b e_ref energy : R) : R :=
  norm * Rpower (energy / e_ref) (a + b * (ln (energy / e_ref) / ln 10)).
(** a power that is accurate to two units of relative precision for bases from 10^-13 to 10^13 and exponents up to 20 *)
Definition accurate_wide_power (pow : num -> num -> num) : Prop :=
  forall x p, double x -> / 10 ^ 13 <= x <= 10 ^ 13 -> double p -> -20 <= p <= 20 -> exists y, pow (Fin x) (Fin p) = Fin y /\ Rabs (y - Rpower x p) <= 2 * eps53 * Rpower x p.
