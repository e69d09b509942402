(** * SpecBinsDouble: bin edges and percentiles in double precision *)
From Coq Require Import Reals ZArith List Permutation.
From Verif Require Import Num SpecDouble.
Open Scope R_scope.

(** a decimal logarithm for doubles that is accurate to two units of relative precision *)
Definition accurate_log10 (log10f : num -> num) : Prop :=
  forall x, 0 < x -> double x -> exists l, log10f (Fin x) = Fin l /\ Rabs (l - ln x / ln 10) <= 2 * eps53 * Rabs (ln x / ln 10).
(** powers of ten that are accurate to four units of relative precision *)
Definition accurate_pow10 (powf : num -> num) : Prop :=
  forall x, -40 <= x <= 40 -> exists p, powf (Fin x) = Fin p /\ Rabs (p - Rpower 10 x) <= 4 * eps53 * Rpower 10 x.
(** a usable energy: a double from 10^-30 to 10^30 *)
Definition usable_energy (x : R) : Prop := double x /\ / 10 ^ 30 <= x <= 10 ^ 30.
(** the number of bins from [lo] to [hi], as a real number *)
Definition bins_between (lo hi : R) (n : nat) : R := INR n * (ln (hi / lo) / ln 10).
