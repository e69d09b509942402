(** * LogParabolaDouble: log parabolas in double precision. Energies in TeV *)
From Coq Require Import Reals.
From Verif Require Import Num Spectral Double.
Open Scope R_scope.

(** spectral.py:210-213 [LogParabola.__call__].  [pow]: numpy's power of two doubles, [log10f]: its logarithm.
    The units cancel without a conversion factor *)
Definition log_parabola_call_double (pow : num -> num -> num) (log10f : num -> num) (norm : num) (a b e_ref : R) (energy : num) : num :=
  let e := fdiv energy (Fin e_ref) in
  fmul norm (pow e (fadd (Fin a) (fmul (Fin b) (log10f e)))).
