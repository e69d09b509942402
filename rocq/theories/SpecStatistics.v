(** * SpecStatistics: the Li & Ma formula as published. *)
From Coq Require Import Reals.
Open Scope R_scope.

(** x ln y with the convention 0 ln 0 = 0 *)
Definition xlny (x y : R) : R := if Req_EM_T x 0 then 0 else x * ln y.
(** Formula (17) of Li & Ma (1983) for an excess *)
Definition lima_formula (n_on n_off alpha : R) : R :=
  sqrt 2 * sqrt (xlny n_on ((1 + alpha) / alpha * (n_on / (n_on + n_off)))
               + xlny n_off ((1 + alpha) * (n_off / (n_on + n_off)))).
(** zero for a deficit *)
Definition lima (n_on n_off alpha : R) : R :=
  if Rle_dec n_on (alpha * n_off) then 0 else lima_formula n_on n_off alpha.
