(** * Quantities: astropy quantities with arbitrary units, for the parts of pyirf that compute with them.
    Dimensions are products of powers of length, mass, time and angle (astropy's radian is not dimensionless);
    the exponents are real because a flux normalisation contains energies to the power of a spectral index. *)
From Coq Require Import Reals List Bool ZArith Lra.
From Verif Require Import Num Numpy Simulations.
Import ListNotations.
Open Scope R_scope.

Record dim := mkDim { d_length : R; d_mass : R; d_time : R; d_angle : R }.
Definition deqb (a b : dim) : bool :=
  Reqb (d_length a) (d_length b) && Reqb (d_mass a) (d_mass b) && Reqb (d_time a) (d_time b) && Reqb (d_angle a) (d_angle b).
Definition dmul (a b : dim) : dim := mkDim (d_length a + d_length b) (d_mass a + d_mass b) (d_time a + d_time b) (d_angle a + d_angle b).
Definition dpow (a : dim) (p : R) : dim := mkDim (d_length a * p) (d_mass a * p) (d_time a * p) (d_angle a * p).
Definition dnone : dim := mkDim 0 0 0 0.
(** a unit: its size in kg, m, s, rad, and its dimension *)
Record qunit := mkQU { qu_scale : R; qu_dim : dim }.
Definition umul (a b : qunit) : qunit := mkQU (qu_scale a * qu_scale b) (dmul (qu_dim a) (qu_dim b)).
Definition upow (a : qunit) (p : R) : qunit := mkQU (Rpower (qu_scale a) p) (dpow (qu_dim a) p).
Definition udiv (a b : qunit) : qunit := mkQU (qu_scale a / qu_scale b) (dmul (qu_dim a) (dpow (qu_dim b) (-1))).
Definition one_ : qunit := mkQU 1 dnone.

Record quantity := mkQ { q_val : num; q_unit : qunit }.
(** [q * r], [q / r], [x * q], [q ** p] *)
Definition qmul (q r : quantity) : quantity := mkQ (nmul (q_val q) (q_val r)) (umul (q_unit q) (q_unit r)).
Definition qdiv (q r : quantity) : quantity := mkQ (ndiv (q_val q) (q_val r)) (udiv (q_unit q) (q_unit r)).
Definition qtimes (q : quantity) (x : num) : quantity := mkQ (nmul (q_val q) x) (q_unit q).
Definition qpow (q : quantity) (p : R) : quantity := mkQ (npow (q_val q) p) (upow (q_unit q) p).
(** [q.to_value(u)], [q.to(u)] *)
Definition to_value (q : quantity) (u : qunit) : res num :=
  if deqb (qu_dim (q_unit q)) (qu_dim u) then Ok (nmul (q_val q) (Fin (qu_scale (q_unit q) / qu_scale u))) else Err UnitConversionError.
Definition to_unit (q : quantity) (u : qunit) : res quantity := do v <- to_value q u; Ok (mkQ v u).
(** [q - r]: in the unit of q *)
Definition qsub (q r : quantity) : res quantity := do v <- to_value r (q_unit q); Ok (mkQ (nsub (q_val q) v) (q_unit q)).

(** an argument: a quantity, or a number or array without unit *)
Inductive arg := Plain (x : num) | Qty (q : quantity).
(** [astropy.units.quantity_input]: the argument needs one of the dimensions (none of them is dimensionless here) *)
Definition quantity_input (allowed : list qunit) (a : arg) : res quantity :=
  match a with
  | Plain _ => Err TypeError
  | Qty q => if existsb (fun u => deqb (qu_dim (q_unit q)) (qu_dim u)) allowed then Ok q else Err UnitsError
  end.

(** astropy's units (the exact SI values) *)
Definition second : qunit := mkQU 1 (mkDim 0 0 1 0).
Definition hour : qunit := mkQU 3600 (mkDim 0 0 1 0).
Definition metre : qunit := mkQU 1 (mkDim 1 0 0 0).
Definition cm : qunit := mkQU (1 / 100) (mkDim 1 0 0 0).
Definition rad : qunit := mkQU 1 (mkDim 0 0 0 1).
Definition deg : qunit := mkQU (PI / 180) (mkDim 0 0 0 1).
Definition sr : qunit := mkQU 1 (mkDim 0 0 0 2).
Definition eV_in_J : R := 1602176634 / 10 ^ 28.
Definition TeV : qunit := mkQU (eV_in_J * 10 ^ 12) (mkDim 2 1 (-2) 0).
Definition GeV : qunit := mkQU (eV_in_J * 10 ^ 9) (mkDim 2 1 (-2) 0).
