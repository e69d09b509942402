(** * SpecMerge: results for the events of two samples and for both together *)
From Coq Require Import Reals List ZArith.
From Verif Require Import Num Tensor Simulations.
Import ListNotations.
Open Scope R_scope.

(** the same exception, or arrays of the same shape; where the entries of the two samples are numbers, the sum of them with
    weights [c1], [c2] is [c] times the entry of both together *)
Definition adds_up (c c1 c2 : R) (both one other : res tensor) : Prop :=
  match both, one, other with
  | Ok a, Ok a1, Ok a2 => shape a1 = shape a /\ shape a2 = shape a /\
      forall ix x1 x2, at_ a1 ix = Fin x1 -> at_ a2 ix = Fin x2 -> exists x, at_ a ix = Fin x /\ c * x = c1 * x1 + c2 * x2
  | Err e, Err e1, Err e2 => e1 = e /\ e2 = e
  | _, _, _ => False
  end.
(** simulations that differ in the number of showers only *)
Definition same_conditions (s s' : sim_info) : Prop :=
  energy_min s' = energy_min s /\ energy_max s' = energy_max s /\ max_impact s' = max_impact s /\ spectral_index s' = spectral_index s /\
  viewcone_min s' = viewcone_min s /\ viewcone_max s' = viewcone_max s.
