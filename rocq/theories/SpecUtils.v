(** * SpecUtils: directions on the sphere, physical values, required columns. *)
From Coq Require Import String Reals List Bool ZArith Lra.
From Verif Require Import Num Table.
Import ListNotations.
Open Scope R_scope.

(** unit vector of a direction *)
Definition direction (lon lat : R) : R * R * R := (cos lat * cos lon, cos lat * sin lon, sin lat).
Definition dot3 (a b : R * R * R) : R :=
  let '(a1, a2, a3) := a in let '(b1, b2, b3) := b in a1 * b1 + a2 * b2 + a3 * b3.
(** [t] is the angle between two directions *)
Definition angle_between (d1 d2 : R * R * R) (t : R) : Prop := 0 <= t <= PI /\ cos t = dot3 d1 d2.

(** the value in base units *)
Definition physical (u : unit_) (x : num) : num := nmul (Fin (u_scale u)) x.
(** two edge columns (values, unit) agree: same length, same dimension, no NaN, same
    physical values *)
Definition same_edges (l1 : list num) (u1 : unit_) (l2 : list num) (u2 : unit_) : Prop :=
  u_dim u1 = u_dim u2 /\
  forall i x y, nth_error l1 i = Some x -> nth_error l2 i = Some y ->
    x <> NaN /\ physical u1 x = physical u2 y.

(** a column satisfies a required unit *)
Definition has_unit (t : list (string * arr)) (c : string) (expected : unit_) : Prop :=
  exists a u, getitem t c = Some a /\ a_unit a = Some u /\ u_dim u = u_dim expected.
