(** * SpecSpectral: interpolation in a table of points, given in any order *)
From Coq Require Import Reals List Bool ZArith Lia Lra.
Import ListNotations.
Open Scope R_scope.

(** [y] is the value at [x] of the polygon through the points: [x] lies on the chord between
    two neighbouring points, or beyond the last chord on either side *)
Definition on_polygon (pts : list (R * R)) (x y : R) : Prop :=
  exists x1 y1 x2 y2, In (x1, y1) pts /\ In (x2, y2) pts /\ x1 < x2 /\
    (forall x3 y3, In (x3, y3) pts -> x3 <= x1 \/ x2 <= x3) /\
    (x1 <= x \/ forall x3 y3, In (x3, y3) pts -> x1 <= x3) /\
    (x <= x2 \/ forall x3 y3, In (x3, y3) pts -> x3 <= x2) /\
    y = y1 + (x - x1) / (x2 - x1) * (y2 - y1).
(** decimal logarithm *)
Definition log10_of (x l : R) : Prop := Rpower 10 l = x.
(** [c] is the coordinate of [v] on a linear or a logarithmic axis *)
Definition on_axis (logarithmic : bool) (v c : R) : Prop :=
  if logarithmic then log10_of v c else c = v.
