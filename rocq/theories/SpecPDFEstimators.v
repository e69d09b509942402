(** * Specifications for the properties of EnergyDispersionEstimator and PSFTableEstimator *)
From Coq Require Import String Reals List Bool ZArith Arith Permutation.
From Verif Require Import Num SpecBinning SpecIRF SpecInterp Tensor Quantities SpecUnits Estimators SpecEstimators.
Import ListNotations.
Open Scope R_scope.

(** the histogram along axis [k] through [ix] of a result *)
Definition result_along (out : tensor) (k : nat) (ix : list nat) : list num :=
  map (fun m => at_ out (with_index ix k m)) (seq 0 (nth k (shape out) 0%nat)).
(** an array of histograms along axis [k] (counted from the start or, negative, from the end): first axis the grid points, then any other axes *)
Definition histograms_along (n_points n_bins : nat) (axis : Z) (k : nat) (a : array) : Prop :=
  (2 <= List.length (ashape a))%nat /\ axis_at (List.length (ashape a)) axis k /\ (1 <= k)%nat /\
  hd 0%nat (ashape a) = n_points /\ nth k (ashape a) 0%nat = n_bins /\
  forall ix, index_of (ashape a) ix -> 0 <= aat a ix.
(** on a one-dimensional grid: [p], [q] are the positions of the two grid points [a] <= [t] < [b] next to the target *)
Definition between (pts : list (list R)) (t : R) (p q : nat) (a b : R) : Prop :=
  nth_error pts p = Some [a] /\ nth_error pts q = Some [b] /\ a <= t < b /\ forall c, In [c] pts -> c <= a \/ b <= c.
(** the largest grid point *)
Definition largest (pts : list (list R)) (t : R) : Prop := In [t] pts /\ forall c, In [c] pts -> c <= t.
Definition outside (pts : list (list R)) (t : R) : Prop := (forall c, In [c] pts -> t < c) \/ (forall c, In [c] pts -> c < t).
(** the same grid points and arrays in another order *)
Definition reordered (pts pts' : list (list R)) (a a' : array) : Prop :=
  ashape a' = ashape a /\ List.length pts' = List.length pts /\
  exists s, Permutation s (seq 0 (List.length pts)) /\ forall i j, nth_error s i = Some j ->
    nth_error pts' i = nth_error pts j /\ forall ix, index_of (tl (ashape a)) ix -> aat a' (i :: ix) = aat a (j :: ix).
(** a target below or above all grid points: [p], [q] are the positions of the two smallest or of the two largest grid points [a] < [b] *)
Definition beyond (pts : list (list R)) (t : R) (p q : nat) (a b : R) : Prop :=
  nth_error pts p = Some [a] /\ nth_error pts q = Some [b] /\ a < b /\
  ((t < a /\ forall c, In [c] pts -> c = a \/ b <= c) \/ (b < t /\ forall c, In [c] pts -> c = b \/ c <= a)).
(** scipy: [Delaunay(points).find_simplex(t)] gives the corners of a triangle of the grid points that contains [t] (inside of the hull) *)
Definition in_plane (p : list R) : R * R := (nth 0 p 0, nth 1 p 0).
Definition simplex_finder (pts : list (list R)) (find : list (list R) -> list R -> nat * nat * nat) : Prop :=
  forall t, List.length t = 2%nat -> in_hull 2 pts t -> exists c1 c2 c3, triangle_of (map in_plane pts) (find pts t) (c1, c2, c3) /\
    proper_triangle c1 c2 c3 /\ in_triangle c1 c2 c3 (in_plane t).
(** the angles [bins], given in the unit [u], are [edges] in radian *)
Definition in_radian (bins : list R) (u : qunit) (edges : list R) : Prop := unit_of angle_dim u /\ edges = map (fun x => x * qu_scale u) bins.
Definition per_solid_angle : dim := mkDim 0 0 0 (-2).
(** no normalisation is given *)
Definition normalization_left_out (d : option kwargs) : Prop := match d with Some d => forall v, ~ In ("normalization"%string, v) d | None => True end.
