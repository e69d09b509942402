(** * Specifications used in the properties of the estimators of pyirf/interpolation *)
From Coq Require Import Reals List Bool ZArith Arith Lia Lra Permutation.
From Verif Require Import SpecBinning Num Estimators SpecIRF SpecInterp.
Import ListNotations.
Open Scope R_scope.

(** all points have [d] coordinates *)
Definition of_dimension (d : nat) (pts : list (list R)) : Prop := forall p, In p pts -> List.length p = d.
(** [t] is a mean of the points with weights >= 0 *)
Definition in_hull (d : nat) (pts : list (list R)) (t : list R) : Prop :=
  exists c, List.length c = List.length pts /\ (forall x, In x c -> 0 <= x) /\ total c = 1 /\
    forall j, (j < d)%nat -> weighted c (map (fun p => nth j p 0) pts) = nth j t 0.
(** scipy: [Delaunay(points).find_simplex(t) >= 0] tells if [t] is in the hull of the points *)
Definition hull_test (d : nat) (pts : list (list R)) (inside : list (list R) -> list R -> bool) : Prop :=
  (2 <= d)%nat -> forall t, List.length t = d -> (inside pts t = true <-> in_hull d pts t).
(** points with one coordinate in increasing order *)
Definition in_order (pts : list (list R)) : Prop := increasing (map (fun p => nth 0 p 0) pts).
(** scipy: linear interpolation inside of the hull: a mean of the values at some points with weights >= 0; the
    same mean of the points is the target; at one of the points the value there *)
Definition linear_interpolation (d : nat) (pts : list (list R)) (choose : list (list R) -> list R -> list (nat * R)) : Prop :=
  forall t, List.length t = d -> in_hull d pts t ->
    mean_weights (List.length pts) (choose pts t) /\
    (forall j, (j < d)%nat -> total (map (fun ic => snd ic * nth j (nth (fst ic) pts []) 0) (choose pts t)) = nth j t 0) /\
    (In t pts -> forall i c, In (i, c) (choose pts t) -> c <> 0 -> nth_error pts i = Some t).
(** the entry [j] of template [i] *)
Definition entry (templates : list (list R)) (i j : nat) : R := nth j (nth i templates []) 0.
(** tables of [n] entries each *)
Definition tables (n : nat) (templates : list (list R)) : Prop := forall r, In r templates -> List.length r = n.
(** an array of floats with [d] columns (an array with one axis: one column) *)
Definition float_grid (g : grid_arg) (d : nat) (pts : list (list R)) : Prop :=
  (exists l, g = G1 l /\ d = 1%nat /\ pts = map (fun x => [x]) l) \/ (g = G2 d pts /\ of_dimension d pts).
Definition not_a_float_array (g : grid_arg) : Prop := g = GNotArray \/ g = GObject \/ g = GNotFloat.
(** the points and templates in the order in which they are passed to the inter- and extrapolators *)
Definition arranged {T} (d : nat) (pts : list (list R)) (tm : list T) (pts' : list (list R)) (tm' : list T) : Prop :=
  List.length tm' = List.length pts' /\ Permutation (combine pts tm) (combine pts' tm') /\
  (d <> 1%nat -> pts' = pts /\ tm' = tm) /\
  (d = 1%nat -> forall i a b, nth_error pts' i = Some a -> nth_error pts' (S i) = Some b -> nth 0 a 0 <= nth 0 b 0).
(** scipy's interpolation for the points as they are passed to the interpolator (one dimension: sorted) *)
Definition served (d : nat) (pts : list (list R)) (choose : list (list R) -> list R -> list (nat * R)) : Prop :=
  (d = 1%nat -> forall pts', Permutation pts pts' -> in_order pts' -> linear_interpolation d pts' choose) /\
  (d <> 1%nat -> linear_interpolation d pts choose).

(** ** rad max tables *)
(** the fill value: given, or the largest entry of the tables *)
Definition fill_used (a : fill_arg) (tables : list (list R)) (f : R) : Prop :=
  a = FillValue f \/ (a = FillInfer /\ (exists r, In r tables /\ In f r) /\ forall r v, In r tables -> In v r -> v <= f).
(** the positions k, k+1 of the two grid points next to [x] *)
Definition left_neighbour (xs : list R) (x : R) (k : nat) : Prop :=
  (k = 0%nat /\ forall y, In y xs -> x < y) \/
  (k = (List.length xs - 2)%nat /\ forall y, In y xs -> y < x) \/
  (exists a b, nth_error xs k = Some a /\ nth_error xs (S k) = Some b /\ a <= x < b).
(** the result [v] for the entries [a], [b] ([c]) of the neighbours and the estimate [e] *)
Definition fill_rule_1 (f a b e v : R) : Prop :=
  ((f <= a \/ f <= b) -> v = f) /\ (a < f -> b < f -> v = Rmin e f).
Definition fill_rule_2 (f a b c e v : R) : Prop :=
  ((f <= a /\ f <= b) \/ (f <= a /\ f <= c) \/ (f <= b /\ f <= c) -> v = f) /\
  (f <= a -> b < f -> c < f -> v = Rmin b c) /\
  (f <= b -> a < f -> c < f -> v = Rmin a c) /\
  (f <= c -> a < f -> b < f -> v = Rmin a b) /\
  (a < f -> b < f -> c < f -> v = Rmin e f).
(** one target point *)
Definition one_target (tgt : target_arg) (t : list R) : Prop := tgt = TFlat t \/ tgt = TRows [t].

(** ** axes *)
(** position of an axis that may be negative *)
Definition axis_at (n_axes : nat) (axis : Z) (k : nat) : Prop :=
  (k < n_axes)%nat /\ (axis = Z.of_nat k \/ axis = (Z.of_nat k - Z.of_nat n_axes)%Z).
(** the index [ix] with position [k] replaced by [m] *)
Definition with_index (ix : list nat) (k m : nat) : list nat := firstn k ix ++ m :: skipn (S k) ix.
(** the histogram along axis [k] through [ix], of the grid point [p] *)
Definition histogram_along (a : array) (k : nat) (ix : list nat) (p : nat) : list R :=
  map (fun m => aat a (with_index (with_index ix 0 p) k m)) (seq 0 (nth k (ashape a) 0%nat)).
