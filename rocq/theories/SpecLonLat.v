(** * SpecLonLat: what calculate_n_showers_3d_lonlat computes for partially covered bins *)
From Coq Require Import Reals List ZArith.
From Verif Require Import SpecBinning SpecSimulations.
Import ListNotations.
Open Scope R_scope.

(** the direction (radian) is in the ring vmin <= theta <= vmax around the field of view centre *)
Definition in_ring (vmin vmax lon lat : R) : Prop := exists d, fov_distance lon lat d /\ vmin <= d <= vmax.
(** every grid corner has the property [P]; the edges are numbers in units of ulon and ulat radian *)
Definition corners (ulon ulat : R) (lon lat : list R) (P : R -> Prop) : Prop :=
  forall x y d, In x lon -> In y lat -> fov_distance (x * ulon) (y * ulat) d -> P d.
(** centre of the [p]-th of [n] equal parts of [x0, x0 + w] *)
Definition part_centre (x0 w : R) (n p : nat) : R := x0 + w * (INR p + 1/2) / INR n.
(** half of the diagonal of the first bin *)
Inductive half_diagonal (ulon ulat : R) : list R -> list R -> R -> Prop :=
| half_diag l0 l1 lon b0 b1 lat : half_diagonal ulon ulat (l0 :: l1 :: lon) (b0 :: b1 :: lat)
    (sqrt (Rsqr ((l1 - l0) * ulon) + Rsqr ((b1 - b0) * ulat)) / 2).
(** the centre of the bin is closer than half of the diagonal to the border of the ring *)
Definition near_border (vmin vmax ulon ulat : R) (lon lat : list R) (l l' b b' : R) : Prop :=
  exists d h, fov_distance ((l + l') / 2 * ulon) ((b + b') / 2 * ulat) d /\ half_diagonal ulon ulat lon lat h /\
    (Rabs (d - vmax) < h \/ Rabs (d - vmin) < h).
(** the coverage used for the bin [l, l'] x [b, b'] of the grid: nothing or everything when all grid corners are outside
    or inside; else, near to the border, the share of n x n points of the bin - with the size of the FIRST bin and
    with all numbers read as DEGREE - which are in the ring; else by the centre of the bin *)
Inductive coverage (vmin vmax ulon ulat : R) (lon lat : list R) (n : nat) (l l' b b' : R) : R -> Prop :=
| cov_outside :
    corners ulon ulat lon lat (fun d => d <= vmin) \/ corners ulon ulat lon lat (fun d => vmax <= d) ->
    coverage vmin vmax ulon ulat lon lat n l l' b b' 0
| cov_inside :
    ~ (corners ulon ulat lon lat (fun d => d <= vmin) \/ corners ulon ulat lon lat (fun d => vmax <= d)) ->
    corners ulon ulat lon lat (fun d => vmin <= d <= vmax) ->
    coverage vmin vmax ulon ulat lon lat n l l' b b' 1
| cov_points m wl wb :
    ~ (corners ulon ulat lon lat (fun d => d <= vmin) \/ corners ulon ulat lon lat (fun d => vmax <= d)) ->
    ~ corners ulon ulat lon lat (fun d => vmin <= d <= vmax) ->
    near_border vmin vmax ulon ulat lon lat l l' b b' ->
    nth 1 lon 0 - nth 0 lon 0 = wl -> nth 1 lat 0 - nth 0 lat 0 = wb ->
    number_of (fun pq => in_ring vmin vmax (part_centre l wl n (snd pq) * (PI / 180)) (part_centre b wb n (fst pq) * (PI / 180)))
      (list_prod (seq 0 n) (seq 0 n)) m ->
    coverage vmin vmax ulon ulat lon lat n l l' b b' (INR m / (INR n * INR n))
| cov_centre c :
    ~ (corners ulon ulat lon lat (fun d => d <= vmin) \/ corners ulon ulat lon lat (fun d => vmax <= d)) ->
    ~ corners ulon ulat lon lat (fun d => vmin <= d <= vmax) ->
    ~ near_border vmin vmax ulon ulat lon lat l l' b b' ->
    (in_ring vmin vmax ((l + l') / 2 * ulon) ((b + b') / 2 * ulat) -> c = 1) ->
    (~ in_ring vmin vmax ((l + l') / 2 * ulon) ((b + b') / 2 * ulat) -> c = 0) ->
    coverage vmin vmax ulon ulat lon lat n l l' b b' c.
