(** * SpecInterp: vocabulary for the properties of pyirf.interpolation *)
From Coq Require Import Reals List.
From Verif Require Import Num SpecBinning SpecSimulations SpecIRF.
Import ListNotations.
Open Scope R_scope.

(** the measure of a bin: its width, or the solid angle between two cones (radian) *)
Inductive measured_by := ByWidth | BySolidAngle.
Definition measure (m : measured_by) : R -> R -> R := match m with ByWidth => width | BySolidAngle => ring_sr end.
(** usable bin edges: increasing, at least one bin; opening angles lie between 0 and 180 degree *)
Definition usable_edges (m : measured_by) (edges : list R) : Prop :=
  increasing edges /\ (2 <= List.length edges)%nat /\
  (m = BySolidAngle -> forall x, In x edges -> 0 <= x <= PI).
(** a histogram with [n] non-negative bins; not empty = its entries sum to more than 1e-8 *)
Definition histogram_of (n : nat) (h : list R) : Prop := List.length h = n /\ forall x, In x h -> 0 <= x.
Definition filled (h : list R) : Prop := 1/100000000 < total h.
Definition all_zero (l : list num) : Prop := forall x, In x l -> x = Fin 0.
Definition all_nan (l : list num) : Prop := forall x, In x l -> x = NaN.
(** [out] is a histogram (finite values) whose integral is 1 *)
Definition integrates_to_one (m : measured_by) (edges : list R) (out : list num) : Prop :=
  exists h, out = map Fin h /\ List.length h = (List.length edges - 1)%nat /\ integral_over (measure m) edges h = 1.
Definition nonnegative (out : list num) : Prop := forall x, In x out -> exists r, x = Fin r /\ 0 <= r.
(** [out] is the histogram [h], scaled such that its integral is 1 *)
Definition normalised (m : measured_by) (edges h : list R) (out : list num) : Prop :=
  integral_over (measure m) edges h <> 0 /\ out = map (fun x => Fin (x / integral_over (measure m) edges h)) h.
(** weights *)
Definition weighted (c v : list R) : R := total (map (fun p => fst p * snd p) (combine c v)).
(** [c] is 1 at position [k] and 0 elsewhere *)
Definition unit_weights (k : nat) (c : list R) : Prop :=
  (k < List.length c)%nat /\ forall i x, nth_error c i = Some x -> x = if Nat.eq_dec i k then 1 else 0.
(** [t] lies in the (closed) triangle: it is a mean of the corners with weights >= 0 *)
Definition in_triangle (p1 p2 p3 t : R * R) : Prop :=
  exists w1 w2 w3, 0 <= w1 /\ 0 <= w2 /\ 0 <= w3 /\ w1 + w2 + w3 = 1 /\
    w1 * fst p1 + w2 * fst p2 + w3 * fst p3 = fst t /\ w1 * snd p1 + w2 * snd p2 + w3 * snd p3 = snd t.

(** ** plane geometry *)
Definition distance (p q : R * R) : R := sqrt ((fst p - fst q) * (fst p - fst q) + (snd p - snd q) * (snd p - snd q)).
Definition on_segment (a b : R * R) (s : R) : R * R := (fst a + s * (fst b - fst a), snd a + s * (snd b - snd a)).
(** [d] is the smallest distance of [p] to a point of the segment from [a] to [b] *)
Definition distance_to_segment (a b p : R * R) (d : R) : Prop :=
  (exists s, 0 <= s <= 1 /\ distance p (on_segment a b s) = d) /\
  (forall s, 0 <= s <= 1 -> d <= distance p (on_segment a b s)).
(** the foot of the perpendicular from [p] is the point [on_segment a b s] of the line *)
Definition foot_at (a b p : R * R) (s : R) : Prop :=
  (fst p - fst (on_segment a b s)) * (fst b - fst a) + (snd p - snd (on_segment a b s)) * (snd b - snd a) = 0.
(** the foot does not fall close to (but not on) one of the end points *)
Definition foot_clear (s : R) : Prop :=
  s <= -6/1000000 \/ s = 0 \/ 1/100000000 < s < 1 - 1/100000000 \/ s = 1 \/ 1 + 6/1000000 <= s.
(** twice the area of the triangle *)
Definition doubled_area (a b c : R * R) : R := (fst b - fst a) * (snd c - snd a) - (snd b - snd a) * (fst c - fst a).
Definition proper_triangle (a b c : R * R) : Prop := doubled_area a b c <> 0.
(** a value given at some points of the plane is there an affine function of the coordinates *)
Definition affine_plane (f : R * R -> R) : Prop := exists a b c, forall p, f p = a * fst p + b * snd p + c.
Definition affine_line (f : R -> R) : Prop := exists a b, forall x, f x = a * x + b.
(** row [i] of [params] holds the values of the [n] functions [f 0], [f 1], ... at point [i] of the grid *)
Definition samples {P} (n : nat) (f : nat -> P -> R) (grid : list P) (params : list (list R)) : Prop :=
  List.length params = List.length grid /\
  forall i p row, nth_error grid i = Some p -> nth_error params i = Some row -> row = map (fun j => f j p) (seq 0 n).
Definition is_corner (p : R * R) (s : (R * R) * (R * R) * (R * R)) : Prop :=
  p = fst (fst s) \/ p = snd (fst s) \/ p = snd s.
(** moments of the bin centres of a histogram *)
Fixpoint moment (f : R -> R) (measure : R -> R -> R) (edges values : list R) : R :=
  match edges, values with
  | a :: ((b :: _) as edges'), v :: values' => f ((a + b) / 2) * (v * measure a b) + moment f measure edges' values'
  | _, _ => 0
  end.
(** the spread of a histogram: its standard deviation, or, if all content is in one bin, that of
    a uniform distribution in this bin *)
Definition spread (m : measured_by) (edges h : list R) (s : R) : Prop :=
  exists mu, moment (fun x => x - mu) (measure m) edges h = 0 /\
    ((0 < s /\ moment (fun x => (x - mu) * (x - mu)) (measure m) edges h = s * s * integral_over (measure m) edges h) \/
     (moment (fun x => (x - mu) * (x - mu)) (measure m) edges h = 0 /\
      exists i a b v, nth_error edges i = Some a /\ nth_error edges (S i) = Some b /\ nth_error h i = Some v /\
        v <> 0 /\ s = (b - a) / sqrt 12)).
(** a triangulation of points in the plane: simplices are proper triangles of points, every facet of the hull
    joins two different points and is a side of a simplex *)
Definition triangle_of (points : list (R * R)) (s : nat * nat * nat) (t : (R * R) * (R * R) * (R * R)) : Prop :=
  nth_error points (fst (fst s)) = Some (fst (fst t)) /\ nth_error points (snd (fst s)) = Some (snd (fst t)) /\
  nth_error points (snd s) = Some (snd t).
Definition side_of (points : list (R * R)) (f : nat * nat) (p q : R * R) : Prop :=
  nth_error points (fst f) = Some p /\ nth_error points (snd f) = Some q.
Definition good_mesh (points : list (R * R)) (simplices : list (nat * nat * nat)) (hull : list (nat * nat)) : Prop :=
  hull <> [] /\
  (forall s, In s simplices -> exists t, triangle_of points s t /\ proper_triangle (fst (fst t)) (snd (fst t)) (snd t)) /\
  (forall f, In f hull -> exists p q s t, side_of points f p q /\ p <> q /\ In s simplices /\ triangle_of points s t /\ is_corner p t /\ is_corner q t).
(** [c] are the weights that express [t] as a weighted mean of the corners *)
Definition barycentric (tri : (R * R) * (R * R) * (R * R)) (t : R * R) (c : list R) : Prop :=
  List.length c = 3%nat /\ total c = 1 /\
  weighted c [fst (fst (fst tri)); fst (snd (fst tri)); fst (snd tri)] = fst t /\
  weighted c [snd (fst (fst tri)); snd (snd (fst tri)); snd (snd tri)] = snd t.
(** [out] holds the weighted sums of the columns of [rows] *)
Definition weighted_columns (n : nat) (c : list R) (rows : list (list R)) (out : list R) : Prop :=
  List.length out = n /\ forall j x, nth_error out j = Some x -> x = weighted c (map (fun r => nth j r 0) rows).
(** what moment morphing can return for one slice: a histogram of [n] bins that is a density or is 0 everywhere,
    or NaN everywhere - the latter only if the weighted sum of the spreads of the templates is 0 *)
Definition cancelling (m : measured_by) (edges : list R) (templates : list (list R)) (c : list R) : Prop :=
  exists ss, List.length ss = List.length templates /\ weighted c ss = 0 /\
    forall i h s, nth_error templates i = Some h -> nth_error ss i = Some s -> spread m edges h s.
(** [o] is an acceptable extrapolation of one slice from [templates] with the weights [c] *)
Definition slice_result (m : measured_by) (edges : list R) (templates : list (list R)) (c : list R) (o : list num) : Prop :=
  List.length o = (List.length edges - 1)%nat /\
  ((nonnegative o /\ integrates_to_one m edges o) \/ all_zero o \/ (all_nan o /\ cancelling m edges templates c)) /\
  ((exists h, In h templates /\ ~ filled h) -> all_zero o).
(** every grid point has [n] slices of histograms that fit to the edges *)
Definition templates_of (n : nat) (edges : list R) (templates : list (list (list R))) : Prop :=
  forall t, In t templates -> List.length t = n /\ forall h, In h t -> histogram_of (List.length edges - 1) h.
(** [d] is the p-norm distance of two points given by their coordinates *)
Definition p_distance (p : nat) (a b : list R) (d : R) : Prop :=
  0 <= d /\ d ^ p = total (map (fun q => Rabs (fst q - snd q) ^ p) (combine a b)).
(** weights (position, weight) of a mean of some of [k] values *)
Definition mean_weights (k : nat) (weights : list (nat * R)) : Prop :=
  (forall i c, In (i, c) weights -> (i < k)%nat /\ 0 <= c) /\ total (map snd weights) = 1.
