(** * SpecIRF *)
From Coq Require Import Reals List.
From Verif Require Import Num SpecBinning SpecSimulations.
Import ListNotations.
Open Scope R_scope.

(** integral of a step function: sum of value times measure of the bin *)
Fixpoint integral_over (measure : R -> R -> R) (edges values : list R) : R :=
  match edges, values with
  | a :: ((b :: _) as edges'), v :: values' => v * measure a b + integral_over measure edges' values'
  | _, _ => 0
  end.
Definition width (a b : R) : R := b - a.
Definition deg (x : R) : R := x * (PI / 180).
(** solid angle between two angular distances given in degree *)
Definition ring_deg (a b : R) : R := ring_sr (deg a) (deg b).
Definition rectangle_deg (lon lon' lat lat' : R) : R := rectangle_sr (deg lon) (deg lon') (deg lat) (deg lat').
(** the sum of a list *)
Fixpoint total (l : list R) : R := match l with [] => 0 | a :: l' => a + total l' end.
(** increasing angles from >= 0 to <= 180 degree *)
Definition angles (l : list R) : Prop := increasing l /\ forall x, In x l -> 0 <= x <= 180.
(** increasing latitudes *)
Definition latitudes (l : list R) : Prop := increasing l /\ forall x, In x l -> -90 <= x <= 90.
(** all bins have the same width *)
Definition uniform (l : list R) : Prop :=
  exists w, forall i a b, nth_error l i = Some a -> nth_error l (S i) = Some b -> b - a = w.
(** [ix] is an index of an array of this shape *)
Definition index_of (shape ix : list nat) : Prop := Forall2 (fun i d => (i < d)%nat) ix shape.
(** [x] is the effective area if [k] of [n] showers simulated on [area] are selected; without
    simulated showers it is NaN, or infinite if an event was selected nevertheless *)
Definition collection_area (k n area : R) (x : num) : Prop :=
  (0 < n /\ exists A, x = Fin A /\ A * n = k * area /\ 0 <= A /\ (k <= n -> A <= area)) \/
  (n = 0 /\ k = 0 /\ x = NaN) \/ (n = 0 /\ 0 < k /\ x = PInf).
(** the sum of the values with numbers i, ..., j - 1 *)
Definition between (i j : nat) (l : list R) : R := total (firstn j l) - total (firstn i l).
(** the probabilities of the migration bins, from the densities of one (true energy, fov) bin *)
Fixpoint bin_probabilities (edges density : list R) : list R :=
  match edges, density with
  | a :: ((b :: _) as edges'), d :: density' => d * (b - a) :: bin_probabilities edges' density'
  | _, _ => []
  end.
