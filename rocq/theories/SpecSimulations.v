(** * SpecSimulations: shares of a distribution, simulated showers *)
From Coq Require Import Reals List Bool ZArith Lia Lra.
From Verif Require Import Num.
Import ListNotations.
Open Scope R_scope.

(** [P] is a primitive of the density on the domain *)
Definition primitive_on (dom : R -> Prop) (dens P : R -> R) : Prop :=
  forall x, dom x -> derivable_pt_lim P x (dens x).
(** a bin edge moved into the interval [a, b] *)
Definition into (a b : R) (x : num) : R :=
  match x with Fin r => Rmax a (Rmin b r) | PInf => b | _ => a end.
(** [v] is the share of the density on [a, b] that lies between [lo] and [hi]: the
    integral over the common part divided by the integral over [a, b] *)
Definition share (dom : R -> Prop) (dens : R -> R) (a b : R) (lo hi : num) (v : R) : Prop :=
  exists P, primitive_on dom dens P /\ P a <> P b /\
    v * (P b - P a) = P (into a b hi) - P (into a b lo).
(** CORSIKA's energy spectrum, and the distribution of the angular distance to the centre
    of showers that are uniform per solid angle *)
Definition positive (x : R) : Prop := 0 < x.
Definition power_law (index : R) : R -> R := fun e => Rpower e index.
Definition everywhere (x : R) : Prop := True.
Definition per_solid_angle : R -> R := sin.
(** an energy bin: non-negative, ordered (the upper edge may be infinite) *)
Definition energy_bin (lo hi : num) : Prop := nle (Fin 0) lo = true /\ nle lo hi = true.
(** the bin sticks out of [a, b] on both sides *)
Definition overhangs (a b : R) (lo hi : num) : Prop := nlt lo (Fin a) = true /\ nlt (Fin b) hi = true.
(** the bins cover [a, b] *)
Definition covers (bins : list num) (a b : R) : Prop :=
  (exists first, nth_error bins 0 = Some first /\ nle first (Fin a) = true) /\
  (exists last, nth_error bins (List.length bins - 1) = Some last /\ nle (Fin b) last = true).
(** ** sky regions *)
From Verif Require Import SpecUtils.
(** [d] is the distance of the direction (lon, lat) to the centre of the field of view *)
Definition fov_distance (lon lat d : R) : Prop := angle_between (direction lon lat) (direction 0 0) d.
(** solid angle of a lon/lat rectangle, of the ring vmin < theta < vmax *)
Definition rectangle_sr (lon lon' lat lat' : R) : R := (lon' - lon) * (sin lat' - sin lat).
Definition ring_sr (vmin vmax : R) : R := 2 * PI * (cos vmin - cos vmax).
(** [x] is entry (i, j, k) of a three-dimensional array *)
Definition entry3 {A} (a : list (list (list A))) (i j k : nat) (x : A) : Prop :=
  exists m r, nth_error a i = Some m /\ nth_error m j = Some r /\ nth_error r k = Some x.
(** the array has the given shape *)
Definition shape3 {A} (a : list (list (list A))) (n1 n2 n3 : nat) : Prop :=
  List.length a = n1 /\ forall m, In m a -> List.length m = n2 /\ forall r, In r m -> List.length r = n3.
