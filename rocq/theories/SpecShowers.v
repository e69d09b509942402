(** * SpecShowers: expected numbers of showers in double precision *)
From Coq Require Import Reals ZArith List.
From Verif Require Import Num SpecDouble Simulations.
Import ListNotations.
Open Scope R_scope.

(** energies in TeV: doubles from 10^-10 to 10^10 *)
Definition tev (x : R) : Prop := double x /\ / 10 ^ 10 <= x <= 10 ^ 10.
(** powers that are accurate to two units of relative precision *)
Definition accurate_power (pow : num -> num -> num) : Prop :=
  forall x p, double x -> / 10 ^ 13 <= x <= 10 ^ 13 -> double p -> -5 <= p <= 0 -> exists y, pow (Fin x) (Fin p) = Fin y /\ Rabs (y - Rpower x p) <= 2 * eps53 * Rpower x p.
(** the part of the simulated spectrum E^index between [lo] and [hi], both within the simulated range *)
Definition spectrum_share (index e_min e_max lo hi : R) : R :=
  (Rpower lo (index + 1) - Rpower hi (index + 1)) / (Rpower e_min (index + 1) - Rpower e_max (index + 1)).
(** how much the powers at both ends of the range differ: 1 for a wide range and a steep spectrum *)
Definition contrast (index e_min e_max : R) : R := 1 - Rpower (e_max / e_min) (index + 1).
(** simulations that are described by doubles *)
Definition usable_simulation (s : sim_info) : Prop :=
  tev (energy_min s) /\ tev (energy_max s) /\ energy_min s < energy_max s /\ double (spectral_index s) /\ -5 <= spectral_index s < -1 /\
  (1 <= n_showers s < 2 ^ 53)%Z.
(** the part of the solid angle of the viewcone between [lo] and [hi] *)
Definition cone_share (vmin vmax lo hi : R) : R := (cos lo - cos hi) / (cos vmin - cos vmax).
(** viewcones that are described by doubles, in radian, and are not tiny *)
Definition usable_cone (s : sim_info) : Prop :=
  double (viewcone_min s) /\ double (viewcone_max s) /\ 0 <= viewcone_min s /\ viewcone_max s <= PI /\
  / 10 ^ 8 <= cos (viewcone_min s) - cos (viewcone_max s) /\ viewcone_min s < viewcone_max s /\ (1 <= n_showers s < 2 ^ 53)%Z.
