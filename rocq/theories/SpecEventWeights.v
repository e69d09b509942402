(** * SpecEventWeights: event weights in double precision *)
From Coq Require Import Reals ZArith List.
From Verif Require Import Num SpecDouble Simulations Spectral SpecShowers.
Import ListNotations.
Open Scope R_scope.

(** doubles from 10^-n to 10^n *)
Definition sized (n : nat) (x : R) : Prop := double x /\ / 10 ^ n <= x <= 10 ^ n.
Notation usual := (sized 6).
(** the solid angle of the simulated directions: 1 if there is only one direction *)
Definition simulated_solid_angle (s : sim_info) (omega : R) : Prop :=
  (viewcone_min s = viewcone_max s /\ omega = 1) \/
  (viewcone_min s < viewcone_max s /\ omega = 2 * PI * (cos (viewcone_min s) - cos (viewcone_max s))).
(** simulated showers per energy, time, area and solid angle: [n_showers] showers are distributed like E^index *)
Definition simulated_flux (s : sim_info) (obstime omega energy : R) : R :=
  let p := spectral_index s + 1 in
  IZR (n_showers s) * (p * Rpower energy (spectral_index s) / (Rpower (energy_max s) p - Rpower (energy_min s) p))
  / (PI * max_impact s ^ 2 * obstime * omega).
(** the flux of a power law *)
Definition power_law_flux (norm index e_ref energy : R) : R := norm * Rpower (energy / e_ref) index.
(** simulations in the usual units *)
Definition usual_simulation (s : sim_info) : Prop :=
  usual (energy_min s) /\ usual (energy_max s) /\ energy_min s < energy_max s /\ double (spectral_index s) /\ -5 <= spectral_index s < -1 /\
  / 10 ^ 8 <= contrast (spectral_index s) (energy_min s) (energy_max s) /\ usual (max_impact s) /\ (1 <= n_showers s < 2 ^ 53)%Z /\
  double (viewcone_min s) /\ double (viewcone_max s) /\ 0 <= viewcone_min s /\ viewcone_max s <= PI /\
  (viewcone_min s = viewcone_max s \/ (viewcone_min s < viewcone_max s /\ / 10 ^ 8 <= cos (viewcone_min s) - cos (viewcone_max s))).
(** how much is lost when powers and cosines are subtracted *)
Definition loss (s : sim_info) (l : R) : Prop :=
  (viewcone_min s = viewcone_max s /\ l = / contrast (spectral_index s) (energy_min s) (energy_max s)) \/
  (viewcone_min s < viewcone_max s /\
   l = / contrast (spectral_index s) (energy_min s) (energy_max s) + / (cos (viewcone_min s) - cos (viewcone_max s))).
