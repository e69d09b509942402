(** * SpecArea: simulations for effective areas in double precision *)
From Coq Require Import Reals ZArith List.
From Verif Require Import Num SpecDouble Simulations SpecShowers SpecEventWeights.
Open Scope R_scope.

(** the part of the simulated spectrum in the bin from [lo] to [hi] *)
Definition bin_share (s : sim_info) (lo hi : R) : R :=
  spectrum_share (spectral_index s) (energy_min s) (energy_max s) (Rmax lo (energy_min s)) (Rmin hi (energy_max s)).
(** the simulated range and the bin overlap, but the bin does not reach beyond both ends *)
Definition overlaps (s : sim_info) (lo hi : R) : Prop :=
  energy_min s < hi /\ lo < energy_max s /\ ~ (lo < energy_min s /\ energy_max s < hi).
(** how many digits are left in the number of showers of the bin *)
Definition digits (s : sim_info) (lo hi : R) : R :=
  contrast (spectral_index s) (energy_min s) (energy_max s) * bin_share s lo hi.
Definition cone_part (s : sim_info) (lo hi : R) : R :=
  cone_share (viewcone_min s) (viewcone_max s) (Rmax lo (viewcone_min s)) (Rmin hi (viewcone_max s)).
(** how many digits are left in the number of showers of a bin in energy and field of view *)
Definition fov_digits (s : sim_info) (lo hi flo fhi : R) : R :=
  bin_share s lo hi * cone_part s flo fhi /
  (/ contrast (spectral_index s) (energy_min s) (energy_max s) + / (cos (viewcone_min s) - cos (viewcone_max s))).
