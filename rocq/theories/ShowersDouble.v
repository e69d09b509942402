(** * ShowersDouble: expected numbers of showers in double precision.  Energies in TeV, angles in radian *)
From Coq Require Import Reals List Bool ZArith.
From Verif Require Import Num Numpy Binning Simulations Double.
Import ListNotations.
Open Scope R_scope.

(** simulations.py:290-300 [_powerlaw_pdf_integral], one bin, as [Simulations.powerlaw_pdf_integral] with every operation
    rounded.  [pow]: numpy's power of two doubles *)
Definition powerlaw_pdf_double (pow : num -> num -> num) (index e_low e_high e_min e_max : num) : num :=
  let int_index := fadd index (Fin 1) in
  let normalization := fdiv (Fin 1) (fsub (pow e_max int_index) (pow e_min int_index)) in
  let e_term := fsub (pow e_high int_index) (pow e_low int_index) in
  fmul e_term normalization.
(** simulations.py:98-115, one bin: the masked assignments in order *)
Definition energy_integral_double (pow : num -> num -> num) (s : sim_info) (e_low e_high : num) : num :=
  let e_min := Fin (energy_min s) in
  let e_max := Fin (energy_max s) in
  let pdf := powerlaw_pdf_double pow (Fin (spectral_index s)) in
  let integral := pdf e_low e_high e_min e_max in
  let integral := if nle e_high e_min then Fin 0 else integral in
  let integral := if nge e_low e_max then Fin 0 else integral in
  let integral := if ngt e_high e_max && nlt e_low e_max then pdf e_low e_max e_min e_max else integral in
  let integral := if ngt e_high e_min && nlt e_low e_min then pdf e_min e_high e_min e_max else integral in
  integral.
(** simulations.py:71-115 [calculate_n_showers_per_energy] *)
Definition calculate_n_showers_per_energy_double (pow : num -> num -> num) (s : sim_info) (energy_bins : list num) : list num :=
  zipwith (fun lo hi => fmul (nz (n_showers s)) (energy_integral_double pow s lo hi)) (but_last energy_bins) (tl energy_bins).
(** simulations.py:303-331 [_viewcone_pdf_integral], one bin, as [Simulations.viewcone_bin].  [cosine]: numpy's cosine *)
Definition viewcone_bin_double (cosine : num -> num) (vmin vmax fov_low fov_high : R) : num :=
  let norm := fdiv (Fin 1) (fsub (cosine (Fin vmin)) (cosine (Fin vmax))) in
  let integral :=
    if Rleb vmin fov_high && Rleb fov_low vmax then
      let lower := if Rltb vmin fov_low then fov_low else vmin in
      let upper := if Rltb fov_high vmax then fov_high else vmax in
      fsub (cosine (Fin lower)) (cosine (Fin upper))
    else Fin 0 in
  fmul integral norm.
(** simulations.py:117-141 [calculate_n_showers_per_fov] *)
Definition calculate_n_showers_per_fov_double (cosine : num -> num) (s : sim_info) (fov_bins : list R) : res (list num) :=
  if Reqb (viewcone_max s - viewcone_min s) 0 then Err ValueError
  else Ok (zipwith (fun lo hi => fmul (nz (n_showers s)) (viewcone_bin_double cosine (viewcone_min s) (viewcone_max s) lo hi)) (but_last fov_bins) (tl fov_bins)).
