(** * AreaFovDouble: effective areas in energy and field of view in double precision. Energies in TeV, lengths in m *)
From Coq Require Import Reals List.
From Verif Require Import Num Table Tensor Simulations IRF Double ShowersDouble AreaDouble.
Import ListNotations.
Open Scope R_scope.

(** effective_area.py:55-89 with effective_area.py:15-29; [fov_bins] are the edges in degree ([fov_offset_bins.to_value(u.deg)]),
    [fov_rad] the same edges in radian (simulations.py:320-326),
    both after the conversion; the viewcone is in radian.
    [np.pi * simulation_info.max_impact ** 2]: the square is a product *)
Definition effective_area_per_energy_and_fov_double (pow : num -> num -> num) (cosine : num -> num) (events : list dl2) (s : sim_info)
    (energy_bins : list num) (fov_bins fov_rad : list R) : res tensor :=
  let area := fmul (fl PI) (fmul (Fin (max_impact s)) (Fin (max_impact s))) in
  do hist_simulated <- calculate_n_showers_per_energy_and_fov_double pow cosine s energy_bins fov_rad;
  do hist_selected <- histogramdd [(true_energy, energy_bins); (true_fov_offset, map Fin fov_bins)] unweighted events;
  do ratio <- tbin fdiv hist_selected (of_lists2 hist_simulated);
  Ok (tmap (fun x => fmul x area) ratio).
