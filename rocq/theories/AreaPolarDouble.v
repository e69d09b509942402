(** * AreaPolarDouble: showers and effective areas in energy, field of view and position angle in double precision *)
From Coq Require Import Reals List ZArith.
From Verif Require Import Num Table Tensor Simulations IRF Double ShowersDouble AreaDouble.
Import ListNotations.
Open Scope R_scope.

(** simulations.py:178-219 [calculate_n_showers_3d_polar]; the viewcone and its edges in line 210 are in the same unit, radian, where the code has
    degree; the position angle bins only enter through their number *)
Definition calculate_n_showers_3d_polar_double (pow : num -> num -> num) (cosine : num -> num) (s : sim_info)
    (energy_bins : list num) (fov_offset_bins pa_bins : list R) : res (list (list (list num))) :=
  do e_fov <- calculate_n_showers_per_energy_and_fov_double pow cosine s energy_bins fov_offset_bins;
  do viewcone_integral <- calculate_n_showers_per_fov_double cosine s [viewcone_min s; viewcone_max s];
  let n_bins_pa := (length pa_bins - 1)%nat in
  match viewcone_integral with
  | [v] =>
      let position_angle_integral := repeat (fdiv v (nz (Z.of_nat n_bins_pa))) n_bins_pa in
      Ok (map (fun row => map (fun x =>
            map (fun p => fdiv (fmul x p) (nz (n_showers s))) position_angle_integral) row) e_fov)
  | _ => Err ValueError
  end.
(** effective_area.py:92-139 with effective_area.py:15-29; [fov_bins] are the edges in degree, [fov_rad] the same edges in radian, after the
    conversion. [np.pi * simulation_info.max_impact**2]: the square is a product *)
Definition effective_area_3d_polar_double (pow : num -> num -> num) (cosine : num -> num) (events : list dl2) (s : sim_info)
    (energy_bins : list num) (fov_bins fov_rad pa_bins : list R) : res tensor :=
  let area := fmul (fl PI) (fmul (Fin (max_impact s)) (Fin (max_impact s))) in
  do hist_simulated <- calculate_n_showers_3d_polar_double pow cosine s energy_bins fov_rad pa_bins;
  do hist_selected <- histogramdd [(true_energy, energy_bins); (true_fov_offset, map Fin fov_bins); (true_fov_pa, map Fin pa_bins)] unweighted events;
  do ratio <- tbin fdiv hist_selected (of_lists3 hist_simulated);
  Ok (tmap (fun x => fmul x area) ratio).
