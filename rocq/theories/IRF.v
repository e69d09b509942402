(** * IRF: model of pyirf/irf.  Energies in TeV; offsets, longitudes and latitudes in degree,
    position angles in radian, areas in m^2 *)
From Coq Require Import String Reals List Bool ZArith Lia Lra.
From Verif Require Import Num Numpy Table Binning Utils Simulations Tensor.
Import ListNotations.
Open Scope R_scope.

(** the columns of a DL2 table used here *)
Record dl2 := mkDL2 {
  true_energy : num; reco_energy : num; true_fov_offset : num; theta : num;
  true_fov_pa : num; true_fov_lon : num; true_fov_lat : num;
  reco_fov_offset : num; reco_fov_lon : num; reco_fov_lat : num; weight : R }.
Definition unweighted (_ : dl2) : R := 1.

(** ** irf/effective_area.py *)
(** effective_area.py:15-29 *)
Definition effective_area (n_selected n_simulated : tensor) (area : R) : res tensor :=
  do ratio <- tbin ndiv n_selected n_simulated;
  Ok (tmap (fun x => nmul x (Fin area)) ratio).
Definition impact_area (s : sim_info) : R := PI * (max_impact s * max_impact s).
(** effective_area.py:32-52; [events] with the true energies in [ev_x] *)
Definition effective_area_per_energy (events : etable) (s : sim_info) (bins : list num) : res tensor :=
  do hist_selected <- create_histogram_table events bins "true_energy";
  match getitem hist_selected "n" with
  | Some (CZ n) =>
      effective_area (vec (map nz n)) (vec (calculate_n_showers_per_energy s bins)) (impact_area s)
  | _ => Err KeyError
  end.
Definition to_rad (deg : list R) : list R := map (fun x => x * degree) deg.
(** effective_area.py:55-89 *)
Definition effective_area_per_energy_and_fov (events : list dl2) (s : sim_info) (energy_bins : list num) (fov_bins : list R)
    : res tensor :=
  do hist_simulated <- calculate_n_showers_per_energy_and_fov s energy_bins (to_rad fov_bins);
  do hist_selected <- histogramdd [(true_energy, energy_bins); (true_fov_offset, map Fin fov_bins)] unweighted events;
  effective_area hist_selected (of_lists2 hist_simulated) (impact_area s).
(** effective_area.py:92-139 *)
Definition effective_area_3d_polar (events : list dl2) (s : sim_info) (energy_bins : list num) (fov_bins pa_bins : list R)
    : res tensor :=
  do hist_simulated <- calculate_n_showers_3d_polar s energy_bins (to_rad fov_bins) pa_bins;
  do hist_selected <- histogramdd [(true_energy, energy_bins); (true_fov_offset, map Fin fov_bins); (true_fov_pa, map Fin pa_bins)] unweighted events;
  effective_area hist_selected (of_lists3 hist_simulated) (impact_area s).
(** effective_area.py:142-190 (edges in degree) *)
Definition effective_area_3d_lonlat (events : list dl2) (s : sim_info) (energy_bins : list num) (lon lat : list R) (subpixels : nat)
    : res tensor :=
  do hist_simulated <- calculate_n_showers_3d_lonlat s energy_bins degree degree lon lat subpixels;
  do hist_selected <- histogramdd [(true_energy, energy_bins); (true_fov_lon, map Fin lon); (true_fov_lat, map Fin lat)] unweighted events;
  effective_area hist_selected (of_lists3 hist_simulated) (impact_area s).

(** ** irf/energy_dispersion.py *)
Definition default_nan_to_num : num -> num := nan_to_num (Fin fmax) (Fin (- fmax)).
(** energy_dispersion.py:14-29 [_normalize_hist]; [bin_width[np.newaxis, :, np.newaxis]] is
    [newaxis 1] of the vector: the missing leading axis is added by broadcasting *)
Definition normalize_hist (hist : tensor) (migration_bins : list num) : res tensor :=
  let bin_width := ndiff migration_bins in
  let norm := tsum 1 hist in
  do h <- tbin ndiv hist (newaxis 1 norm);
  do h <- tbin ndiv h (newaxis 1 (vec bin_width));
  Ok (tmap default_nan_to_num h).
(** energy_dispersion.py:32-84 *)
Definition energy_dispersion (events : list dl2) (true_energy_bins fov_offset_bins migration_bins : list num) : res tensor :=
  let mu e := ndiv (reco_energy e) (true_energy e) in
  do hist <- histogramdd [(true_energy, true_energy_bins); (mu, migration_bins); (true_fov_offset, fov_offset_bins)] unweighted events;
  normalize_hist hist migration_bins.
(** energy_dispersion.py:87-134 *)
Definition energy_migration_matrix (events : list dl2) (true_energy_bins reco_energy_bins fov_offset_bins : list num) : res tensor :=
  do hist <- histogramdd [(true_energy, true_energy_bins); (reco_energy, reco_energy_bins); (true_fov_offset, fov_offset_bins)] unweighted events;
  do h <- tbin ndiv hist (newaxis 1 (tsum 1 hist));
  Ok (tmap (fun x => if is_nan x then Fin 0 else x) h).
(** energy_dispersion.py:137-217 [energy_dispersion_to_migration], for finite values (exact
    reals); [disp i j k] with [n_true x n_migra x n_fov] entries; the result is indexed
    [idx], [fov], [reco] *)
Definition energy_dispersion_to_migration (itp : list R -> list R -> R -> R)
    (disp : nat -> nat -> nat -> R) (n_true n_migra n_fov : nat)
    (disp_true_edges disp_migration_edges new_true_edges new_reco_edges : list R) : res (list (list (list R))) :=
  let migra_width := diffR disp_migration_edges in
  let probability i j k := disp i j k * nth j migra_width 0 in
  (* true_energy_interpolation, per fov bin and migration bin: list over the new true energy bins *)
  do tei <- rmap (fun k => rmap (fun j =>
      resample_histogram1d itp false (map (fun i => probability i j k) (seq 0 n_true)) (map Fin disp_true_edges) (map Fin new_true_edges))
      (seq 0 n_migra)) (seq 0 n_fov);
  let e_true_centers := zipwith (fun a b => (b + a) / 2) (but_last new_true_edges) (tl new_true_edges) in
  rmap (fun idx_e => let '(idx, e_true) := idx_e in
    rmap (fun rows =>
      let column := map (fun row => nth idx row 0) rows in
      let norm := rsum column in
      let norm := if Reqb norm 0 then 1 else norm in
      let e_true_dispersion := map (fun v => v / norm) column in
      resample_histogram1d itp false e_true_dispersion (map Fin disp_migration_edges) (map (fun r => ndiv (Fin r) (Fin e_true)) new_reco_edges))
    tei) (combine (seq 0 (List.length e_true_centers)) e_true_centers).

(** ** irf/psf.py *)
(** psf.py:33-45 *)
Definition normalize_psf (hist : tensor) (source_offset_bins : list R) : res tensor :=
  let solid_angle := ndiff (map (fun d => Fin (cone_solid_angle (d * degree))) source_offset_bins) in
  let n_events := tsum 2 hist in
  do psf <- tbin ndiv hist (newaxis 2 n_events);
  tbin ndiv (tmap default_nan_to_num psf) (vec solid_angle).
(** psf.py:7-30 *)
Definition psf_table (events : list dl2) (true_energy_bins : list num) (source_offset_bins : list R) (fov_offset_bins : list num) : res tensor :=
  do hist <- histogramdd [(true_energy, true_energy_bins); (true_fov_offset, fov_offset_bins); (theta, map Fin source_offset_bins)] unweighted events;
  normalize_psf hist source_offset_bins.

(** ** irf/background.py, [t_obs] in s, result in 1/(s TeV sr) *)
(** background.py:10-58 *)
Definition background_2d (events : list dl2) (reco_energy_bins : list num) (fov_offset_bins : list R) (t_obs : R) : res tensor :=
  do hist <- histogramdd [(reco_energy, reco_energy_bins); (reco_fov_offset, map Fin fov_offset_bins)] weight events;
  do per_energy <- tbin ndiv (transpose2 hist) (vec (ndiff reco_energy_bins));
  let per_energy := transpose2 per_energy in
  let bin_solid_angle := ndiff (map (fun d => Fin (cone_solid_angle (d * degree))) fov_offset_bins) in
  tbin ndiv (tmap (fun x => ndiv x (Fin t_obs)) per_energy) (vec bin_solid_angle).
(** background.py:61-122; [rectangle_solid_angle] gets four one-dimensional arrays:
    utils.py:190-213 on arrays multiplies the longitude and latitude parts elementwise *)
Definition rectangle_solid_angles (lon lat : list R) : res tensor :=
  tbin nmul (vec (map Fin (zipwith (fun a b => b * degree - a * degree) (but_last lon) (tl lon))))
            (vec (map Fin (zipwith (fun a b => sin (b * degree) - sin (a * degree)) (but_last lat) (tl lat)))).
Definition background_3d_lonlat (events : list dl2) (reco_energy_bins : list num) (lon lat : list R) (t_obs : R) : res tensor :=
  do hist <- histogramdd [(reco_energy, reco_energy_bins); (reco_fov_lon, map Fin lon); (reco_fov_lat, map Fin lat)] weight events;
  do per_energy <- tbin ndiv hist (newaxis 1 (newaxis 1 (vec (ndiff reco_energy_bins))));
  do bin_solid_angle <- rectangle_solid_angles lon lat;
  tbin ndiv (tmap (fun x => ndiv x (Fin t_obs)) per_energy) bin_solid_angle.
