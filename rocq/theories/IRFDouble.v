(** * IRFDouble: irf/*.py with every operation rounded to double precision.  The columns hold doubles in TeV and degree;
    numbers of events are exact (numpy counts with integers) *)
From Coq Require Import Reals List Bool ZArith Lia Lra.
From Verif Require Import Num Numpy Binning Tensor IRF Double.
Import ListNotations.
Open Scope R_scope.

(** numpy's sum along one axis.  The order of additions depends on the memory layout; the sums of event numbers here are
    exact in any order as long as they stay below 2^53 *)
Definition fsum (l : list num) : num := fold_left fadd l (Fin 0).
Definition tsum_double (k : nat) (a : tensor) : tensor :=
  mkT (remove_at k (shape a)) (fun ix => fsum (map (fun j => at_ a (insert_at k j ix)) (seq 0 (nth k (shape a) 0%nat)))).
Definition diff_double (l : list num) : list num := zipwith (fun a b => fsub b a) (but_last l) (tl l).

(** effective_area.py:15-29 *)
Definition effective_area_double (n_selected n_simulated : tensor) (area : R) : res tensor :=
  do ratio <- tbin fdiv n_selected n_simulated;
  Ok (tmap (fun x => fmul x (Fin area)) ratio).
(** energy_dispersion.py:14-29 *)
Definition normalize_hist_double (hist : tensor) (migration_bins : list num) : res tensor :=
  let bin_width := diff_double migration_bins in
  let norm := tsum_double 1 hist in
  do h <- tbin fdiv hist (newaxis 1 norm);
  do h <- tbin fdiv h (newaxis 1 (vec bin_width));
  Ok (tmap default_nan_to_num h).
(** energy_dispersion.py:32-84 *)
Definition energy_dispersion_double (events : list dl2) (true_energy_bins fov_offset_bins migration_bins : list num) : res tensor :=
  let mu e := fdiv (reco_energy e) (true_energy e) in
  do hist <- histogramdd [(true_energy, true_energy_bins); (mu, migration_bins); (true_fov_offset, fov_offset_bins)] unweighted events;
  normalize_hist_double hist migration_bins.
(** energy_dispersion.py:87-134 *)
Definition energy_migration_matrix_double (events : list dl2) (true_energy_bins reco_energy_bins fov_offset_bins : list num) : res tensor :=
  do hist <- histogramdd [(true_energy, true_energy_bins); (reco_energy, reco_energy_bins); (true_fov_offset, fov_offset_bins)] unweighted events;
  do h <- tbin fdiv hist (newaxis 1 (tsum_double 1 hist));
  Ok (tmap (fun x => if is_nan x then Fin 0 else x) h).
(** utils.py:174-187 [cone_solid_angle] of an angle in degree; astropy multiplies with the double nearest to pi/180 before
    [np.cos]; [2 * np.pi] is evaluated first *)
Definition cone_solid_angle_double (cos : num -> num) (angle : R) : num :=
  let rad := fmul (Fin angle) (fl (PI / 180)) in
  fmul (fmul (Fin 2) (fl PI)) (fsub (Fin 1) (cos rad)).
(** psf.py:33-45 *)
Definition normalize_psf_double (cos : num -> num) (hist : tensor) (source_offset_bins : list R) : res tensor :=
  let solid_angle := diff_double (map (cone_solid_angle_double cos) source_offset_bins) in
  let n_events := tsum_double 2 hist in
  do psf <- tbin fdiv hist (newaxis 2 n_events);
  tbin fdiv (tmap default_nan_to_num psf) (vec solid_angle).
(** psf.py:7-30 *)
Definition psf_table_double (cos : num -> num) (events : list dl2) (true_energy_bins : list num) (source_offset_bins : list R) (fov_offset_bins : list num) : res tensor :=
  do hist <- histogramdd [(true_energy, true_energy_bins); (true_fov_offset, fov_offset_bins); (theta, map Fin source_offset_bins)] unweighted events;
  normalize_psf_double cos hist source_offset_bins.
