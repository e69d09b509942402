(** * AreaDouble: numbers of showers in two dimensions and effective areas from event lists in double precision.
    Energies in TeV, lengths in m, angles in radian *)
From Coq Require Import Reals List Bool ZArith String.
From Verif Require Import Num Numpy Table Binning Simulations Double ShowersDouble.
Import ListNotations.
Open Scope R_scope.

(** simulations.py:143-173 [calculate_n_showers_per_energy_and_fov] *)
Definition calculate_n_showers_per_energy_and_fov_double (pow : num -> num -> num) (cosine : num -> num) (s : sim_info)
    (energy_bins : list num) (fov_bins : list R) : res (list (list num)) :=
  let e_integral := calculate_n_showers_per_energy_double pow s energy_bins in
  do fov_integral <- calculate_n_showers_per_fov_double cosine s fov_bins;
  Ok (map (fun e => map (fun f => fdiv (fmul e f) (nz (n_showers s))) fov_integral) e_integral).
(** effective_area.py:32-52 with effective_area.py:15-29 for one-dimensional arrays (as lists); [events] with the true energies
    in [ev_x].  [np.pi * simulation_info.max_impact ** 2]: the square is a product *)
Definition effective_area_per_energy_double (pow : num -> num -> num) (events : etable) (s : sim_info) (bins : list num) : res (list num) :=
  let area := fmul (fl PI) (fmul (Fin (max_impact s)) (Fin (max_impact s))) in
  do hist_selected <- create_histogram_table events bins "true_energy";
  match getitem hist_selected "n" with
  | Some (CZ n) => Ok (zipwith (fun a b => fmul (fdiv a b) area) (map nz n) (calculate_n_showers_per_energy_double pow s bins))
  | _ => Err KeyError
  end.
