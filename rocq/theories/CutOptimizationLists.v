(** * CutOptimizationLists: optimize_cuts (cut_optimization.py) with a Python list of theta efficiencies *)
From Coq Require Import String Reals List Bool ZArith Lia Lra.
From Verif Require Import Num Numpy Table Binning Percentile Cuts Utils Sensitivity CutOptimization.
Import ListNotations.
Open Scope R_scope.

(** Python's [n * l] for a list: [l] repeated [n] times *)
Definition list_times {A} (n : nat) (l : list A) : list A := concat (repeat l n).

Section Optimize.
Variable brentq : (R -> num) -> R -> R -> res R.
Variable significance_function : num -> num -> num -> num.
Variable significance_array : list num -> list num -> num -> res (list num).
Variables (sig_weight sig_ptype bkg_weight bkg_ptype : bool).
Variables (signal background : list opt_event) (bins : list num).
Variables (alpha fov_offset_min fov_offset_max : num) (min_significance min_signal_events min_excess : num).
Let scan := cuts_scan brentq significance_function significance_array sig_weight sig_ptype bkg_weight bkg_ptype
  signal background bins alpha fov_offset_min fov_offset_max min_significance min_signal_events min_excess.

(** cut_optimization.py:88-156, as [mult_scan]; line 115: [100 * theta_cut_efficiencies] *)
Definition mult_scan_list (idx_s idx_b : list Z * list bool) (fill_value : num)
    (gh_eff theta_eff : list R) (theta_min theta_max : num) (mi : nat) (mult_cut : num)
    : res (cut_table * cut_table * list (scan_point * table)) :=
  let sel := select (map (fun e => nge (o_mult e) mult_cut) signal) signal in
  do gh_cuts <- calculate_percentile_cut false (mkArr (map o_gh sel) None) (mkArr (map o_energy sel) None)
                  (mkArr bins None) (mkScalar fill_value None)
                  (PList (map (fun e => 100 * (1 - e)) gh_eff)) None None None 10;
  do theta_cuts <- calculate_percentile_cut false (mkArr (map o_theta sel) None) (mkArr (map o_energy sel) None)
                  (mkArr bins None) (mkScalar theta_max None)
                  (PList (list_times 100 theta_eff))
                  (Some (mkScalar theta_min None)) (Some (mkScalar theta_max None)) None 10;
  do s <- rmap (fun p => do t <- scan idx_s idx_b mult_cut gh_cuts theta_cuts (fst p) (snd p);
                         Ok (mkPoint mi (snd p) (fst p), t))
            (gh_theta_pairs (length gh_eff) (length theta_eff));
  Ok (gh_cuts, theta_cuts, s).

(** cut_optimization.py:20-206 [optimize_cuts], [theta_cut_efficiencies] is a Python list (as in
    tests/test_optimize_cuts.py); the other efficiencies are converted to an array (line 73) *)
Definition optimize_cuts_list (multiplicity_cuts : list num) (gh_eff theta_eff : list R)
    (theta_min theta_max : num) : res (table * list num * opt_cut * opt_cut) :=
  do fill_value <- np_max (map o_gh signal);
  do idx_s <- calculate_bin_indices (mkArr (map o_energy signal) None) (mkArr bins None);
  do idx_b <- calculate_bin_indices (mkArr (map o_energy background) None) (mkArr bins None);
  do grids <- rmap (fun p => mult_scan_list idx_s idx_b fill_value gh_eff theta_eff theta_min theta_max (fst p) (snd p))
                (combine (seq 0 (length multiplicity_cuts)) multiplicity_cuts);
  let scanned := flat_map (fun g => snd g) grids in
  let sensitivities := map snd scanned in
  match sensitivities with
  | [] => Err IndexError
  | s0 :: _ =>
      do best <- rmap (best_of_bin sensitivities) (seq 0 (length bins - 1));
      do best_sensitivity <- assemble sensitivities best 0 s0;
      do points <- rmap (fun b => np_index (map fst scanned) (Z.of_nat b)) best;
      do gh_tables <- rmap (fun p => np_index (map (fun g => fst (fst g)) grids) (Z.of_nat (p_mult p))) points;
      do theta_tables <- rmap (fun p => np_index (map (fun g => snd (fst g)) grids) (Z.of_nat (p_mult p))) points;
      let bin_ids := seq 0 (length bins - 1) in
      Ok (best_sensitivity,
          map (fun p => nth (p_mult p) multiplicity_cuts NaN) points,
          mkOptCut (but_last bins) (bin_center bins) (tl bins)
            (zipwith (fun p kt => nth (p_theta p) (nth (fst kt) (cut_rows (snd kt)) []) NaN) points (combine bin_ids theta_tables))
            (map (fun p => nth (p_theta p) theta_eff 0) points),
          mkOptCut (but_last bins) (bin_center bins) (tl bins)
            (zipwith (fun p kt => nth (p_gh p) (nth (fst kt) (cut_rows (snd kt)) []) NaN) points (combine bin_ids gh_tables))
            (map (fun p => nth (p_gh p) gh_eff 0) points))
  end.
End Optimize.
