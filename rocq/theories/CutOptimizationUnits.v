(** * CutOptimizationUnits: cut_optimization.py with event tables, bins, cuts and angles in any units (CutOptimization.v is the
    same code for numbers in common units) *)
From Coq Require Import String Reals List Bool ZArith Arith.
From Verif Require Import Num Numpy Table Binning Percentile Cuts CutUnits Utils Sensitivity CutOptimization Quantities SpectralUnits SimulationUnits IRFUnits
  SensitivityUnits.
Import ListNotations.
Open Scope R_scope.

(** astropy units as used in Cuts.v.  Simplification: dimensions other than none, energy and angle are not distinguished *)
Definition dim_number (d : dim) : nat :=
  if deqb d dnone then dimless_dim else if deqb d (qu_dim TeV) then 1%nat else if deqb d (qu_dim rad) then 2%nat else 3%nat.
Definition as_unit (u : qunit) : unit_ := mkUnit (qu_scale u) (dim_number (qu_dim u)).
Definition as_arr (a : array_arg) : arr := match a with APlain l => mkArr l None | AQty a => mkArr (qa_val a) (Some (as_unit (qa_unit a))) end.
Definition as_scalar (q : quantity) : scalar := mkScalar (q_val q) (Some (as_unit (q_unit q))).
Definition arg_len (a : array_arg) : nat := List.length (fst (plain_unit a)).
(** numbers with the unit of an array *)
Definition with_unit_of (a : array_arg) (l : list num) : array_arg :=
  match a with APlain _ => APlain l | AQty q => AQty (mkQA l (qa_unit q)) end.

(** the columns of a table of cuts with one cut per bin *)
Record q_cuts := mkQCuts { qc_low : array_arg; qc_high : array_arg; qc_center : array_arg; qc_cut : array_arg }.
(** cuts.py:153-190 [evaluate_binned_cut].  [np.append(low, high[-1])] and the comparison convert units.  Simplification: a mixture of
    quantities and numbers always raises (astropy accepts 0, inf and nan) *)
Definition q_evaluate_binned_cut (values bin_values : array_arg) (cuts : q_cuts) (op : num -> num -> bool) : res (list bool) :=
  let (high, v) := plain_unit (qc_high cuts) in
  let (low, u) := plain_unit (qc_low cuts) in
  let high := map (fun x => nmul x (Fin (qu_scale v / qu_scale u))) high in
  match high with
  | [] => Err IndexError
  | _ =>
      if deqb (qu_dim v) (qu_dim u) then
        match values, qc_cut cuts with
        | APlain x, APlain c => evaluate_binned_cut true x (as_arr bin_values) low high (a_unit (as_arr (qc_low cuts))) c op
        | AQty x, AQty c => evaluate_binned_cut_q true (qa_val x) (as_unit (qa_unit x)) (as_arr bin_values) low high (a_unit (as_arr (qc_low cuts)))
                              (qa_val c) (as_unit (qa_unit c)) op
        | _, _ => Err UnitConversionError
        end
      else Err UnitConversionError
  end.
(** a column of numbers without unit.  Simplification: a unit raises TypeError here; astropy raises it when the best cut is stored
    in a column of numbers (cut_optimization.py:199, 343), unless something else fails before *)
Definition plain_column (t : qevents) (name : string) : res (list num) :=
  do c <- get_column t name; match c with APlain l => Ok l | AQty _ => Err TypeError end.
(** a table of optimised cuts: the numbers, the unit of the edges and the unit of the cut *)
Record q_opt_cut := mkQOpt { qo_table : opt_cut; qo_edge_unit : option qunit; qo_cut_unit : option qunit }.
Definition unit_opt (a : array_arg) : option qunit := match a with APlain _ => None | AQty q => Some (qa_unit q) end.

Section Optimize.
Variable brentq : (R -> num) -> R -> R -> res R.
Variable significance_function : num -> num -> num -> num.
Variable significance_array : list num -> list num -> num -> res (list num).
Variables (signal background : qevents) (bins : array_arg).
Variables (alpha : num) (fov_offset_min fov_offset_max : quantity) (min_significance min_signal_events min_excess : num).

(** cut_optimization.py:292-312 (and 134-152): histograms and sensitivity of the selected events *)
Definition q_selected_sensitivity (sig_mask bkg_mask : list bool) (theta_center theta_cut : array_arg) : res qtable :=
  do signal_hist <- q_create_histogram_table (q_rows_where signal sig_mask) bins;
  do background_hist <- q_estimate_background (q_rows_where background bkg_mask) bins theta_center theta_cut alpha fov_offset_min fov_offset_max;
  q_calculate_sensitivity brentq significance_function significance_array signal_hist background_hist alpha min_significance min_signal_events min_excess.

(** cut_optimization.py:279-312: one step of the scan of optimize_gh_cut *)
Definition q_gh_scan (op : num -> num -> bool) (sel_theta : list bool) (theta_cuts : q_cuts) (gh_cuts : cut_table) (col : nat) : res qtable :=
  let cut := cut_col (cut_rows gh_cuts) col in
  do gh <- plain_column signal "gh_score";
  do energy <- get_column signal "reco_energy";
  do m <- evaluate_binned_cut true gh (as_arr energy) (ct_low gh_cuts) (ct_high gh_cuts) (ct_edge_unit gh_cuts) cut op;
  do gh <- plain_column background "gh_score";
  do energy <- get_column background "reco_energy";
  do b <- evaluate_binned_cut true gh (as_arr energy) (ct_low gh_cuts) (ct_high gh_cuts) (ct_edge_unit gh_cuts) cut op;
  q_selected_sensitivity (mask_and m sel_theta) b (qc_center theta_cuts) (qc_cut theta_cuts).

(** cut_optimization.py:209-346 [optimize_gh_cut]; all sensitivity tables have the unit of the bins, so that rows are assigned
    without conversion; simplification as in CutOptimization.v *)
Definition q_optimize_gh_cut (op : num -> num -> bool) (gh_cut_efficiencies : list R) (theta_cuts : q_cuts) : res (qtable * q_opt_cut) :=
  do theta <- get_column signal "theta";
  do energy <- get_column signal "reco_energy";
  do sel_theta <- q_evaluate_binned_cut theta energy theta_cuts nle;
  let lower := op (Fin (-1)) (Fin 1) in
  let percentiles := map (fun e => if lower then 100 * e else 100 * (1 - e)) gh_cut_efficiencies in
  do gh <- plain_column signal "gh_score";
  do fill_value <- (if lower then np_min gh else np_max gh);
  do gh_cuts <- calculate_percentile_cut false (mkArr gh None) (as_arr energy) (as_arr bins) (mkScalar fill_value None) (PList percentiles) None None None 10;
  do sensitivities <- rmap (q_gh_scan op sel_theta theta_cuts gh_cuts) (seq 0 (List.length gh_cut_efficiencies));
  match sensitivities with
  | [] => Err IndexError
  | s0 :: _ =>
      do best <- rmap (best_of_bin (map fst sensitivities)) (seq 0 (arg_len bins - 1));
      do best_sensitivity <- assemble (map fst sensitivities) best 0 (fst s0);
      let b := fst (plain_unit bins) in
      Ok ((best_sensitivity, snd s0),
          mkQOpt (mkOptCut (but_last b) (bin_center b) (tl b) (zipwith (fun b r => nth b r NaN) best (cut_rows gh_cuts))
                    (map (fun b => nth b gh_cut_efficiencies 0) best))
            (unit_opt bins) None)
  end.

(** cut_optimization.py:122-152: one step of the scan of optimize_cuts; [cut_arg]: theta cuts, as column of the table *)
Definition q_cuts_scan (idx_s idx_b : list Z * list bool) (mask_s mask_b : list bool) (theta : list num) (cut_arg : list num -> array_arg)
    (gh_cuts theta_cuts : cut_table) (gh_index theta_index : nat) : res qtable :=
  let theta_cut := cut_col (cut_rows theta_cuts) theta_index in
  do m_theta <- evaluate_binned_cut_by_index true theta (fst idx_s) (snd idx_s) theta_cut nle;
  let gh_cut := cut_col (cut_rows gh_cuts) gh_index in
  do gh <- plain_column signal "gh_score";
  do m_gh <- evaluate_binned_cut_by_index true gh (fst idx_s) (snd idx_s) gh_cut nge;
  do gh <- plain_column background "gh_score";
  do b_gh <- evaluate_binned_cut_by_index true gh (fst idx_b) (snd idx_b) gh_cut nge;
  q_selected_sensitivity (mask_and (mask_and m_gh m_theta) mask_s) (mask_and b_gh mask_b)
    (with_unit_of bins (ct_center theta_cuts)) (cut_arg theta_cut).
(** cut_optimization.py:96-156: the body of the loop over the multiplicity cuts.  The theta cuts have the unit of [theta], or that of
    the fill value if [theta] has none *)
Definition q_mult_scan (idx_s idx_b : list Z * list bool) (fill_value : num) (gh_eff theta_eff : list R) (theta_min theta_max : quantity)
    (mi : nat) (mult_cut : num) : res (cut_table * cut_table * list (scan_point * qtable)) :=
  do mult_s <- plain_column signal "multiplicity";
  let mask_s := map (fun x => nge x mult_cut) mult_s in
  do mult_b <- plain_column background "multiplicity";
  let mask_b := map (fun x => nge x mult_cut) mult_b in
  do gh <- plain_column signal "gh_score";
  do energy <- get_column signal "reco_energy";
  do gh_cuts <- calculate_percentile_cut false (mkArr (mask_rows mask_s gh) None) (as_arr (mask_column mask_s energy))
                  (as_arr bins) (mkScalar fill_value None) (PList (map (fun e => 100 * (1 - e)) gh_eff)) None None None 10;
  do theta <- get_column signal "theta";
  do theta_cuts <- calculate_percentile_cut false (as_arr (mask_column mask_s theta)) (as_arr (mask_column mask_s energy))
                  (as_arr bins) (as_scalar theta_max) (PList (map (fun e => 100 * e) theta_eff))
                  (Some (as_scalar theta_min)) (Some (as_scalar theta_max)) None 10;
  let cut_arg l := match theta with AQty q => AQty (mkQA l (qa_unit q)) | APlain _ => AQty (mkQA l (q_unit theta_max)) end in
  do s <- rmap (fun p => do t <- q_cuts_scan idx_s idx_b mask_s mask_b (fst (plain_unit theta)) cut_arg gh_cuts theta_cuts (fst p) (snd p);
                         Ok (mkPoint mi (snd p) (fst p), t))
            (gh_theta_pairs (List.length gh_eff) (List.length theta_eff));
  Ok (gh_cuts, theta_cuts, s).

(** cut_optimization.py:20-206 [optimize_cuts]; [theta_cut_efficiencies] is an array; the table of theta cuts has the unit of the
    last table of the scan *)
Definition q_optimize_cuts (multiplicity_cuts : list num) (gh_eff theta_eff : list R) (theta_min theta_max : quantity)
    : res (qtable * (list num * option qunit) * q_opt_cut * q_opt_cut) :=
  do gh <- plain_column signal "gh_score";
  do fill_value <- np_max gh;
  do energy <- get_column signal "reco_energy";
  do idx_s <- calculate_bin_indices (as_arr energy) (as_arr bins);
  do energy <- get_column background "reco_energy";
  do idx_b <- calculate_bin_indices (as_arr energy) (as_arr bins);
  do grids <- rmap (fun p => q_mult_scan idx_s idx_b fill_value gh_eff theta_eff theta_min theta_max (fst p) (snd p))
                (combine (seq 0 (List.length multiplicity_cuts)) multiplicity_cuts);
  let scanned := flat_map (fun g => snd g) grids in
  let sensitivities := map (fun p => fst (snd p)) scanned in
  match scanned with
  | [] => Err IndexError
  | s0 :: _ =>
      do best <- rmap (best_of_bin sensitivities) (seq 0 (arg_len bins - 1));
      do best_sensitivity <- assemble sensitivities best 0 (fst (snd s0));
      do points <- rmap (fun b => np_index (map fst scanned) (Z.of_nat b)) best;
      do gh_tables <- rmap (fun p => np_index (map (fun g => fst (fst g)) grids) (Z.of_nat (p_mult p))) points;
      do theta_tables <- rmap (fun p => np_index (map (fun g => snd (fst g)) grids) (Z.of_nat (p_mult p))) points;
      let bin_ids := seq 0 (arg_len bins - 1) in
      let b := fst (plain_unit bins) in
      do theta <- get_column signal "theta";
      Ok ((best_sensitivity, snd (snd s0)),
          (map (fun p => nth (p_mult p) multiplicity_cuts NaN) points, unit_opt bins),
          mkQOpt (mkOptCut (but_last b) (bin_center b) (tl b)
            (zipwith (fun p kt => nth (p_theta p) (nth (fst kt) (cut_rows (snd kt)) []) NaN) points (combine bin_ids theta_tables))
            (map (fun p => nth (p_theta p) theta_eff 0) points)) (unit_opt bins)
            (match theta with AQty q => Some (qa_unit q) | APlain _ => Some (q_unit theta_max) end),
          mkQOpt (mkOptCut (but_last b) (bin_center b) (tl b)
            (zipwith (fun p kt => nth (p_gh p) (nth (fst kt) (cut_rows (snd kt)) []) NaN) points (combine bin_ids gh_tables))
            (map (fun p => nth (p_gh p) gh_eff 0) points)) (unit_opt bins) None)
  end.
End Optimize.
