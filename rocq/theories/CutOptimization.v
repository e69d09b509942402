(** * CutOptimization: model of pyirf/cut_optimization.py *)
From Coq Require Import String Reals List Bool ZArith Lia Lra.
From Verif Require Import Num Numpy Table Binning Percentile Cuts Utils Sensitivity.
Import ListNotations.
Open Scope R_scope.

(** one event of the signal or background table; energies, angles in common units *)
Record opt_event := mkOpt { o_ev : event; o_theta : num; o_gh : num; o_offset : num; o_mult : num }.
Definition o_energy (e : opt_event) : num := ev_x (o_ev e).

(** [np.nanargmin]: NaN is replaced by +inf, then the first minimum is taken; the caller
    excludes the all-NaN case, where numpy raises *)
Fixpoint argmin_from (i best : nat) (v : num) (l : list num) : nat :=
  match l with
  | [] => best
  | x :: l' => if nlt x v then argmin_from (S i) i x l' else argmin_from (S i) best v l'
  end.
Definition nan_as_inf (x : num) : num := if is_nan x then PInf else x.
Definition nanargmin (l : list num) : nat :=
  match map nan_as_inf l with [] => 0%nat | x :: l' => argmin_from 1 0 x l' end.
(** [signal['gh_score'].max()], [.min()]: NaN propagates, empty input raises ValueError *)
Definition np_max (l : list num) : res num :=
  match l with [] => Err ValueError | x :: l' => Ok (fold_left nmax l' x) end.
Definition np_min (l : list num) : res num :=
  match l with [] => Err ValueError | x :: l' => Ok (fold_left nmin l' x) end.
(** [table[mask]] *)
Definition select {A} (mask : list bool) (l : list A) : list A :=
  map fst (filter (fun p : A * bool => snd p) (combine l mask)).
Definition mask_and (a b : list bool) : list bool := zipwith andb a b.
(** row [k] of a table, [table[k]]; and row assignment [table[k] = row]: values are
    assigned by position, the number of columns must agree (astropy Table._set_row).
    All columns of a sensitivity table hold floats. *)
Definition row_at (t : table) (k : nat) : res (list num) :=
  rmap (fun p => np_index (col_nums (snd p)) (Z.of_nat k)) t.
Definition set_row (t : table) (k : nat) (row : list num) : res table :=
  if negb (Nat.eqb (length t) (length row)) then Err ValueError
  else if forallb (fun p => Nat.ltb k (length (col_nums (snd p)))) t
  then Ok (zipwith (fun p v => (fst p, CN (list_set (col_nums (snd p)) k v))) t row)
  else Err IndexError.
(** a table of optimised cuts *)
Record opt_cut := mkOptCut { oc_low : list num; oc_center : list num; oc_high : list num;
  oc_cut : list num; oc_efficiency : list R }.

(** cut_optimization.py:321-329 (and 179-187): choice of the best scan index for one bin *)
Definition best_of_bin (sensitivities : list table) (bin_id : nat) : res nat :=
  do sensitivities_bin <- rmap (fun s => do c <- get_col s "relative_sensitivity";
                                         np_index (col_nums c) (Z.of_nat bin_id)) sensitivities;
  Ok (if forallb is_nan sensitivities_bin then 0%nat else nanargmin sensitivities_bin).
(** cut_optimization.py:319-346 (and 177-204): the loop over the bins for the sensitivity
    table; [best] lists the scan index of every bin *)
Fixpoint assemble (sensitivities : list table) (best : list nat) (bin_id : nat) (t : table) : res table :=
  match best with
  | [] => Ok t
  | b :: best' =>
      do s <- np_index sensitivities (Z.of_nat b);
      do row <- row_at s bin_id;
      do t <- set_row t bin_id row;
      assemble sensitivities best' (S bin_id) t
  end.
(** [cuts["cut"][:, j]] and [cuts["cut"][k][j]] *)
Definition cut_col (rows : list (list num)) (j : nat) : list num := map (fun r => nth j r NaN) rows.
Definition cut_rows (t : cut_table) : list (list num) := match ct_cut t with Cut2 rows => rows | Cut1 l => map (fun x => [x]) l end.

Section Optimize.
Variable brentq : (R -> num) -> R -> R -> res R.
Variable significance_function : num -> num -> num -> num.
Variable significance_array : list num -> list num -> num -> res (list num).
Variables (sig_weight sig_ptype bkg_weight bkg_ptype : bool).
Variables (signal background : list opt_event) (bins : list num).
Variables (alpha fov_offset_min fov_offset_max : num) (min_significance min_signal_events min_excess : num).

(** cut_optimization.py:292-312 (and 134-152): histograms and sensitivity of selected events *)
Definition selected_sensitivity (sig_sel bkg_sel : list opt_event) (theta_center theta_cut : list num) : res table :=
  do signal_hist <- create_histogram_table (mkEvents (map o_ev sig_sel) sig_weight sig_ptype) bins "reco_energy";
  do background_hist <- estimate_background (map (fun e => mkBg (o_ev e) (o_offset e)) bkg_sel)
       bkg_weight bkg_ptype bins theta_center theta_cut alpha fov_offset_min fov_offset_max;
  calculate_sensitivity brentq significance_function significance_array signal_hist background_hist
    alpha min_significance min_signal_events min_excess.

(** cut_optimization.py:279-312: one step of the scan of optimize_gh_cut *)
Definition gh_scan (op : num -> num -> bool) (sel_theta : list bool) (th_center th_cut : list num)
    (gh_cuts : cut_table) (col : nat) : res table :=
  let cut := cut_col (cut_rows gh_cuts) col in
  do m <- evaluate_binned_cut true (map o_gh signal) (mkArr (map o_energy signal) None)
            (ct_low gh_cuts) (ct_high gh_cuts) None cut op;
  do b <- evaluate_binned_cut true (map o_gh background) (mkArr (map o_energy background) None)
            (ct_low gh_cuts) (ct_high gh_cuts) None cut op;
  selected_sensitivity (select (mask_and m sel_theta) signal) (select b background) th_center th_cut.

(** cut_optimization.py:209-346 [optimize_gh_cut]; [th_*] are the columns of [theta_cuts];
    a cut table has one row per bin.  Simplification: the rows of the sensitivity table
    are assigned after all best indices are known. *)
Definition optimize_gh_cut (op : num -> num -> bool) (gh_cut_efficiencies : list R)
    (th_low th_high th_center th_cut : list num) : res (table * opt_cut) :=
  do sel_theta <- evaluate_binned_cut true (map o_theta signal) (mkArr (map o_energy signal) None)
                    th_low th_high None th_cut nle;
  let lower := op (Fin (-1)) (Fin 1) in
  let percentiles := map (fun e => if lower then 100 * e else 100 * (1 - e)) gh_cut_efficiencies in
  do fill_value <- (if lower then np_min (map o_gh signal) else np_max (map o_gh signal));
  do gh_cuts <- calculate_percentile_cut false (mkArr (map o_gh signal) None) (mkArr (map o_energy signal) None)
                  (mkArr bins None) (mkScalar fill_value None) (PList percentiles) None None None 10;
  do sensitivities <- rmap (gh_scan op sel_theta th_center th_cut gh_cuts) (seq 0 (length gh_cut_efficiencies));
  match sensitivities with
  | [] => Err IndexError
  | s0 :: _ =>
      do best <- rmap (best_of_bin sensitivities) (seq 0 (length bins - 1));
      do best_sensitivity <- assemble sensitivities best 0 s0;
      Ok (best_sensitivity,
          mkOptCut (but_last bins) (bin_center bins) (tl bins)
            (zipwith (fun b r => nth b r NaN) best (cut_rows gh_cuts))
            (map (fun b => nth b gh_cut_efficiencies 0) best))
  end.

(** cut_optimization.py:111-152: one step of the scan of optimize_cuts *)
Record scan_point := mkPoint { p_mult : nat; p_theta : nat; p_gh : nat }.
Definition cuts_scan (idx_s : list Z * list bool) (idx_b : list Z * list bool)
    (mult_cut : num) (gh_cuts theta_cuts : cut_table) (gh_index theta_index : nat) : res table :=
  let mask_s := map (fun e => nge (o_mult e) mult_cut) signal in
  let mask_b := map (fun e => nge (o_mult e) mult_cut) background in
  let theta_cut := cut_col (cut_rows theta_cuts) theta_index in
  do m_theta <- evaluate_binned_cut_by_index true (map o_theta signal) (fst idx_s) (snd idx_s) theta_cut nle;
  let gh_cut := cut_col (cut_rows gh_cuts) gh_index in
  do m_gh <- evaluate_binned_cut_by_index true (map o_gh signal) (fst idx_s) (snd idx_s) gh_cut nge;
  do b_gh <- evaluate_binned_cut_by_index true (map o_gh background) (fst idx_b) (snd idx_b) gh_cut nge;
  selected_sensitivity (select (mask_and (mask_and m_gh m_theta) mask_s) signal)
    (select (mask_and b_gh mask_b) background) (ct_center theta_cuts) theta_cut.
(** itertools.product(range(n_gh), range(n_theta)) *)
Definition gh_theta_pairs (n_gh n_theta : nat) : list (nat * nat) :=
  flat_map (fun g => map (fun t => (g, t)) (seq 0 n_theta)) (seq 0 n_gh).
(** cut_optimization.py:88-156: the body of the loop over the multiplicity cuts: the two
    tables of percentile cuts and the scan *)
Definition mult_scan (idx_s idx_b : list Z * list bool) (fill_value : num)
    (gh_eff theta_eff : list R) (theta_min theta_max : num) (mi : nat) (mult_cut : num)
    : res (cut_table * cut_table * list (scan_point * table)) :=
  let sel := select (map (fun e => nge (o_mult e) mult_cut) signal) signal in
  do gh_cuts <- calculate_percentile_cut false (mkArr (map o_gh sel) None) (mkArr (map o_energy sel) None)
                  (mkArr bins None) (mkScalar fill_value None)
                  (PList (map (fun e => 100 * (1 - e)) gh_eff)) None None None 10;
  do theta_cuts <- calculate_percentile_cut false (mkArr (map o_theta sel) None) (mkArr (map o_energy sel) None)
                  (mkArr bins None) (mkScalar theta_max None)
                  (PList (map (fun e => 100 * e) theta_eff))
                  (Some (mkScalar theta_min None)) (Some (mkScalar theta_max None)) None 10;
  do s <- rmap (fun p => do t <- cuts_scan idx_s idx_b mult_cut gh_cuts theta_cuts (fst p) (snd p);
                         Ok (mkPoint mi (snd p) (fst p), t))
            (gh_theta_pairs (length gh_eff) (length theta_eff));
  Ok (gh_cuts, theta_cuts, s).

(** cut_optimization.py:20-206 [optimize_cuts]; [theta_cut_efficiencies] is an array.
    Returns the sensitivity, multiplicity, theta and gamma/hadron tables. *)
Definition optimize_cuts (multiplicity_cuts : list num) (gh_eff theta_eff : list R)
    (theta_min theta_max : num) : res (table * list num * opt_cut * opt_cut) :=
  do fill_value <- np_max (map o_gh signal);
  do idx_s <- calculate_bin_indices (mkArr (map o_energy signal) None) (mkArr bins None);
  do idx_b <- calculate_bin_indices (mkArr (map o_energy background) None) (mkArr bins None);
  do grids <- rmap (fun p => mult_scan idx_s idx_b fill_value gh_eff theta_eff theta_min theta_max (fst p) (snd p))
                (combine (seq 0 (length multiplicity_cuts)) multiplicity_cuts);
  let scanned := flat_map (fun g => snd g) grids in
  let sensitivities := map snd scanned in
  match sensitivities with
  | [] => Err IndexError
  | s0 :: _ =>
      do best <- rmap (best_of_bin sensitivities) (seq 0 (length bins - 1));
      do best_sensitivity <- assemble sensitivities best 0 s0;
      do points <- rmap (fun b => np_index (map fst scanned) (Z.of_nat b)) best;
      do gh_tables <- rmap (fun p => np_index (map (fun g => fst (fst g)) grids) (Z.of_nat (p_mult p))) points;
      do theta_tables <- rmap (fun p => np_index (map (fun g => snd (fst g)) grids) (Z.of_nat (p_mult p))) points;
      let bin_ids := seq 0 (length bins - 1) in
      Ok (best_sensitivity,
          map (fun p => nth (p_mult p) multiplicity_cuts NaN) points,
          mkOptCut (but_last bins) (bin_center bins) (tl bins)
            (zipwith (fun p kt => nth (p_theta p) (nth (fst kt) (cut_rows (snd kt)) []) NaN) points (combine bin_ids theta_tables))
            (map (fun p => nth (p_theta p) theta_eff 0) points),
          mkOptCut (but_last bins) (bin_center bins) (tl bins)
            (zipwith (fun p kt => nth (p_gh p) (nth (fst kt) (cut_rows (snd kt)) []) NaN) points (combine bin_ids gh_tables))
            (map (fun p => nth (p_gh p) gh_eff 0) points))
  end.
End Optimize.
