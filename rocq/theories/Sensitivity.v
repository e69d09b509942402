(** * Sensitivity: model of pyirf/sensitivity.py *)
From Coq Require Import String Reals List Bool ZArith Lia Lra.
From Verif Require Import Num Numpy Table Binning Utils Statistics.
Import ListNotations.
Open Scope R_scope.

(** Python's [max(a, b)]: [b] if [b > a], else [a] *)
Definition py_max (a b : num) : num := if ngt b a then b else a.

Section Sensitivity.
(** scipy.optimize.brentq(f, a, b) with default tolerances; its contract is in
    SpecSensitivity. *)
Variable brentq : (R -> num) -> R -> R -> res R.
(** the argument [significance_function] for scalar arguments *)
Variable significance_function : num -> num -> num -> num.

(** sensitivity.py:28-88 [_relative_sensitivity].  Line 68: brentq raises ValueError when
    a bound is not a finite number, because the function value there is NaN.
    Lines 70-75: only RuntimeError and ValueError are caught. *)
Definition relative_sensitivity1
    (n_on n_off alpha min_significance min_signal_events min_excess_over_background : num) : res num :=
  if is_nan n_on || is_nan n_off then Ok NaN else
  if nlt n_on (Fin 0) || nlt n_off (Fin 0) then Err ValueError else
  let n_background := nmul n_off alpha in
  let n_signal := nsub n_on n_background in
  if nle n_signal (Fin 0) then Ok PInf else
  let equation (relative_flux : R) : num :=
    let n_on := nadd (nmul n_signal (Fin relative_flux)) n_background in
    nsub (significance_function n_on n_off alpha) min_significance in
  let bounds :=
    if ngt n_off (Fin 1) then
      let naive := ndiv (nmul min_significance (nsqrt n_background)) n_signal in
      (nmul (Fin (1/100)) naive, nmul (Fin 10) naive)
    else (Fin (1/10000), Fin 100) in
  let solved := match bounds with
                | (Fin lower, Fin upper) => brentq equation lower upper
                | _ => Err ValueError
                end in
  match solved with
  | Err RuntimeError | Err ValueError => Ok NaN
  | Err e => Err e
  | Ok relative_flux =>
      let n_signal := nmul n_signal (Fin relative_flux) in
      let min_excess := nmul min_excess_over_background n_background in
      let min_signal := py_max min_signal_events min_excess in
      let scale := if nlt n_signal min_signal then ndiv min_signal n_signal else Fin 1 in
      Ok (nmul (Fin relative_flux) scale)
  end.

(** sensitivity.py:91-93, 154-163 [relative_sensitivity]: [np.vectorize] over the arrays
    [n_on], [n_off]; the other arguments scalar.  [np.vectorize] without [otypes]
    raises ValueError on empty input. *)
Definition relative_sensitivity (n_on n_off : list num)
    (alpha min_significance min_signal_events min_excess : num) : res (list num) :=
  do pairs <- np_zip (fun a b => (a, b)) n_on n_off;
  match pairs with
  | [] => Err ValueError
  | _ => rmap (fun p => relative_sensitivity1 (fst p) (snd p) alpha min_significance
                          min_signal_events min_excess) pairs
  end.

(** numerical values of a column *)
Definition col_nums (c : col) : list num :=
  match c with
  | CN l => l
  | CZ l => map (fun z => Fin (IZR z)) l
  | CB l => map (fun b : bool => Fin (if b then 1 else 0)) l
  | CS l => map (fun _ => NaN) l
  end.
Definition as_utable (t : table) : utable := map (fun p => (fst p, mkArr (col_nums (snd p)) None)) t.
Definition starts_with (prefix s : string) : bool := String.prefix prefix s.

(** sensitivity.py:256-259: copy the per-particle columns *)
Fixpoint copy_columns (bkg : table) (names : list string) (s : table) : res table :=
  match names with
  | [] => Ok s
  | k :: names' => do c <- get_col bkg k; copy_columns bkg names' (setitem s k c)
  end.
(** the three edge columns, sensitivity.py:244-246 *)
Fixpoint copy_edges (sig : table) (ks : list string) (s : table) : res table :=
  match ks with
  | [] => Ok s
  | k :: ks' => do c <- get_col sig ("reco_energy_" ++ k)%string;
                copy_edges sig ks' (setitem s ("reco_energy_" ++ k)%string c)
  end.

(** sensitivity.py:166-275 [calculate_sensitivity]; tables with values in common units.
    [significance_array] is [significance_function] applied to arrays (line 261). *)
Definition calculate_sensitivity
    (significance_array : list num -> list num -> num -> res (list num))
    (signal_hist background_hist : table)
    (alpha min_significance min_signal_events min_excess : num) : res table :=
  do _ok <- check_histograms (as_utable signal_hist) (as_utable background_hist) "reco_energy";
  do sw <- get_col signal_hist "n_weighted";
  do bw <- get_col background_hist "n_weighted";
  do n_on <- np_zip nadd (col_nums sw) (map (nmul alpha) (col_nums bw));
  let n_off := col_nums bw in
  do rel_sens <- relative_sensitivity n_on n_off alpha min_significance min_signal_events min_excess;
  do s <- copy_edges signal_hist ["low"; "high"; "center"]%string [];
  do sn <- get_col signal_hist "n";
  do n_signal <- np_zip nmul (col_nums sn) rel_sens;
  let s := setitem s "n_signal" (CN n_signal) in
  do n_signal_weighted <- np_zip nmul (col_nums sw) rel_sens;
  let s := setitem s "n_signal_weighted" (CN n_signal_weighted) in
  do bn <- get_col background_hist "n";
  let s := setitem s "n_background" bn in
  let s := setitem s "n_background_weighted" bw in
  do s <- copy_columns background_hist
      (filter (fun c => starts_with "n_" c && negb (String.eqb c "n_weighted")) (colnames background_hist)) s;
  do s_sw <- get_col s "n_signal_weighted";
  do s_bw <- get_col s "n_background_weighted";
  do s_on <- np_zip nadd (col_nums s_sw) (map (nmul alpha) (col_nums s_bw));
  do sig <- significance_array s_on (col_nums s_bw) alpha;
  let s := setitem s "significance" (CN sig) in
  Ok (setitem s "relative_sensitivity" (CN rel_sens)).
End Sensitivity.

(** [li_ma_significance] on two arrays *)
Definition li_ma_array (n_on n_off : list num) (alpha : num) : res (list num) :=
  do r <- li_ma_significance (Ar n_on) (Ar n_off) alpha; Ok (atleast_1d r).

(** ** estimate_background *)
(** [np.interp(x, xp, fp)] for increasing [xp]: numpy's algorithm *)
Fixpoint np_interp_seg (x : num) (xp fp : list num) : num :=
  match xp, fp with
  | x0 :: ((x1 :: _) as xp'), f0 :: ((f1 :: _) as fp') =>
      if nlt x x1 then
        if neqb x0 x then f0 else
        let slope := ndiv (nsub f1 f0) (nsub x1 x0) in
        let r := nadd (nmul slope (nsub x x0)) f0 in
        if is_nan r then
          let r2 := nadd (nmul slope (nsub x x1)) f1 in
          if is_nan r2 && neqb f0 f1 then f0 else r2
        else r
      else np_interp_seg x xp' fp'
  | _ :: _, f0 :: _ => f0
  | _, _ => NaN
  end.
Definition np_interp1 (x : num) (xp fp : list num) : num :=
  match xp, fp with
  | x0 :: _, f0 :: _ => if is_nan x then NaN else if nlt x x0 then f0 else np_interp_seg x xp fp
  | _, _ => NaN
  end.
Definition np_interp (xs xp fp : list num) : res (list num) :=
  match xp with
  | [] => Err ValueError
  | _ => if Nat.eqb (length xp) (length fp) then Ok (map (fun x => np_interp1 x xp fp) xs) else Err ValueError
  end.
(** [np.cos]: NaN for infinities *)
Definition ncos (x : num) : num := match x with Fin r => Fin (cos r) | _ => NaN end.
(** utils.py:172-187 [cone_solid_angle] for array entries *)
Definition ncone (x : num) : num := nmul (Fin (2 * PI)) (nsub (Fin 1) (ncos x)).

(** one background event: histogram data and distance to the field-of-view centre *)
Record bg_event := mkBg { bg_ev : event; bg_offset : num }.
(** sensitivity.py:342-345: scale every column whose name starts with "n" *)
Fixpoint scale_columns (names : list string) (size_ratio : list num) (alpha : num) (bg : table) : res table :=
  match names with
  | [] => Ok bg
  | k :: names' =>
      do c <- get_col bg k;
      do m <- np_zip nmul (col_nums c) size_ratio;
      scale_columns names' size_ratio alpha (setitem bg k (CN (map (fun x => ndiv x alpha) m)))
  end.
(** sensitivity.py:278-347 [estimate_background]; energies, angles in common units,
    [theta_center], [theta_cut] are the columns of [theta_cuts]. *)
Definition estimate_background (events : list bg_event) (has_weight has_ptype : bool)
    (reco_energy_bins theta_center theta_cut : list num) (alpha : num)
    (fov_offset_min fov_offset_max : num) : res table :=
  let in_ring := filter (fun e => nge (bg_offset e) fov_offset_min && nlt (bg_offset e) fov_offset_max) events in
  do bg <- create_histogram_table (mkEvents (map bg_ev in_ring) has_weight has_ptype)
             reco_energy_bins "reco_energy";
  let center := bin_center reco_energy_bins in
  do theta_cuts_bg_bins <- np_interp center theta_center theta_cut;
  let solid_angle_on := map ncone theta_cuts_bg_bins in
  let solid_angle_ring := nsub (ncone fov_offset_max) (ncone fov_offset_min) in
  let size_ratio := map (fun s => ndiv s solid_angle_ring) solid_angle_on in
  scale_columns (filter (starts_with "n") (colnames bg)) size_ratio alpha bg.
