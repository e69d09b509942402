(** * SensitivityUnits: sensitivity.py with event tables, bins and cuts in any units (Sensitivity.v is the same code for
    numbers in common units) *)
From Coq Require Import String Reals List Bool ZArith Arith.
From Verif Require Import Num Numpy Table Binning Utils Sensitivity Quantities SpectralUnits SimulationUnits IRFUnits.
Import ListNotations.
Open Scope R_scope.

(** a table of binned events: the columns reco_energy_low, _high and _center have the unit, all others none *)
Definition qtable : Type := table * qunit.
(** the edges of the bins *)
Definition edge_names : list string := ["reco_energy_low"; "reco_energy_high"; "reco_energy_center"]%string.
Definition is_edge (k : string) : bool := existsb (String.eqb k) edge_names.
(** binning.py:183-234 for the key [reco_energy]: the edges (lines 199-203) keep the unit of the bins *)
Definition q_create_histogram_table (t : qevents) (bins : array_arg) : res qtable :=
  do h <- q_histogram_table t bins "reco_energy";
  let (b, v) := plain_unit bins in
  Ok (setitem (setitem (setitem h "reco_energy_low" (CN (but_last b))) "reco_energy_high" (CN (tl b))) "reco_energy_center" (CN (bin_center b)), v).

(** [column >= q] and [column < q]: astropy converts [q] into the unit of the column.  Simplification: a column without unit
    always raises (astropy accepts it if it consists of 0, inf and nan only) *)
Definition compare_column (f : num -> num -> bool) (c : array_arg) (q : quantity) : res (list bool) :=
  match c with
  | APlain _ => Err UnitConversionError
  | AQty a => do v <- to_value q (qa_unit a); Ok (map (fun x => f x v) (qa_val a))
  end.
(** [events[mask]] *)
Definition mask_rows {A} (mask : list bool) (l : list A) : list A := map snd (filter (fun p => fst p) (combine mask l)).
Definition mask_column (mask : list bool) (c : array_arg) : array_arg :=
  match c with APlain l => APlain (mask_rows mask l) | AQty a => AQty (mkQA (mask_rows mask (qa_val a)) (qa_unit a)) end.
Definition q_rows_where (t : qevents) (mask : list bool) : qevents :=
  mkQE (List.length (filter (fun b => b) mask)) (map (fun c => (fst c, mask_column mask (snd c))) (qe_columns t))
    (option_map (mask_rows mask) (qe_weight t)) (option_map (mask_rows mask) (qe_ptype t)).
(** astropy's [np.interp(x, xp, fp)]: [xp] is converted into the unit of [x], the result has the unit of [fp].  Arrays without
    unit count as dimensionless *)
Definition q_interp (x xp : list num * qunit) (fp : list num) : res (list num) :=
  if deqb (qu_dim (snd xp)) (qu_dim (snd x)) then Sensitivity.np_interp (fst x) (map (fun e => nmul e (Fin (qu_scale (snd xp) / qu_scale (snd x)))) (fst xp)) fp
  else Err UnitConversionError.
(** an entry of an array as argument of [cone_solid_angle] *)
Definition entry (a : array_arg) (x : num) : arg := match a with APlain _ => Plain x | AQty a => Qty (mkQ x (qa_unit a)) end.
(** sensitivity.py:278-347 [estimate_background]; [theta_center], [theta_cut] are the columns of [theta_cuts] *)
Definition q_estimate_background (events : qevents) (reco_energy_bins theta_center theta_cut : array_arg) (alpha : num)
    (fov_offset_min fov_offset_max : quantity) : res qtable :=
  do offset <- get_column events "reco_source_fov_offset";
  do above <- compare_column nge offset fov_offset_min;
  do below <- compare_column nlt offset fov_offset_max;
  do bg <- q_create_histogram_table (q_rows_where events (zipwith andb above below)) reco_energy_bins;
  let (b, v) := plain_unit reco_energy_bins in
  do theta <- q_interp (bin_center b, v) (plain_unit theta_center) (fst (plain_unit theta_cut));
  do solid_angle_on <- rmap (fun x => q_cone_solid_angle (entry theta_cut x)) theta;
  do outer <- q_cone_solid_angle (Qty fov_offset_max);
  do inner <- q_cone_solid_angle (Qty fov_offset_min);
  do solid_angle_ring <- qsub outer inner;
  do size_ratio <- rmap (fun q => to_value (qdiv q solid_angle_ring) one_) solid_angle_on;
  do t <- scale_columns (filter (starts_with "n") (colnames (fst bg))) size_ratio alpha (fst bg);
  Ok (t, snd bg).

(** the edges in another unit *)
Definition convert_edges (c : R) (t : table) : table :=
  map (fun p => (fst p, if is_edge (fst p) then match snd p with CN l => CN (map (fun x => nmul x (Fin c)) l) | x => x end else snd p)) t.
Section Sensitivity.
Variable brentq : (R -> num) -> R -> R -> res R.
Variable significance_function : num -> num -> num -> num.
(** sensitivity.py:166-275 [calculate_sensitivity]: the comparison in [check_histograms] (utils.py:150-169) converts the edges of
    the background into the unit of the signal, quantities with different dimensions are not equal; the result has the edges
    of the signal.  Simplification: the number columns have no unit *)
Definition q_calculate_sensitivity (significance_array : list num -> list num -> num -> res (list num))
    (signal_hist background_hist : qtable) (alpha min_significance min_signal_events min_excess : num) : res qtable :=
  let (s, u) := signal_hist in
  let (b, v) := background_hist in
  if deqb (qu_dim u) (qu_dim v) then
    do t <- calculate_sensitivity brentq significance_function significance_array s (convert_edges (qu_scale v / qu_scale u) b)
              alpha min_significance min_signal_events min_excess;
    Ok (t, u)
  else
    do _s <- get_col s "reco_energy_low";
    do _b <- get_col b "reco_energy_low";
    Err ValueError.
End Sensitivity.
