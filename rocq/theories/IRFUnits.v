(** * IRFUnits: pyirf/irf with event tables, bins and simulations in any units (IRF.v is the same
    code for numbers in TeV, degree, rad for position angles, m^2, s) *)
From Coq Require Import String Reals List Bool ZArith Arith.
From Verif Require Import Num Numpy Table Binning Utils Simulations Tensor IRF Quantities SpectralUnits SimulationUnits.
Import ListNotations.
Open Scope R_scope.

(** an astropy QTable of events: columns with a unit are quantities; [weight] holds finite numbers without unit,
    [particle_type] texts.  All columns have [qe_rows] entries. *)
Record qevents := mkQE {
  qe_rows : nat; qe_columns : list (string * array_arg); qe_weight : option (list R); qe_ptype : option (list string) }.
(** [events[name]] *)
Definition get_column (t : qevents) (name : string) : res array_arg :=
  match find (fun c => String.eqb (fst c) name) (qe_columns t) with Some c => Ok (snd c) | None => Err KeyError end.
Definition get_weight (t : qevents) : res (list R) := match qe_weight t with Some w => Ok w | None => Err KeyError end.
(** [a.to_value(u)]; an array without unit has no such method *)
Definition array_value (a : array_arg) (u : qunit) : res (list num) :=
  match a with
  | APlain _ => Err AttributeError
  | AQty a => if deqb (qu_dim (qa_unit a)) (qu_dim u) then Ok (map (fun x => nmul x (Fin (qu_scale (qa_unit a) / qu_scale u))) (qa_val a)) else Err UnitConversionError
  end.
Definition angle_value (a : angle_arg) (u : qunit) : res (list R) :=
  match a with
  | GPlain _ => Err AttributeError
  | GQty l v => if deqb (qu_dim v) (qu_dim u) then Ok (map (fun x => in_unit (x, v) u) l) else Err UnitConversionError
  end.
Definition column_value (t : qevents) (name : string) (u : qunit) : res (list num) := do c <- get_column t name; array_value c u.
(** [np.histogramdd(np.column_stack(columns), bins)]: the rows are the events *)
Definition rows_hist (t : qevents) (dims : list (list num * list num)) (weights : list R) : res tensor :=
  histogramdd (map (fun d => (fun i => nth i (fst d) NaN, snd d)) dims) (fun i => nth i weights 0) (seq 0 (qe_rows t)).
Definition ones (t : qevents) : list R := repeat 1 (qe_rows t).

(** ** irf/effective_area.py *)
(** effective_area.py:15-29 with its decorator; the result has the unit of the area *)
Definition q_effective_area (n_selected n_simulated : tensor) (area : R * qunit) : res (tensor * qunit) :=
  if deqb (qu_dim (snd area)) (qu_dim (umul metre metre)) then
    do ratio <- tbin ndiv n_selected n_simulated;
    Ok (tmap (fun x => nmul x (Fin (fst area))) ratio, snd area)
  else Err UnitsError.
(** [np.pi * simulation_info.max_impact ** 2] *)
Definition q_area (s : qsim) : R * qunit :=
  let x := qs_max_impact s in (PI * (fst x * fst x), umul (snd x) (snd x)).
(** binning.py:183-234 for the key [true_energy]: astropy's [np.histogram] converts the bins into the unit of the column
    (a number without unit is dimensionless) *)
Definition plain_unit (a : array_arg) : list num * qunit := match a with APlain l => (l, one_) | AQty a => (qa_val a, qa_unit a) end.
Definition nth_string (l : option (list string)) (i : nat) : string := match l with Some l => nth i l ""%string | None => ""%string end.
Definition q_histogram_table (t : qevents) (bins : array_arg) (key : string) : res table :=
  do c <- get_column t key;
  let (x, u) := plain_unit c in
  let (b, v) := plain_unit bins in
  if deqb (qu_dim v) (qu_dim u) then
    create_histogram_table
      (mkEvents (map (fun i => mkEvent (nth i x NaN) (match qe_weight t with Some w => nth i w 0 | None => 0 end) (nth_string (qe_ptype t) i)) (seq 0 (qe_rows t)))
         (match qe_weight t with Some _ => true | None => false end) (match qe_ptype t with Some _ => true | None => false end))
      (map (fun e => nmul e (Fin (qu_scale v / qu_scale u))) b) key
  else Err UnitConversionError.
(** effective_area.py:32-52 *)
Definition q_effective_area_per_energy (t : qevents) (s : qsim) (bins : array_arg) : res (tensor * qunit) :=
  do hist_selected <- q_histogram_table t bins "true_energy";
  do hist_simulated <- q_n_showers_per_energy s bins;
  match getitem hist_selected "n" with
  | Some (CZ n) => q_effective_area (vec (map nz n)) (vec hist_simulated) (q_area s)
  | _ => Err KeyError
  end.
(** effective_area.py:55-89 *)
Definition q_effective_area_per_energy_and_fov (t : qevents) (s : qsim) (energy_bins : array_arg) (fov_bins : angle_arg) : res (tensor * qunit) :=
  do hist_simulated <- q_n_showers_per_energy_and_fov s energy_bins fov_bins;
  do energy <- column_value t "true_energy" TeV;
  do offset <- column_value t "true_source_fov_offset" deg;
  do ebins <- array_value energy_bins TeV;
  do fbins <- angle_value fov_bins deg;
  do hist_selected <- rows_hist t [(energy, ebins); (offset, map Fin fbins)] (ones t);
  q_effective_area hist_selected (of_lists2 hist_simulated) (q_area s).
(** effective_area.py:92-139 *)
Definition q_effective_area_3d_polar (t : qevents) (s : qsim) (energy_bins : array_arg) (fov_bins pa_bins : angle_arg) : res (tensor * qunit) :=
  do hist_simulated <- q_n_showers_3d_polar s energy_bins fov_bins pa_bins;
  do energy <- column_value t "true_energy" TeV;
  do offset <- column_value t "true_source_fov_offset" deg;
  do pa <- column_value t "true_source_fov_position_angle" rad;
  do ebins <- array_value energy_bins TeV;
  do fbins <- angle_value fov_bins deg;
  do pbins <- angle_value pa_bins rad;
  do hist_selected <- rows_hist t [(energy, ebins); (offset, map Fin fbins); (pa, map Fin pbins)] (ones t);
  q_effective_area hist_selected (of_lists3 hist_simulated) (q_area s).

(** ** irf/energy_dispersion.py *)
(** energy_dispersion.py:61-63: [(reco / true).to_value(u.one)] *)
Definition q_migration (reco true_ : array_arg) : res (list num) :=
  let (r, ur) := plain_unit reco in
  let (t, ut) := plain_unit true_ in
  match reco, true_ with
  | APlain _, APlain _ => Err AttributeError
  | _, _ =>
      let u := udiv ur ut in
      if deqb (qu_dim u) dnone then Ok (zipwith (fun a b => nmul (ndiv a b) (Fin (qu_scale u))) r t) else Err UnitConversionError
  end.
(** energy_dispersion.py:32-84; the migration bins are numbers *)
Definition q_energy_dispersion (t : qevents) (true_energy_bins fov_offset_bins : array_arg) (migration_bins : list num) : res tensor :=
  do reco <- get_column t "reco_energy";
  do true_ <- get_column t "true_energy";
  do mu <- q_migration reco true_;
  do energy <- column_value t "true_energy" TeV;
  do offset <- column_value t "true_source_fov_offset" deg;
  do ebins <- array_value true_energy_bins TeV;
  do fbins <- array_value fov_offset_bins deg;
  do hist <- rows_hist t [(energy, ebins); (mu, migration_bins); (offset, fbins)] (ones t);
  normalize_hist hist migration_bins.
(** energy_dispersion.py:87-134 with its decorator *)
Definition q_energy_migration_matrix (t : qevents) (true_energy_bins reco_energy_bins fov_offset_bins : array_arg) : res tensor :=
  do tb <- array_input TeV true_energy_bins;
  do rb <- array_input TeV reco_energy_bins;
  do fb <- array_input deg fov_offset_bins;
  do energy <- column_value t "true_energy" TeV;
  do reco <- column_value t "reco_energy" TeV;
  do offset <- column_value t "true_source_fov_offset" deg;
  do ebins <- array_value (AQty tb) TeV;
  do rbins <- array_value (AQty rb) TeV;
  do fbins <- array_value (AQty fb) deg;
  do hist <- rows_hist t [(energy, ebins); (reco, rbins); (offset, fbins)] (ones t);
  do h <- tbin ndiv hist (newaxis 1 (tsum 1 hist));
  Ok (tmap (fun x => if is_nan x then Fin 0 else x) h).
(** binning.py:237-300 [resample_histogram1d] for finite edges in units: the old edges are converted into the unit of the
    new ones, the spline then only sees numbers *)
Definition q_resample (itp : list R -> list R -> R -> R) (data : list R) (old : list R * qunit) (new : list num * qunit) : res (list R) :=
  if deqb (qu_dim (snd old)) (qu_dim (snd new)) then
    resample_histogram1d itp false data (map (fun x => Fin (in_unit (x, snd old) (snd new))) (fst old)) (fst new)
  else Err UnitConversionError.
(** energy_dispersion.py:137-217, simplifications as in IRF.v; the migration edges are numbers, energies [(numbers, unit)] *)
Definition q_energy_dispersion_to_migration (itp : list R -> list R -> R -> R)
    (disp : nat -> nat -> nat -> R) (n_true n_migra n_fov : nat)
    (disp_true_edges : list R * qunit) (disp_migration_edges : list R) (new_true_edges new_reco_edges : list R * qunit) : res (list (list (list R))) :=
  let migra_width := diffR disp_migration_edges in
  let probability i j k := disp i j k * nth j migra_width 0 in
  do tei <- rmap (fun k => rmap (fun j =>
      q_resample itp (map (fun i => probability i j k) (seq 0 n_true)) disp_true_edges (map Fin (fst new_true_edges), snd new_true_edges))
      (seq 0 n_migra)) (seq 0 n_fov);
  let e_true_centers := zipwith (fun a b => (b + a) / 2) (but_last (fst new_true_edges)) (tl (fst new_true_edges)) in
  rmap (fun idx_e => let '(idx, e_true) := idx_e in
    rmap (fun rows =>
      let column := map (fun row => nth idx row 0) rows in
      let norm := rsum column in
      let norm := if Reqb norm 0 then 1 else norm in
      let e_true_dispersion := map (fun v => v / norm) column in
      q_resample itp e_true_dispersion (disp_migration_edges, one_)
        (map (fun r => ndiv (Fin r) (Fin e_true)) (fst new_reco_edges), udiv (snd new_reco_edges) (snd new_true_edges)))
    tei) (combine (seq 0 (List.length e_true_centers)) e_true_centers).

(** ** irf/psf.py *)
(** psf.py:33-45: [np.cos] converts to radian *)
Definition q_solid_angles (l : list R) (u : qunit) : list num := ndiff (map (fun x => Fin (cone_solid_angle (in_unit (x, u) rad))) l).
Definition q_normalize_psf (hist : tensor) (l : list R) (u : qunit) : res (tensor * qunit) :=
  let n_events := tsum 2 hist in
  do psf <- tbin ndiv hist (newaxis 2 n_events);
  do r <- tbin ndiv (tmap default_nan_to_num psf) (vec (q_solid_angles l u));
  Ok (r, udiv one_ sr).
(** psf.py:7-30 *)
Definition q_psf_table (t : qevents) (true_energy_bins : array_arg) (source_offset_bins : angle_arg) (fov_offset_bins : array_arg) : res (tensor * qunit) :=
  do energy <- column_value t "true_energy" TeV;
  do offset <- column_value t "true_source_fov_offset" deg;
  do theta <- column_value t "theta" deg;
  do ebins <- array_value true_energy_bins TeV;
  do fbins <- array_value fov_offset_bins deg;
  do sbins <- angle_value source_offset_bins deg;
  do hist <- rows_hist t [(energy, ebins); (offset, fbins); (theta, map Fin sbins)] (ones t);
  match source_offset_bins with
  | GPlain _ => Err AttributeError
  | GQty l u => q_normalize_psf hist l u
  end.

(** ** irf/background.py *)
(** background.py:7 *)
Definition BACKGROUND_UNIT : qunit := udiv (udiv (udiv one_ second) TeV) sr.
(** [x.to(BACKGROUND_UNIT)] *)
Definition to_background_unit (x : tensor) (u : qunit) : res (tensor * qunit) :=
  if deqb (qu_dim u) (qu_dim BACKGROUND_UNIT) then Ok (tmap (fun v => nmul v (Fin (qu_scale u / qu_scale BACKGROUND_UNIT))) x, BACKGROUND_UNIT)
  else Err UnitConversionError.
Definition fin_unit (a : fin_arg) : R * qunit := match a with FPlain x => (x, one_) | FQty x u => (x, u) end.
(** background.py:10-58 *)
Definition q_background_2d (t : qevents) (reco_energy_bins : array_arg) (fov_offset_bins : angle_arg) (t_obs : fin_arg) : res (tensor * qunit) :=
  do energy <- column_value t "reco_energy" TeV;
  do offset <- column_value t "reco_source_fov_offset" deg;
  do ebins <- array_value reco_energy_bins TeV;
  do fbins <- angle_value fov_offset_bins deg;
  do w <- get_weight t;
  do hist <- rows_hist t [(energy, ebins); (offset, map Fin fbins)] w;
  match reco_energy_bins, fov_offset_bins with
  | AQty e, GQty l u =>
      let bin_width_energy := ndiff (qa_val e) in
      do per_energy <- tbin ndiv (transpose2 hist) (vec bin_width_energy);
      let per_energy := transpose2 per_energy in
      let (obs, ut) := fin_unit t_obs in
      do bg_rate <- tbin ndiv (tmap (fun x => ndiv x (Fin obs)) per_energy) (vec (q_solid_angles l u));
      to_background_unit bg_rate (udiv (udiv (udiv one_ (qa_unit e)) ut) sr)
  | _, _ => Err AttributeError
  end.
(** utils.py:190-213 on arrays *)
Definition q_rectangle_solid_angles (lon : list R) (ulon : qunit) (lat : list R) (ulat : qunit) : res tensor :=
  tbin nmul (vec (map Fin (zipwith (fun a b => in_unit (b - a, ulon) rad) (but_last lon) (tl lon))))
            (vec (map Fin (zipwith (fun a b => sin (in_unit (b, ulat) rad) - sin (in_unit (a, ulat) rad)) (but_last lat) (tl lat)))).
(** background.py:61-122 *)
Definition q_background_3d_lonlat (t : qevents) (reco_energy_bins : array_arg) (fov_lon_bins fov_lat_bins : angle_arg) (t_obs : fin_arg) : res (tensor * qunit) :=
  do energy <- column_value t "reco_energy" TeV;
  do lon <- column_value t "reco_source_fov_lon" deg;
  do lat <- column_value t "reco_source_fov_lat" deg;
  do ebins <- array_value reco_energy_bins TeV;
  do lonbins <- angle_value fov_lon_bins deg;
  do latbins <- angle_value fov_lat_bins deg;
  do w <- get_weight t;
  do hist <- rows_hist t [(energy, ebins); (lon, map Fin lonbins); (lat, map Fin latbins)] w;
  match reco_energy_bins, fov_lon_bins, fov_lat_bins with
  | AQty e, GQty llon ulon, GQty llat ulat =>
      do per_energy <- tbin ndiv hist (newaxis 1 (newaxis 1 (vec (ndiff (qa_val e)))));
      do bin_solid_angle <- q_rectangle_solid_angles llon ulon llat ulat;
      let (obs, ut) := fin_unit t_obs in
      do bg_rate <- tbin ndiv (tmap (fun x => ndiv x (Fin obs)) per_energy) bin_solid_angle;
      to_background_unit bg_rate (udiv (udiv (udiv one_ (qa_unit e)) ut) sr)
  | _, _, _ => Err AttributeError
  end.
