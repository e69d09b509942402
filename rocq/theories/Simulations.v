(** * Simulations: model of pyirf/simulations.py.  Energies are in TeV, angles in radian. *)
From Coq Require Import Reals List Bool ZArith Lia Lra.
From Verif Require Import Num Numpy Binning Utils.
Import ListNotations.
Open Scope R_scope.

(** numpy [x ** p] for float [x >= 0] (negative bases give NaN: integer exponents of
    negative bases are not modelled) *)
Definition npow (x : num) (p : R) : num :=
  match x with
  | Fin a =>
      if Rltb 0 a then Fin (Rpower a p)
      else if Reqb a 0 then (if Rltb p 0 then PInf else if Reqb p 0 then Fin 1 else Fin 0)
      else NaN
  | PInf => if Rltb p 0 then Fin 0 else if Reqb p 0 then Fin 1 else PInf
  | _ => NaN
  end.

(** simulations.py:13-44: the attributes *)
Record sim_info := mkSim {
  n_showers : Z; energy_min : R; energy_max : R; max_impact : R; spectral_index : R;
  viewcone_min : R; viewcone_max : R }.
(** simulations.py:46-69 [__init__] (units are checked by the decorator: not modelled) *)
Definition simulated_events_info (n : Z) (emin emax impact index vmin vmax : R) : res sim_info :=
  if Rltb (-1) index then Err ValueError
  else Ok (mkSim n emin emax impact index vmin vmax).
Definition nz (z : Z) : num := Fin (IZR z).

(** simulations.py:290-300 [_powerlaw_pdf_integral], one bin *)
Definition powerlaw_pdf_integral (index : R) (e_low e_high e_min e_max : num) : num :=
  let int_index := index + 1 in
  let normalization := ndiv (Fin 1) (nsub (npow e_max int_index) (npow e_min int_index)) in
  let e_term := nsub (npow e_high int_index) (npow e_low int_index) in
  nmul e_term normalization.
(** simulations.py:98-115, one bin: the masked assignments in order *)
Definition energy_integral (s : sim_info) (e_low e_high : num) : num :=
  let e_min := Fin (energy_min s) in
  let e_max := Fin (energy_max s) in
  let integral := powerlaw_pdf_integral (spectral_index s) e_low e_high e_min e_max in
  let integral := if nle e_high e_min then Fin 0 else integral in
  let integral := if nge e_low e_max then Fin 0 else integral in
  let integral := if ngt e_high e_max && nlt e_low e_max
                  then powerlaw_pdf_integral (spectral_index s) e_low e_max e_min e_max else integral in
  let integral := if ngt e_high e_min && nlt e_low e_min
                  then powerlaw_pdf_integral (spectral_index s) e_min e_high e_min e_max else integral in
  integral.
(** simulations.py:71-115 [calculate_n_showers_per_energy] *)
Definition calculate_n_showers_per_energy (s : sim_info) (energy_bins : list num) : list num :=
  zipwith (fun lo hi => nmul (nz (n_showers s)) (energy_integral s lo hi)) (but_last energy_bins) (tl energy_bins).

(** simulations.py:303-331 [_viewcone_pdf_integral], one bin; the ValueError is raised
    before the loop, see below *)
Definition viewcone_bin (vmin vmax fov_low fov_high : R) : num :=
  let norm := ndiv (Fin 1) (Fin (cos vmin - cos vmax)) in
  let integral :=
    if Rleb vmin fov_high && Rleb fov_low vmax then
      let lower := if Rltb vmin fov_low then fov_low else vmin in
      let upper := if Rltb fov_high vmax then fov_high else vmax in
      cos lower - cos upper
    else 0 in
  nmul (Fin integral) norm.
Definition viewcone_pdf_integral (vmin vmax : R) (fov_low fov_high : list R) : res (list num) :=
  if Reqb (vmax - vmin) 0 then Err ValueError
  else Ok (zipwith (viewcone_bin vmin vmax) fov_low fov_high).
(** simulations.py:117-141 [calculate_n_showers_per_fov] *)
Definition calculate_n_showers_per_fov (s : sim_info) (fov_bins : list R) : res (list num) :=
  do i <- viewcone_pdf_integral (viewcone_min s) (viewcone_max s) (but_last fov_bins) (tl fov_bins);
  Ok (map (nmul (nz (n_showers s))) i).
(** simulations.py:143-173 [calculate_n_showers_per_energy_and_fov] *)
Definition calculate_n_showers_per_energy_and_fov (s : sim_info) (energy_bins : list num) (fov_bins : list R)
    : res (list (list num)) :=
  let e_integral := calculate_n_showers_per_energy s energy_bins in
  do fov_integral <- calculate_n_showers_per_fov s fov_bins;
  Ok (map (fun e => map (fun f => ndiv (nmul e f) (nz (n_showers s))) fov_integral) e_integral).
(** simulations.py:175-219 [calculate_n_showers_3d_polar]; the position angle bins only
    enter through their number *)
Definition calculate_n_showers_3d_polar (s : sim_info) (energy_bins : list num) (fov_offset_bins pa_bins : list R)
    : res (list (list (list num))) :=
  do e_fov <- calculate_n_showers_per_energy_and_fov s energy_bins fov_offset_bins;
  do viewcone_integral <- calculate_n_showers_per_fov s [viewcone_min s; viewcone_max s];
  let n_bins_pa := (length pa_bins - 1)%nat in
  match viewcone_integral with
  | [v] =>
      let position_angle_integral := repeat (ndiv v (nz (Z.of_nat n_bins_pa))) n_bins_pa in
      Ok (map (fun row => map (fun x =>
            map (fun p => ndiv (nmul x p) (nz (n_showers s))) position_angle_integral) row) e_fov)
  | _ => Err ValueError
  end.

(** ** lon/lat grids.  A grid [np.meshgrid(lon, lat)] is the list of rows over [lat], each
    row running over [lon].  Edges are given in units of [u] radian. *)
Definition meshgrid {A} (f : R -> R -> A) (lon lat : list R) : list (list A) :=
  map (fun b => map (fun l => f l b) lon) lat.
Definition centers (edges : list R) : list R := zipwith (fun a b => (a + b) / 2) (but_last edges) (tl edges).
(** [np.linspace(a, b, n + 1)] *)
Definition linspace (a b : R) (n : nat) : list R :=
  map (fun i => a + INR i * ((b - a) / INR n)) (seq 0 (S n)).
Definition degree : R := PI / 180.
(** distance of a direction (lon, lat in radian) to the field of view centre *)
Definition fov_radius (lon lat : R) : R := angular_separation lon lat 0 0.
(** simulations.py:333-444 [_fov_lonlat_grid_overlap], the fraction of the subpixels of one
    bin whose centers are inside the viewcone (lines 411-440).  [np.array] at lines 412-417
    drops the unit of the edges, lines 422-423 then take the numbers as degree. *)
Definition count_true (l : list bool) : Z := Z.of_nat (length (filter (fun b => b) l)).
Definition subpixel_fraction (vmin vmax lon0 lat0 width_lon width_lat : R) (subpixels : nat) : num :=
  let subpixel_lon := centers (linspace lon0 (lon0 + width_lon) subpixels) in
  let subpixel_lat := centers (linspace lat0 (lat0 + width_lat) subpixels) in
  let mask := concat (meshgrid (fun l b =>
     let r := fov_radius (l * degree) (b * degree) in Rleb r vmax && Rleb vmin r) subpixel_lon subpixel_lat) in
  ndiv (nz (count_true mask)) (nz (Z.of_nat (subpixels * subpixels))).
(** simulations.py:375-381, 392-406: the bin is partially covered, judged by its center (lc, bc) and
    the width of the first bin *)
Definition edge_bin (ulon ulat vmin vmax width_lon width_lat lc bc : R) : bool :=
  let radius := fov_radius (lc * ulon) (bc * ulat) in
  let bin_max_radius := sqrt ((width_lon * ulon) * (width_lon * ulon) + (width_lat * ulat) * (width_lat * ulat)) * (1/2) in
  let outer := Rltb radius (vmax + bin_max_radius) && Rltb (vmax - bin_max_radius) radius in
  let inner := Rltb radius (vmin + bin_max_radius) && Rltb (vmin - bin_max_radius) radius in
  inner || outer.
(** simulations.py:383-390, 409, 442 for one bin with lower left corner (lon0, lat0) *)
Definition bin_overlap (ulon ulat vmin vmax width_lon width_lat lon0 lat0 lc bc : R) (subpixels : nat) : num :=
  let radius := fov_radius (lc * ulon) (bc * ulat) in
  let area := if Rltb vmax radius || Rltb radius vmin then Fin 0 else Fin 1 in
  if edge_bin ulon ulat vmin vmax width_lon width_lat lc bc
  then subpixel_fraction vmin vmax lon0 lat0 width_lon width_lat subpixels else area.
(** simulations.py:333-444, the three outcomes *)
Inductive overlap := All (v : num) | Grid (g : list (list num)).
Definition fov_lonlat_grid_overlap (s : sim_info) (ulon ulat : R) (lon lat : list R) (subpixels : nat) : res overlap :=
  let dist := concat (meshgrid (fun l b => fov_radius (l * ulon) (b * ulat)) lon lat) in
  let vmin := viewcone_min s in
  let vmax := viewcone_max s in
  let all_outside := forallb (fun d => Rleb d vmin) dist || forallb (fun d => Rleb vmax d) dist in
  let all_inside := forallb (fun d => Rleb d vmax) dist && forallb (fun d => Rleb vmin d) dist in
  if all_outside then Ok (All (Fin 0))
  else if all_inside then Ok (All (Fin 1))
  else
    match lon, lat with
    | l0 :: l1 :: _, b0 :: b1 :: _ =>
        (* without any partially covered bin, [subpixel_grid[:,0]] at line 429 raises *)
        if negb (existsb (fun x => x) (concat (meshgrid (edge_bin ulon ulat vmin vmax (l1 - l0) (b1 - b0)) (centers lon) (centers lat))))
        then Err IndexError
        else Ok (Grid (zipwith (fun b bc => zipwith (fun l lc =>
             bin_overlap ulon ulat vmin vmax (l1 - l0) (b1 - b0) l b lc bc subpixels)
           (but_last lon) (centers lon)) (but_last lat) (centers lat)))
    | _, _ => Err IndexError
    end.
Definition times_overlap (o : overlap) (g : list (list num)) : list (list num) :=
  match o with
  | All v => map (map (nmul v)) g
  | Grid a => zipwith (zipwith nmul) a g
  end.
(** simulations.py:221-274 [calculate_n_showers_3d_lonlat] *)
Definition calculate_n_showers_3d_lonlat (s : sim_info) (energy_bins : list num) (ulon ulat : R) (lon lat : list R)
    (subpixels : nat) : res (list (list (list num))) :=
  do fov_overlap <- fov_lonlat_grid_overlap s ulon ulat lon lat subpixels;
  let viewcone_area := cone_solid_angle (viewcone_max s) - cone_solid_angle (viewcone_min s) in
  let shower_density := ndiv (nz (n_showers s)) (Fin viewcone_area) in
  let bin_area := zipwith (fun b b' => zipwith (fun l l' =>
        rectangle_solid_angle (l * ulon) (l' * ulon) (b * ulat) (b' * ulat)) (but_last lon) (tl lon)) (but_last lat) (tl lat) in
  let fov_integral := map (map (fun a => nmul shower_density (Fin a))) bin_area in
  let e_integral := calculate_n_showers_per_energy s energy_bins in
  let fov_integral := times_overlap fov_overlap fov_integral in
  Ok (map (fun e => map (map (fun f => ndiv (nmul e f) (nz (n_showers s)))) fov_integral) e_integral).
