(** * SimulationUnits: pyirf/simulations.py with energies, lengths and angles in any units
    (Simulations.v is the same code for numbers in TeV, m, rad). *)
From Coq Require Import Reals ZArith List Bool Lra.
From Verif Require Import Num Numpy Utils Simulations Quantities SpectralUnits.
Import ListNotations.
Open Scope R_scope.

(** simulations.py:46-69 [__init__]: the decorator checks the arguments in the order of the signature; the quantities hold
    finite numbers *)
Inductive fin_arg := FPlain (x : R) | FQty (x : R) (u : qunit).
Definition fin_input (u : qunit) (a : fin_arg) : res (R * qunit) :=
  match a with FPlain _ => Err TypeError | FQty x v => if deqb (qu_dim v) (qu_dim u) then Ok (x, v) else Err UnitsError end.
Definition q_sim_info (n : Z) (energy_min energy_max max_impact : fin_arg) (index : R) (viewcone_min viewcone_max : fin_arg) : res qsim :=
  do emin <- fin_input TeV energy_min;
  do emax <- fin_input TeV energy_max;
  do impact <- fin_input metre max_impact;
  do vmin <- fin_input deg viewcone_min;
  do vmax <- fin_input deg viewcone_max;
  if Rltb (-1) index then Err ValueError else Ok (mkQSim n emin emax impact index vmin vmax).

(** [a < b] etc. for quantities: the second in the unit of the first *)
Definition q_cmp (f : num -> num -> bool) (a b : quantity) : res bool := do v <- to_value b (q_unit a); Ok (f (q_val a) v).
(** simulations.py:290-300 [_powerlaw_pdf_integral], one bin *)
Definition q_powerlaw_pdf_integral (index : R) (e_low e_high e_min e_max : quantity) : res num :=
  do e_low <- to_value e_low TeV;
  do e_high <- to_value e_high TeV;
  do e_min <- to_value e_min TeV;
  do e_max <- to_value e_max TeV;
  Ok (powerlaw_pdf_integral index e_low e_high e_min e_max).
(** simulations.py:91-115, one bin *)
Definition q_energy_integral (s : qsim) (e_low e_high : quantity) : res num :=
  let e_min := qty (qs_energy_min s) in
  let e_max := qty (qs_energy_max s) in
  do integral <- q_powerlaw_pdf_integral (qs_index s) e_low e_high e_min e_max;
  do below <- q_cmp nle e_high e_min;
  let integral := if below then Fin 0 else integral in
  do above <- q_cmp nge e_low e_max;
  let integral := if above then Fin 0 else integral in
  do m1 <- q_cmp ngt e_high e_max;
  do m2 <- q_cmp nlt e_low e_max;
  do integral <- (if m1 && m2 then q_powerlaw_pdf_integral (qs_index s) e_low e_max e_min e_max else Ok integral);
  do m1 <- q_cmp ngt e_high e_min;
  do m2 <- q_cmp nlt e_low e_min;
  if m1 && m2 then q_powerlaw_pdf_integral (qs_index s) e_min e_high e_min e_max else Ok integral.
Fixpoint rlist {A} (l : list (res A)) : res (list A) :=
  match l with [] => Ok [] | x :: l => do a <- x; do r <- rlist l; Ok (a :: r) end.
(** simulations.py:71-115 [calculate_n_showers_per_energy] *)
Definition q_n_showers_per_energy (s : qsim) (energy_bins : array_arg) : res (list num) :=
  do bins <- array_input TeV energy_bins;
  let edge x := mkQ x (qa_unit bins) in
  rlist (zipwith (fun lo hi => do i <- q_energy_integral s (edge lo) (edge hi); Ok (nmul (nz (qs_n_showers s)) i)) (but_last (qa_val bins)) (tl (qa_val bins))).

(** simulations.py:303-331 [_viewcone_pdf_integral]: angles [x u]; [np.cos] converts to rad; [np.where] gives the unit of
    the bins *)
Definition in_unit (x : R * qunit) (u : qunit) : R := fst x * (qu_scale (snd x) / qu_scale u).
Definition q_viewcone_bin (vmin vmax : R * qunit) (u : qunit) (fov_low fov_high : R) : num :=
  let norm := ndiv (Fin 1) (Fin (cos (in_unit vmin rad) - cos (in_unit vmax rad))) in
  let integral :=
    if Rleb (in_unit vmin u) fov_high && Rleb fov_low (in_unit vmax u) then
      let lower := if Rltb (in_unit vmin u) fov_low then fov_low else in_unit vmin u in
      let upper := if Rltb fov_high (in_unit vmax u) then fov_high else in_unit vmax u in
      cos (in_unit (lower, u) rad) - cos (in_unit (upper, u) rad)
    else 0 in
  nmul (Fin integral) norm.
Definition q_viewcone_pdf_integral (vmin vmax : R * qunit) (u : qunit) (fov_low fov_high : list R) : res (list num) :=
  if Reqb (fst vmax - in_unit vmin (snd vmax)) 0 then Err ValueError
  else if deqb (qu_dim u) (qu_dim (snd vmin)) && deqb (qu_dim u) (qu_dim (snd vmax)) then Ok (zipwith (q_viewcone_bin vmin vmax u) fov_low fov_high)
  else Err UnitConversionError.
(** simulations.py:117-141 [calculate_n_showers_per_fov]: no decorator *)
Definition q_n_showers_per_fov (s : qsim) (fov_bins : list R) (u : qunit) : res (list num) :=
  do i <- q_viewcone_pdf_integral (qs_viewcone_min s) (qs_viewcone_max s) u (but_last fov_bins) (tl fov_bins);
  Ok (map (nmul (nz (qs_n_showers s))) i).
(** angle arrays: with or without unit *)
Inductive angle_arg := GPlain (l : list R) | GQty (l : list R) (u : qunit).
Definition angle_array (u : qunit) (a : angle_arg) : res (list R * qunit) :=
  match a with GPlain _ => Err TypeError | GQty l v => if deqb (qu_dim v) (qu_dim u) then Ok (l, v) else Err UnitsError end.
(** simulations.py:143-173 [calculate_n_showers_per_energy_and_fov] *)
Definition q_n_showers_per_energy_and_fov (s : qsim) (energy_bins : array_arg) (fov_bins : angle_arg) : res (list (list num)) :=
  do energy <- array_input TeV energy_bins;
  do fov <- angle_array deg fov_bins;
  do e_integral <- q_n_showers_per_energy s (AQty energy);
  do fov_integral <- q_n_showers_per_fov s (fst fov) (snd fov);
  Ok (map (fun e => map (fun f => ndiv (nmul e f) (nz (qs_n_showers s))) fov_integral) e_integral).
(** simulations.py:175-219 [calculate_n_showers_3d_polar]; [[viewcone_min, viewcone_max] * u.deg] converts both to degrees *)
Definition q_n_showers_3d_polar (s : qsim) (energy_bins : array_arg) (fov_offset_bins pa_bins : angle_arg) : res (list (list (list num))) :=
  do energy <- array_input TeV energy_bins;
  do offset <- angle_array deg fov_offset_bins;
  do pa <- angle_array rad pa_bins;
  do e_fov <- q_n_showers_per_energy_and_fov s (AQty energy) (GQty (fst offset) (snd offset));
  do viewcone_integral <- q_n_showers_per_fov s [in_unit (qs_viewcone_min s) deg; in_unit (qs_viewcone_max s) deg] deg;
  let n_bins_pa := (length (fst pa) - 1)%nat in
  match viewcone_integral with
  | [v] =>
      let position_angle_integral := repeat (ndiv v (nz (Z.of_nat n_bins_pa))) n_bins_pa in
      Ok (map (fun row => map (fun x =>
            map (fun p => ndiv (nmul x p) (nz (qs_n_showers s))) position_angle_integral) row) e_fov)
  | _ => Err ValueError
  end.
