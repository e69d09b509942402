(** * EventWeightsDouble: power laws and event weights in double precision.  Energies in TeV, lengths in m, times in s, angles in radian *)
From Coq Require Import Reals List Bool ZArith.
From Verif Require Import Num Numpy Simulations Spectral Double.
Import ListNotations.
Open Scope R_scope.

(** spectral.py:105-108 [PowerLaw.__call__].  [pow]: numpy's power of two doubles.  The units cancel without a conversion factor *)
Definition power_law_call_double (pow : num -> num -> num) (p : power_law_) (energy : num) : num :=
  let e := fdiv energy (Fin (pl_e_ref p)) in
  fmul (pl_norm p) (pow e (Fin (pl_index p))).
(** utils.py:172-187 [cone_solid_angle] of an angle in radian; [2 * np.pi] is evaluated first *)
Definition cone_solid_angle_rad_double (cosine : num -> num) (angle : R) : num :=
  fmul (fmul (Fin 2) (fl PI)) (fsub (Fin 1) (cosine (Fin angle))).
(** spectral.py:110-143 [PowerLaw.from_simulation] *)
Definition from_simulation_double (pow : num -> num -> num) (cosine : num -> num) (s : sim_info) (obstime e_ref : R) : res power_law_ :=
  let index := Fin (spectral_index s) in
  let '(solid_angle, u) :=
    if Rltb 0 (viewcone_max s - viewcone_min s)
    then (fsub (cone_solid_angle_rad_double cosine (viewcone_max s)) (cone_solid_angle_rad_double cosine (viewcone_min s)), Diffuse)
    else (Fin 1, PointSource) in
  let A := fmul (fl PI) (fmul (Fin (max_impact s)) (Fin (max_impact s))) in
  let int_index := fadd index (Fin 1) in
  let delta := fsub (pow (Fin (energy_max s)) int_index) (pow (Fin (energy_min s)) int_index) in
  let nom := fmul (fmul int_index (pow (Fin e_ref) index)) (nz (n_showers s)) in
  let denom := fmul (fmul (fmul A (Fin obstime)) solid_angle) delta in
  power_law_init (fdiv nom denom) u (spectral_index s) e_ref.
(** spectral.py:44-70 [calculate_event_weights] for two power laws; [to_value(u.one)] raises unless the units agree *)
Definition calculate_event_weights_double (pow : num -> num -> num) (energies : list num) (target simulated : power_law_) : res (list num) :=
  if unit_eqb (pl_unit target) (pl_unit simulated)
  then Ok (map (fun e => fdiv (power_law_call_double pow target e) (power_law_call_double pow simulated e)) energies) else Err UnitConversionError.
