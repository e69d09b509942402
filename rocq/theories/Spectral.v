(** * Spectral: model of pyirf/spectral.py.  Energies are in TeV, angles in radian; a flux
    is a number in 1/(TeV s m^2), or in 1/(TeV s m^2 sr) if it is diffuse. *)
From Coq Require Import Reals List Bool ZArith Lia Lra.
From Verif Require Import Num Numpy Sort Utils Simulations.
Import ListNotations.
Open Scope R_scope.

(** spectral.py:16-24: the two flux units *)
Inductive flux_unit := PointSource | Diffuse.
Definition unit_eqb (a b : flux_unit) : bool :=
  match a, b with PointSource, PointSource | Diffuse, Diffuse => true | _, _ => false end.
Definition flux : Type := num * flux_unit.

(** [np.log10], [np.exp] *)
Definition nlog10 (x : num) : num :=
  match x with
  | Fin a => if Rltb 0 a then Fin (ln a / ln 10) else if Reqb a 0 then NInf else NaN
  | PInf => PInf | _ => NaN end.
Definition nexp (x : num) : num :=
  match x with Fin a => Fin (exp a) | PInf => PInf | NInf => Fin 0 | NaN => NaN end.
(** [x ** y] for an exponent that may be infinite or NaN, x >= 0 *)
Definition npown (x y : num) : num :=
  match y with
  | Fin p => npow x p
  | NaN => if neqb x (Fin 1) then Fin 1 else NaN
  | PInf => if nlt x (Fin 1) then Fin 0 else if neqb x (Fin 1) then Fin 1 else x
  | NInf => if nlt x (Fin 1) then PInf else if neqb x (Fin 1) then Fin 1 else if is_nan x then NaN else Fin 0
  end.

(** the spectrum classes: PowerLaw (73-174), LogParabola (177-216) and
    PowerLawWithExponentialGaussian (219-283), a subclass of PowerLaw *)
Record power_law_ := mkPL { pl_norm : num; pl_unit : flux_unit; pl_index : R; pl_e_ref : R }.
Inductive spectrum :=
| PowerLaw (p : power_law_)
| LogParabola (norm : num) (u : flux_unit) (a b e_ref : R)
| ExpGauss (p : power_law_) (f mu sigma : R).

(** spectral.py:93-103 [PowerLaw.__init__] *)
Definition power_law_init (norm : num) (u : flux_unit) (index e_ref : R) : res power_law_ :=
  if Rltb 0 index then Err ValueError else Ok (mkPL norm u index e_ref).
(** spectral.py:258-266 [PowerLawWithExponentialGaussian.__init__] *)
Definition exp_gauss_init (norm : num) (u : flux_unit) (index e_ref f mu sigma : R) : res spectrum :=
  do p <- power_law_init norm u index e_ref; Ok (ExpGauss p f mu sigma).
(** spectral.py:105-108 *)
Definition power_law_call (p : power_law_) (energy : num) : num :=
  let e := ndiv energy (Fin (pl_e_ref p)) in
  nmul (pl_norm p) (npow e (pl_index p)).
(** [__call__]: spectral.py:105-108, 210-213, 268-281 *)
Definition call (s : spectrum) (energy : num) : flux :=
  match s with
  | PowerLaw p => (power_law_call p energy, pl_unit p)
  | LogParabola norm u a b e_ref =>
      let e := ndiv energy (Fin e_ref) in
      (nmul norm (npown e (nadd (Fin a) (nmul (Fin b) (nlog10 e)))), u)
  | ExpGauss p f mu sigma =>
      let power := power_law_call p energy in
      let e := ndiv energy (Fin (pl_e_ref p)) in
      let log10_e := nlog10 e in
      let z := ndiv (nsub log10_e (Fin mu)) (Fin sigma) in
      let gauss := nexp (nmul (Fin (- (1 / 2))) (nmul z z)) in
      (nmul power (nadd (Fin 1) (nmul (Fin f) (nsub (nexp gauss) (Fin 1)))), pl_unit p)
  end.

(** spectral.py:110-143 [PowerLaw.from_simulation]; [obstime] in s *)
Definition from_simulation (s : sim_info) (obstime e_ref : R) : res power_law_ :=
  let index := spectral_index s in
  let '(solid_angle, u) :=
    if Rltb 0 (viewcone_max s - viewcone_min s)
    then (cone_solid_angle (viewcone_max s) - cone_solid_angle (viewcone_min s), Diffuse)
    else (1, PointSource) in
  let A := PI * (max_impact s * max_impact s) in
  let delta := nsub (npow (Fin (energy_max s)) (index + 1)) (npow (Fin (energy_min s)) (index + 1)) in
  let nom := nmul (nmul (Fin (index + 1)) (npow (Fin e_ref) index)) (nz (n_showers s)) in
  let denom := nmul (Fin (A * obstime * solid_angle)) delta in
  power_law_init (ndiv nom denom) u index e_ref.

(** spectral.py:148-174 [PowerLaw.integrate_cone]: inherited by the subclass, always
    returning a plain PowerLaw; LogParabola has no such method *)
Definition integrate_cone_pl (p : power_law_) (inner outer : R) : res spectrum :=
  match pl_unit p with
  | PointSource => Err ValueError
  | Diffuse =>
      let solid_angle := cone_solid_angle outer - cone_solid_angle inner in
      do q <- power_law_init (nmul (pl_norm p) (Fin solid_angle)) PointSource (pl_index p) (pl_e_ref p);
      Ok (PowerLaw q)
  end.
Definition integrate_cone (s : spectrum) (inner outer : R) : res spectrum :=
  match s with
  | PowerLaw p | ExpGauss p _ _ _ => integrate_cone_pl p inner outer
  | LogParabola _ _ _ _ _ => Err AttributeError
  end.

(** a spectrum as a callable: values, and the one unit they are all in *)
Definition spectrum_unit (s : spectrum) : flux_unit :=
  match s with PowerLaw p | ExpGauss p _ _ _ => pl_unit p | LogParabola _ u _ _ _ => u end.
Definition callable : Type := (num -> num) * flux_unit.
Definition as_callable (s : spectrum) : callable := (fun e => fst (call s e), spectrum_unit s).
(** spectral.py:44-70 [calculate_event_weights]; [to_value(u.one)] raises unless the units agree *)
Definition calculate_event_weights (energies : list num) (target simulated : callable) : res (list num) :=
  if unit_eqb (snd target) (snd simulated)
  then Ok (map (fun e => ndiv (fst target e) (fst simulated e)) energies) else Err UnitConversionError.

(** ** TableInterpolationSpectrum, spectral.py:286-349.  Real arithmetic: logarithms are
    only taken of positive numbers (other tables produce -inf or NaN and are not modelled) *)
Definition log10 (x : R) : R := ln x / ln 10.
(** scipy.interpolate.interp1d(x, y, bounds_error=False, fill_value="extrapolate"): sort by
    x; searchsorted; clip the index to [1, n-1]; line through the two knots *)
Definition le_fst (p q : R * R) : bool := Rleb (fst p) (fst q).
Definition interp_line (p q : R * R) (x : R) : R :=
  let slope := (snd q - snd p) / (fst q - fst p) in
  slope * (x - fst p) + snd p.
Definition interp1d_extrapolate (pts : list (R * R)) (x : R) : option R :=
  let sorted := isort le_fst pts in
  let i := length (filter (fun p => Rltb (fst p) x) sorted) in
  let i := Nat.min (Nat.max i 1) (length sorted - 1) in
  match nth_error sorted (i - 1), nth_error sorted i with
  | Some p, Some q => Some (interp_line p q x)
  | _, _ => None
  end.
Record table_spectrum := mkTable {
  ts_points : list (R * R); ts_log_energy : bool; ts_log_flux : bool; ts_ref : R }.
(** spectral.py:293-313 [__init__] *)
Definition table_init (energy flux : list R) (log_energy log_flux : bool) (ref : R) : table_spectrum :=
  let x := map (fun e => e / ref) energy in
  let x := if log_energy then map log10 x else x in
  let y := if log_flux then map log10 flux else flux in
  mkTable (combine x y) log_energy log_flux ref.
(** spectral.py:315-326 [__call__] *)
Definition table_call (t : table_spectrum) (energy : R) : option R :=
  let x := energy / ts_ref t in
  let x := if ts_log_energy t then log10 x else x in
  match interp1d_extrapolate (ts_points t) x with
  | Some y => Some (if ts_log_flux t then Rpower 10 y else y)
  | None => None
  end.
