(** * SpectralUnits: pyirf/spectral.py with units: fluxes, energies, angles and times are quantities in any unit.
    (Spectral.v is the same code for numbers in TeV, s, m, sr.) *)
From Coq Require Import Reals List Bool ZArith Lra String.
From Verif Require Import Num Numpy Sort Utils Simulations Spectral Quantities.
Import ListNotations.
Open Scope R_scope.

(** spectral.py:16-24 *)
Definition POINT_SOURCE_FLUX_UNIT : qunit := udiv (udiv (udiv one_ TeV) second) (umul metre metre).
Definition DIFFUSE_FLUX_UNIT : qunit := udiv POINT_SOURCE_FLUX_UNIT sr.

Inductive qspectrum :=
| QPowerLaw (norm : quantity) (index : R) (e_ref : quantity)
| QLogParabola (norm : quantity) (a b : R) (e_ref : quantity)
| QExpGauss (norm : quantity) (index : R) (e_ref : quantity) (f mu sigma : R).
(** spectral.py:93-103 [PowerLaw.__init__] *)
Definition qpower_law_init (norm : arg) (index : R) (e_ref : arg) : res (quantity * R * quantity) :=
  do n <- quantity_input [DIFFUSE_FLUX_UNIT; POINT_SOURCE_FLUX_UNIT] norm;
  do e <- quantity_input [TeV] e_ref;
  if Rltb 0 index then Err ValueError else Ok (n, index, e).
Definition q_power_law (norm : arg) (index : R) (e_ref : arg) : res qspectrum :=
  do p <- qpower_law_init norm index e_ref; Ok (QPowerLaw (fst (fst p)) (snd (fst p)) (snd p)).
(** spectral.py:199-208 [LogParabola.__init__] *)
Definition q_log_parabola (norm : arg) (a b : R) (e_ref : arg) : res qspectrum :=
  do n <- quantity_input [DIFFUSE_FLUX_UNIT; POINT_SOURCE_FLUX_UNIT] norm;
  do e <- quantity_input [TeV] e_ref;
  Ok (QLogParabola n a b e).
(** spectral.py:258-266 [PowerLawWithExponentialGaussian.__init__] *)
Definition q_exp_gauss (norm : arg) (index : R) (e_ref : arg) (f mu sigma : R) : res qspectrum :=
  do n <- quantity_input [DIFFUSE_FLUX_UNIT; POINT_SOURCE_FLUX_UNIT] norm;
  do e <- quantity_input [TeV] e_ref;
  do p <- qpower_law_init (Qty n) index (Qty e); Ok (QExpGauss (fst (fst p)) (snd (fst p)) (snd p) f mu sigma).
(** an array of energies (a scalar is an array with one entry), with or without unit *)
Record qarray := mkQA { qa_val : list num; qa_unit : qunit }.
Inductive array_arg := APlain (l : list num) | AQty (a : qarray).
Definition array_input (u : qunit) (a : array_arg) : res qarray :=
  match a with APlain _ => Err TypeError | AQty q => if deqb (qu_dim (qa_unit q)) (qu_dim u) then Ok q else Err UnitsError end.
(** [(energy / e_ref).to_value(u.one)] *)
Definition relative_energy (energy : qarray) (e_ref : quantity) : res (list num) :=
  let u := udiv (qa_unit energy) (q_unit e_ref) in
  if deqb (qu_dim u) dnone then Ok (map (fun e => nmul (ndiv e (q_val e_ref)) (Fin (qu_scale u))) (qa_val energy)) else Err UnitConversionError.
(** [__call__]: spectral.py:105-108, 210-213, 268-281 *)
Definition qcall (s : qspectrum) (energy : array_arg) : res qarray :=
  do energy <- array_input TeV energy;
  match s with
  | QPowerLaw norm index e_ref =>
      do l <- relative_energy energy e_ref;
      Ok (mkQA (map (fun e => nmul (q_val norm) (npow e index)) l) (q_unit norm))
  | QLogParabola norm a b e_ref =>
      do l <- relative_energy energy e_ref;
      Ok (mkQA (map (fun e => nmul (q_val norm) (npown e (nadd (Fin a) (nmul (Fin b) (nlog10 e))))) l) (q_unit norm))
  | QExpGauss norm index e_ref f mu sigma =>
      do l <- relative_energy energy e_ref;
      Ok (mkQA (map (fun e =>
        let power := nmul (q_val norm) (npow e index) in
        let z := ndiv (nsub (nlog10 e) (Fin mu)) (Fin sigma) in
        let gauss := nexp (nmul (Fin (- (1 / 2))) (nmul z z)) in
        nmul power (nadd (Fin 1) (nmul (Fin f) (nsub (nexp gauss) (Fin 1))))) l) (q_unit norm))
  end.

(** utils.py:172-187 [cone_solid_angle]: [np.cos] converts a quantity to radian (UnitTypeError, a UnitsError, if it is not an
    angle) and takes numbers without unit as radian *)
Definition q_cone_solid_angle (angle : arg) : res quantity :=
  do x <- match angle with
          | Plain x => Ok x
          | Qty q => if deqb (qu_dim (q_unit q)) (qu_dim rad) then to_value q rad else Err UnitsError
          end;
  Ok (mkQ match x with Fin x => Fin (cone_solid_angle x) | _ => NaN end sr).
(** simulations.py:46-69: the attributes (finite numbers) *)
Record qsim := mkQSim { qs_n_showers : Z; qs_energy_min : R * qunit; qs_energy_max : R * qunit; qs_max_impact : R * qunit;
  qs_index : R; qs_viewcone_min : R * qunit; qs_viewcone_max : R * qunit }.
Definition qty (x : R * qunit) : quantity := mkQ (Fin (fst x)) (snd x).
(** spectral.py:110-143 [PowerLaw.from_simulation]; line 127 compares the number of the difference with 0 *)
Definition q_from_simulation (s : qsim) (obstime e_ref : arg) : res qspectrum :=
  do obstime <- quantity_input [hour] obstime;
  do e_ref <- quantity_input [TeV] e_ref;
  let index := qs_index s in
  do width <- qsub (qty (qs_viewcone_max s)) (qty (qs_viewcone_min s));
  do om <- (if nlt (Fin 0) (q_val width) then
              do hi <- q_cone_solid_angle (Qty (qty (qs_viewcone_max s)));
              do lo <- q_cone_solid_angle (Qty (qty (qs_viewcone_min s)));
              do d <- qsub hi lo; Ok (d, DIFFUSE_FLUX_UNIT)
            else Ok (mkQ (Fin 1) one_, POINT_SOURCE_FLUX_UNIT));
  let A := qtimes (qmul (qty (qs_max_impact s)) (qty (qs_max_impact s))) (Fin PI) in
  do delta <- qsub (qpow (qty (qs_energy_max s)) (index + 1)) (qpow (qty (qs_energy_min s)) (index + 1));
  let nom := qtimes (qtimes (qpow e_ref index) (Fin (index + 1))) (nz (qs_n_showers s)) in
  let denom := qmul (qmul (qmul A obstime) (fst om)) delta in
  do norm <- to_unit (qdiv nom denom) (snd om);
  q_power_law (Qty norm) index (Qty e_ref).
(** spectral.py:148-174 [integrate_cone] *)
Definition q_integrate_cone (s : qspectrum) (inner outer : arg) : res qspectrum :=
  match s with
  | QPowerLaw norm index e_ref | QExpGauss norm index e_ref _ _ _ =>
      do inner <- quantity_input [rad] inner;
      do outer <- quantity_input [rad] outer;
      if deqb (qu_dim (q_unit norm)) (qu_dim DIFFUSE_FLUX_UNIT) then
        do o <- q_cone_solid_angle (Qty outer);
        do i <- q_cone_solid_angle (Qty inner);
        do solid_angle <- qsub o i;
        q_power_law (Qty (qmul norm solid_angle)) index (Qty e_ref)
      else Err ValueError
  | QLogParabola _ _ _ _ => Err AttributeError
  end.
(** spectral.py:44-70 [calculate_event_weights]: two callables, applied to an array of energies; their results have the
    length of the array *)
Definition q_event_weights (energies : array_arg) (target simulated : array_arg -> res qarray) : res (list num) :=
  do e <- array_input TeV energies;
  do t <- target (AQty e);
  do s <- simulated (AQty e);
  let u := udiv (qa_unit t) (qa_unit s) in
  if deqb (qu_dim u) dnone then Ok (zipwith (fun a b => nmul (ndiv a b) (Fin (qu_scale u))) (qa_val t) (qa_val s)) else Err UnitConversionError.

(** ** TableInterpolationSpectrum, spectral.py:286-349: real numbers as in Spectral.v; columns of a table *)
Record qcolumn := mkCol { c_val : list R; c_unit : qunit }.
Record qtable_spectrum := mkQT { qt_spectrum : table_spectrum; qt_ref : R * qunit; qt_flux_unit : qunit }.
(** spectral.py:293-313 [__init__]: [ts_ref := 1], the energies are divided by the reference before *)
Definition qtable_init (energy flux : qcolumn) (log_energy log_flux : bool) (ref : R * qunit) : res qtable_spectrum :=
  if deqb (dmul (qu_dim (c_unit energy)) (dpow (qu_dim (snd ref)) (-1))) dnone then
    let x := map (fun e => e / fst ref * (qu_scale (c_unit energy) / qu_scale (snd ref))) (c_val energy) in
    Ok (mkQT (table_init x (c_val flux) log_energy log_flux 1) ref (c_unit flux))
  else Err UnitConversionError.
(** spectral.py:315-326 [__call__] *)
Definition qtable_call (t : qtable_spectrum) (energy : R * qunit) : res (option (R * qunit)) :=
  if deqb (dmul (qu_dim (snd energy)) (dpow (qu_dim (snd (qt_ref t))) (-1))) dnone then
    let x := fst energy / fst (qt_ref t) * (qu_scale (snd energy) / qu_scale (snd (qt_ref t))) in
    Ok (option_map (fun y => (y, qt_flux_unit t)) (table_call (qt_spectrum t) x))
  else Err UnitConversionError.
(** spectral.py:328-338 [from_table], 340-349 [from_file] (after reading): two columns by name *)
Definition column (table : list (string * qcolumn)) (name : string) : res qcolumn :=
  match find (fun c => String.eqb (fst c) name) table with Some c => Ok (snd c) | None => Err KeyError end.
Definition from_table (table : list (string * qcolumn)) (log_energy log_flux : bool) (ref : R * qunit) : res qtable_spectrum :=
  do e <- column table "energy"%string;
  do f <- column table "flux"%string;
  qtable_init e f log_energy log_flux ref.

(** ** the spectra of the module, spectral.py:352-417 *)
Definition per (x : R) (u : qunit) : arg := Qty (mkQ (Fin x) (udiv one_ u)).
(** spectral.py:357-361 *)
Definition CRAB_HEGRA : res qspectrum :=
  q_power_law (per (283 / 10 ^ 13) (umul (umul TeV (umul cm cm)) second)) (- (262 / 100)) (Qty (mkQ (Fin 1) TeV)).
(** spectral.py:368-372 *)
Definition CRAB_MAGIC_JHEAP2015 : res qspectrum :=
  q_log_parabola (per (323 / 10 ^ 13) (umul (umul TeV (umul cm cm)) second)) (- (247 / 100)) (- (24 / 100)) (Qty (mkQ (Fin 1) TeV)).
(** spectral.py:379-383 *)
Definition PDG_ALL_PARTICLE : res qspectrum :=
  q_power_law (per 18000 (umul (umul (umul GeV (umul metre metre)) second) sr)) (- (27 / 10)) (Qty (mkQ (Fin 1) GeV)).
(** spectral.py:389-393 *)
Definition IRFDOC_PROTON_SPECTRUM : res qspectrum :=
  q_power_law (per (98 / 10 ^ 7) (umul (umul (umul (umul cm cm) second) TeV) sr)) (- (262 / 100)) (Qty (mkQ (Fin 1) TeV)).
(** spectral.py:399-406 *)
Definition IRFDOC_ELECTRON_SPECTRUM : res qspectrum :=
  q_exp_gauss (per (2385 / 10 ^ 12) (umul (umul (umul TeV (umul cm cm)) second) sr)) (- (343 / 100)) (Qty (mkQ (Fin 1) TeV))
    (195 / 100) (- (101 / 1000)) (741 / 1000).
