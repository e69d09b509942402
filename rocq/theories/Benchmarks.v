(** * Benchmarks: pyirf/benchmarks/angular_resolution.py, energy_bias_resolution.py *)
From Coq Require Import String Ascii Reals List Bool ZArith Arith Lia Lra DecimalString DecimalNat.
From Verif Require Import Num Numpy Sort Table Binning Percentile Cuts Quantile.
Import ListNotations.
Open Scope R_scope.

(** columns of an event table *)
Definition columns := list (string * arr).
Definition get_column (events : columns) (name : string) : res arr :=
  match getitem events name with Some c => Ok c | None => Err KeyError end.
(** number of rows *)
Definition n_rows (events : columns) : nat := match events with [] => 0%nat | (_, c) :: _ => length (a_val c) end.

(** [np.nanquantile] *)
Definition nanquantile (l : list num) (q : R) : res num := nanpercentile l (100 * q).

(** [f"{value * 100:.0f}"]: nearest integer, ties to the even one, and its decimal representation *)
Definition rint (x : R) : Z :=
  let f := Rfloor x in
  if Rltb (x - IZR f) (1/2) then f else if Rltb (1/2) (x - IZR f) then (f + 1)%Z else if Z.even f then f else (f + 1)%Z.
Definition decimal (n : nat) : string := NilEmpty.string_of_uint (Nat.to_uint n).
Definition format_0f (x : R) : string :=
  if Rltb x 0 then ("-" ++ decimal (Z.to_nat (rint (- x))))%string else decimal (Z.to_nat (rint x)).
(** angular_resolution.py:61 *)
Definition column_name (quantile : R) : string := ("angular_resolution_" ++ format_0f (quantile * 100))%string.

(** the result: bin edges, counts and the columns with one value per bin *)
Record bench_table := mkBench {
  bt_low : list num; bt_high : list num; bt_center : list num; bt_unit : option unit_; bt_n_events : list Z;
  bt_cols : list (string * list num) }.
Definition empty_table (energy_bins : arr) (names : list string) : bench_table :=
  let n := (length (a_val energy_bins) - 1)%nat in
  mkBench (but_last (a_val energy_bins)) (tl (a_val energy_bins)) (bin_center (a_val energy_bins)) (a_unit energy_bins) (repeat 0%Z n)
    (fold_left (fun t k => setitem t k (repeat NaN n)) names []).
(** [result[key][bin_idx] = value] *)
Definition set_entry (t : list (string * list num)) (key : string) (bin : nat) (value : num) : list (string * list num) :=
  match getitem t key with Some c => setitem t key (list_set c bin value) | None => t end.
(** the loops over the groups: angular_resolution.py:72-78, energy_bias_resolution.py:114-117; [f]: the values of a group,
    one for each name *)
Fixpoint fill_bins (names : list string) (f : list num -> res (list num)) (values : list num) (idx : list Z) (valid : list bool) (keys : list Z)
    (t : bench_table) : res bench_table :=
  match keys with
  | [] => Ok t
  | k :: keys' =>
      let g := bin_group values idx valid k in
      do vs <- f g;
      fill_bins names f values idx valid keys'
        (mkBench (bt_low t) (bt_high t) (bt_center t) (bt_unit t) (list_set (bt_n_events t) (Z.to_nat k) (Z.of_nat (length g)))
           (fold_left (fun cs nv => set_entry cs (fst nv) (Z.to_nat k) (snd nv)) (combine names vs) (bt_cols t)))
  end.
(** [table[valid].group_by(bin_index[valid])] of astropy raises IndexError if no row is left *)
Definition group_and_fill (names : list string) (f : list num -> res (list num)) (values : list num) (iv : list Z * list bool) (t : bench_table)
  : res bench_table :=
  if existsb (fun b => b) (snd iv) then fill_bins names f values (fst iv) (snd iv) (bin_keys (fst iv) (snd iv)) t else Err IndexError.

(** a number, or a list or tuple of numbers (a numpy array is neither: TypeError in line 61) *)
Inductive quantile_arg := QScalar (q : R) | QSeq (l : list R) | QArray (l : list R).
(** angular_resolution.py:13-80 [angular_resolution] (unit of the columns: the one of theta) *)
Definition angular_resolution (events : columns) (energy_bins : arr) (energy_type : string) (quantile : quantile_arg) : res bench_table :=
  do energy <- get_column events (energy_type ++ "_energy");
  do theta <- get_column events "theta";
  do iv <- calculate_bin_indices energy energy_bins;
  do qs <- match quantile with QScalar q => Ok [q] | QSeq l => Ok l | QArray _ => Err TypeError end;
  let names := map column_name qs in
  let result := empty_table energy_bins names in
  if Nat.eqb (n_rows events) 0 then Ok result
  else group_and_fill names (fun g => rmap (nanquantile g) qs) (a_val theta) iv result.

(** [np.nanmedian]: the middle value or the mean of the two middle values *)
Definition nanmedian (l : list num) : res num :=
  let s := nsort (drop_nan l) in
  let n := length s in
  match n with
  | O => Ok NaN
  | _ => if Nat.odd n then Ok (nth (n / 2) s NaN) else Ok (ndiv (nadd (nth (n / 2 - 1) s NaN) (nth (n / 2) s NaN)) (Fin 2))
  end.
(** [np.abs] *)
Definition nabs (x : num) : num := match x with Fin r => Fin (Rabs r) | NInf => PInf | _ => x end.
(** energy_bias_resolution.py:15-30 [energy_resolution_absolute_68]; [coverage]: ONE_SIGMA_COVERAGE *)
Definition energy_resolution_absolute_68 (coverage : R) (rel_error : list num) : res num := nanquantile (map nabs rel_error) coverage.
(** energy_bias_resolution.py:33-52 [inter_quantile_distance]; [lower], [upper]: NORM_LOWER_SIGMA, NORM_UPPER_SIGMA *)
Definition inter_quantile_distance (lower upper : R) (rel_error : list num) : res num :=
  do u <- nanquantile rel_error upper;
  do l <- nanquantile rel_error lower;
  Ok (nmul (Fin (1/2)) (nsub u l)).
(** energy_bias_resolution.py:87-90: the relative error; columns without units have no [to_value] *)
Definition relative_error (reco true_ : arr) : res (list num) :=
  match a_unit reco, a_unit true_ with
  | None, None => Err AttributeError
  | ur, ut =>
      let ur := match ur with Some u => u | None => one_unit end in
      let ut := match ut with Some u => u | None => one_unit end in
      if Nat.eqb (u_dim ur) (u_dim ut)
      then Ok (zipwith (fun r t => nsub (nmul (Fin (u_scale ur / u_scale ut)) (ndiv r t)) (Fin 1)) (a_val reco) (a_val true_))
      else Err UnitConversionError
  end.
(** energy_bias_resolution.py:55-118 [energy_bias_resolution] *)
Definition energy_bias_resolution (events : columns) (energy_bins : arr) (energy_type : string)
    (bias_function resolution_function : list num -> res num) : res bench_table :=
  do true_ <- get_column events "true_energy";
  do reco <- get_column events "reco_energy";
  do rel <- relative_error reco true_;
  let names := ["bias"; "resolution"]%string in
  let result := empty_table energy_bins names in
  if Nat.eqb (n_rows events) 0 then Ok result else
  do energy <- (if String.eqb energy_type "true" then Ok true_ else if String.eqb energy_type "reco" then Ok reco else Err KeyError);
  do iv <- calculate_bin_indices energy energy_bins;
  group_and_fill names (fun g => do b <- bias_function g; do r <- resolution_function g; Ok [b; r]) rel iv result.

(** ** from the energy dispersion *)
(** [np.interp(x, xp, fp)] for non-decreasing [xp] *)
Definition np_interp (xp fp : list R) (x : R) : R :=
  let c := count (fun a => Rleb a x) xp in
  if Nat.eqb c 0 then nth 0 fp 0
  else if Nat.eqb c (length xp) then nth (c - 1) fp 0
  else if Reqb (nth (c - 1) xp 0) x then nth (c - 1) fp 0
  else (nth c fp 0 - nth (c - 1) fp 0) / (nth c xp 0 - nth (c - 1) xp 0) * (x - nth (c - 1) xp 0) + nth (c - 1) fp 0.
(** energy_bias_resolution.py:138-156: one bin in energy and offset; None: NaN *)
Definition column_bias_resolution (lower upper : R) (column migration_bins : list R) : option (R * R) :=
  let cdf := cumsum (zipwith Rmult column (diffR migration_bins)) in
  if forallb (fun c => Reqb c 0) cdf then None
  else
    let f := np_interp cdf (tl migration_bins) in
    Some (f (1/2) - 1, 1/2 * (f upper - f lower)).
(** energy_bias_resolution.py:121-158 [energy_bias_resolution_from_energy_dispersion]: shape and entries of the matrix,
    finite numbers; a matrix or an array of edges with a single migration bin that is broadcast is not modelled *)
Definition bias_resolution_from_dispersion (lower upper : R) (shape : nat * nat * nat) (edisp : nat -> nat -> nat -> R) (migration_bins : list R)
  : res (list (list (option (R * R)))) :=
  let '(n_energy, n_migra, n_fov) := shape in
  if Nat.eqb n_migra (length migration_bins - 1) then
    Ok (map (fun e => map (fun o => column_bias_resolution lower upper (map (fun m => edisp e m o) (seq 0 n_migra)) migration_bins) (seq 0 n_fov)) (seq 0 n_energy))
  else Err ValueError.
