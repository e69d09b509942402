(** * Cuts: model of pyirf/cuts.py *)
From Coq Require Import String Reals List Bool ZArith Lia Lra.
From Verif Require Import Num Numpy Sort Table Binning Percentile.
Import ListNotations.
Open Scope R_scope.

(** a scalar argument: number or quantity *)
Record scalar := mkScalar { s_val : num; s_unit : option unit_ }.
(** [u.Quantity(x).to_value(unit)]: a plain number is dimensionless *)
Definition quantity_to (x : scalar) (to : unit_) : res num :=
  let from := match s_unit x with Some v => v | None => one_unit end in
  if Nat.eqb (u_dim from) (u_dim to) then Ok (convert_val from to (s_val x))
  else Err UnitConversionError.

(** the [percentile] argument: a number or an array of numbers *)
Inductive percentile_arg := PScalar (p : R) | PList (ps : list R).
(** the "cut" column: one value per bin, or one row of values per bin *)
Inductive cut_column := Cut1 (l : list num) | Cut2 (l : list (list num)).

Record cut_table := mkCutTable {
  ct_low : list num; ct_high : list num; ct_center : list num; ct_edge_unit : option unit_;
  ct_n_events : list Z;
  ct_cut : cut_column; ct_cut_unit : option unit_ }.

(** storing a float into an array of the dtype of [values]: integer arrays truncate
    towards zero and cannot hold NaN/inf (ValueError for a scalar; numpy versions differ
    for array scalars, some store an undefined integer: no theorem relies on this case) *)
Definition truncZ (r : R) : Z := if Rleb 0 r then Rfloor r else (- Rfloor (- r))%Z.
Definition cast (is_int : bool) (x : num) : res num :=
  if is_int then match x with Fin r => Ok (Fin (IZR (truncZ r))) | _ => Err ValueError end
  else Ok x.

(** [np.clip(value, lo, hi)] = minimum(hi, maximum(value, lo)), NaN propagates;
    a missing bound is ignored *)
Definition nmax (a b : num) : num := if is_nan a || is_nan b then NaN else if nle b a then a else b.
Definition nmin (a b : num) : num := if is_nan a || is_nan b then NaN else if nle a b then a else b.
Definition clip (lo hi : option num) (x : num) : num :=
  let x := match lo with Some l => nmax x l | None => x end in
  match hi with Some h => nmin x h | None => x end.

(** [arr[i] = x] for a non-negative in-range [i] *)
Fixpoint list_set {A} (l : list A) (i : nat) (x : A) : list A :=
  match l, i with
  | [], _ => []
  | _ :: l', O => x :: l'
  | a :: l', S i' => a :: list_set l' i' x
  end.

(** table[valid].group_by(bin_index[valid]): sorted distinct indices of the valid rows *)
Definition bin_keys (idx : list Z) (valid : list bool) : list Z :=
  isort Z.leb (nodup Z.eq_dec (map fst (filter (fun p : Z * bool => snd p) (combine idx valid)))).
(** the rows of the group with index [k] *)
Definition bin_group {A} (values : list A) (idx : list Z) (valid : list bool) (k : Z) : list A :=
  map fst (filter (fun p : A * (Z * bool) => snd (snd p) && Z.eqb (fst (snd p)) k)
             (combine values (combine idx valid))).

(** cuts.py:95-107: the cut value(s) of one group *)
Definition group_cut (is_int : bool) (fill : num) (lo hi : option num) (min_events : Z)
    (ps : list R) (group : list num) : res (list num) :=
  if Z.ltb (Z.of_nat (length group)) min_events then rmap (fun _ => cast is_int fill) ps
  else rmap (fun p => do v <- nanpercentile group p; cast is_int (clip lo hi v)) ps.

(** cuts.py:95-107: loop over the groups *)
Fixpoint cut_loop (is_int : bool) (fill : num) (lo hi : option num) (min_events : Z) (ps : list R)
    (values : list num) (idx : list Z) (valid : list bool) (keys : list Z)
    (acc : list Z * list (list num)) : res (list Z * list (list num)) :=
  match keys with
  | [] => Ok acc
  | k :: keys' =>
      let g := bin_group values idx valid k in
      do c <- group_cut is_int fill lo hi min_events ps g;
      cut_loop is_int fill lo hi min_events ps values idx valid keys'
        (list_set (fst acc) (Z.to_nat k) (Z.of_nat (length g)), list_set (snd acc) (Z.to_nat k) c)
  end.

(** ** scipy.ndimage.gaussian_filter1d(x, sigma, mode="nearest") along the last axis *)
(** half width int(4*sigma + 0.5) *)
Definition gauss_lw (sigma : R) : Z := truncZ (4 * sigma + 1/2).
Definition gauss_raw (sigma : R) (j : Z) : R := exp (- (1/2) / (sigma * sigma) * (IZR j * IZR j)).
Definition offsets (lw : Z) : list Z := map (fun i => (Z.of_nat i - lw)%Z) (seq 0 (Z.to_nat (2 * lw + 1))).
Definition gauss_kernel (sigma : R) (lw : Z) (j : Z) : R :=
  gauss_raw sigma j / rsum (map (gauss_raw sigma) (offsets lw)).
(** mode="nearest": indices are clamped to the array *)
Definition clamp_index (n : nat) (i : Z) : nat :=
  Z.to_nat (Z.max 0 (Z.min i (Z.of_nat n - 1))).
Definition gaussian_filter1d (sigma : R) (x : list num) : res (list num) :=
  if Reqb sigma 0 then Err ZeroDivisionError else
  let lw := gauss_lw sigma in
  if Z.ltb lw 0 then Err ValueError else
  Ok (map (fun i => nsum (map (fun j => nmul (Fin (gauss_kernel sigma lw j))
                                            (nth (clamp_index (length x) (Z.of_nat i + j)%Z) x NaN))
                              (offsets lw)))
          (seq 0 (length x))).

(** cuts.py:109-114: smoothing acts on the last axis of the column, i.e. along the bins
    for a scalar percentile and along the percentiles for an array of percentiles *)
Definition smooth (is_int : bool) (smoothing : option R) (c : cut_column) : res cut_column :=
  match smoothing with
  | None => Ok c
  | Some sigma =>
      match c with
      | Cut1 l => do s <- gaussian_filter1d sigma l; do s <- rmap (cast is_int) s; Ok (Cut1 s)
      | Cut2 rows =>
          do s <- rmap (fun r => do s <- gaussian_filter1d sigma r; rmap (cast is_int) s) rows;
          Ok (Cut2 s)
      end
  end.

(** optional bound converted to the unit of [values] (cuts.py:58-67) *)
Definition bound_to (u : option unit_) (b : option scalar) : res (option num) :=
  match b, u with
  | None, _ => Ok None
  | Some s, Some v => do x <- quantity_to s v; Ok (Some x)
  | Some s, None =>
      (* no conversion: a bound with a unit then fails in np.clip *)
      match s_unit s with
      | None => Ok (Some (s_val s))
      | Some v => if Nat.eqb (u_dim v) dimless_dim then Ok (Some (convert_val v one_unit (s_val s)))
                  else Err UnitConversionError
      end
  end.

(** cuts.py:17-116 [calculate_percentile_cut].  [is_int]: values have integer dtype.
    Simplification: a bad unit of min_value/max_value for unit-less [values] is
    reported even when no bin reaches [np.clip]. *)
Definition calculate_percentile_cut (is_int : bool) (values bin_values bins : arr) (fill_value : scalar)
    (percentile : percentile_arg) (min_value max_value : option scalar) (smoothing : option R)
    (min_events : Z) : res cut_table :=
  (* 55-67 *)
  do fill <- match a_unit values with
             | Some v => do x <- quantity_to fill_value v; Ok (x, Some v)
             | None => Ok (s_val fill_value, s_unit fill_value)
             end;
  do lo <- bound_to (a_unit values) min_value;
  do hi <- bound_to (a_unit values) max_value;
  (* 69-70 *)
  do iv <- calculate_bin_indices bin_values bins;
  if negb (Nat.eqb (length (a_val values)) (length (a_val bin_values))) then Err IndexError else
  (* 70: astropy's [group_by] of a table without rows raises IndexError
     (the same limitation is worked around in binning.py:216) *)
  if negb (existsb (fun b => b) (snd iv)) then Err IndexError else
  (* 72-79 *)
  let n_bins := (length (a_val bins) - 1)%nat in
  let ps := match percentile with PScalar p => [p] | PList l => l end in
  (* 81-93 *)
  do f <- cast is_int (fst fill);
  let cut0 := repeat (repeat f (length ps)) n_bins in
  (* 95-107 *)
  do nc <- cut_loop is_int (fst fill) lo hi min_events ps (a_val values) (fst iv) (snd iv)
             (bin_keys (fst iv) (snd iv)) (repeat 0%Z n_bins, cut0);
  let c := match percentile with
           | PScalar _ => Cut1 (map (fun r => hd NaN r) (snd nc))
           | PList _ => Cut2 (snd nc)
           end in
  (* 109-114 *)
  do c <- smooth is_int smoothing c;
  Ok (mkCutTable (but_last (a_val bins)) (tl (a_val bins)) (bin_center (a_val bins)) (a_unit bins)
        (fst nc) c (snd fill)).

(** [arr[z]] with Python's negative indices *)
Definition np_index {A} (l : list A) (z : Z) : res A :=
  let n := Z.of_nat (length l) in
  let z' := if Z.ltb z 0 then (z + n)%Z else z in
  if Z.ltb z' 0 || Z.leb n z' then Err IndexError
  else match nth_error l (Z.to_nat z') with Some a => Ok a | None => Err IndexError end.

(** cuts.py:119-150 [evaluate_binned_cut_by_index] for a table with one cut per bin;
    values and cuts in a common unit; [op] is the element-wise comparison. *)
Fixpoint eval_rows (op : num -> num -> bool) (cuts : list num) (values : list num)
    (idx : list Z) (valid : list bool) : res (list bool) :=
  match values, idx, valid with
  | x :: values', z :: idx', v :: valid' =>
      do b <- (if v then do c <- np_index cuts z; Ok (op x c) else Ok false);
      do bs <- eval_rows op cuts values' idx' valid';
      Ok (b :: bs)
  | _, _, _ => Ok []
  end.
Definition evaluate_binned_cut_by_index (is_qtable : bool) (values : list num) (bin_index : list Z)
    (valid : list bool) (cuts : list num) (op : num -> num -> bool) : res (list bool) :=
  if negb is_qtable then Err ValueError
  else if negb (Nat.eqb (length values) (length bin_index)) then Err IndexError
  else if negb (Nat.eqb (length valid) (length bin_index)) then Err IndexError
  else eval_rows op cuts values bin_index valid.

(** cuts.py:153-190 [evaluate_binned_cut] *)
Definition evaluate_binned_cut (is_qtable : bool) (values : list num) (bin_values : arr)
    (low high : list num) (edge_unit : option unit_) (cuts : list num)
    (op : num -> num -> bool) : res (list bool) :=
  if negb is_qtable then Err ValueError else
  match rev high with
  | [] => Err IndexError
  | h :: _ =>
      do iv <- calculate_bin_indices bin_values (mkArr (low ++ [h]) edge_unit);
      evaluate_binned_cut_by_index is_qtable values (fst iv) (snd iv) cuts op
  end.

(** ** compare_irf_cuts.  A table is its column names, their units and its rows. *)
Record qtable := mkQ { q_names : list string; q_units : list (option unit_); q_rows : list (list num) }.
Definition row_eqb (a b : list num) : bool :=
  Nat.eqb (length a) (length b) && forallb (fun p => neqb (fst p) (snd p)) (combine a b).
(** [(a != b).any()]: astropy compares the two tables as structured arrays, row by row,
    ignoring units; a table with one row is broadcast.  Other shapes and different columns
    cannot be compared (numpy gives a plain bool or raises; [.any()] on [~False]
    raises AttributeError). *)
Definition rows_differ (a b : list (list num)) : res bool :=
  if Nat.eqb (length a) (length b) then Ok (existsb (fun p => negb (row_eqb (fst p) (snd p))) (combine a b))
  else match a, b with
       | [r], _ => Ok (existsb (fun s => negb (row_eqb r s)) b)
       | _, [s] => Ok (existsb (fun r => negb (row_eqb r s)) a)
       | _, _ => Err AttributeError
       end.
Definition tables_differ (a b : qtable) : res bool :=
  if negb (if list_eq_dec string_dec (q_names a) (q_names b) then true else false)
  then Err AttributeError else rows_differ (q_rows a) (q_rows b).
(** cuts.py:193-209 [compare_irf_cuts] *)
Fixpoint compare_irf_cuts (cuts : list qtable) : res bool :=
  match cuts with
  | a :: ((b :: _) as rest) => do d <- tables_differ a b; if d then Ok false else compare_irf_cuts rest
  | _ => Ok true
  end.
