(** * Binning: model of pyirf/binning.py *)
From Coq Require Import String Reals List Bool ZArith Lia Lra.
From Verif Require Import Num Numpy Sort Table.
Import ListNotations.
Open Scope R_scope.

(** binning.py:14 *)
Definition UNDERFLOW_INDEX : Z := (- 2 ^ 63)%Z.
(** binning.py:16 *)
Definition OVERFLOW_INDEX : Z := (2 ^ 63 - 1)%Z.

(** binning.py:19-20 [bin_center] *)
Definition bin_center (edges : list num) : list num :=
  zipwith (fun a b => nmul (Fin (1/2)) (nadd a b)) (but_last edges) (tl edges).

(** [np.isclose(a, b, rtol=1e-5)] with the default atol=1e-8 *)
Definition isclose (a b : num) : bool :=
  match a, b with
  | Fin x, Fin y => Rleb (Rabs (x - y)) (1/100000000 + 1/100000 * Rabs y)
  | _, _ => neqb a b
  end.
(** [np.allclose] on 1-D arrays with numpy broadcasting *)
Definition allclose (a b : list num) : res bool :=
  if Nat.eqb (length a) (length b) then Ok (forallb (fun p => isclose (fst p) (snd p)) (combine a b))
  else match a, b with
       | [x], _ => Ok (forallb (fun y => isclose x y) b)
       | _, [y] => Ok (forallb (fun x => isclose x y) a)
       | _, _ => Err ValueError
       end.

(** binning.py:23-47 [join_bin_lo_hi], one-dimensional arrays.
    ([bin_hi[..., -1:]] of an empty array is empty.) *)
Definition last1 {A} (l : list A) : list A :=
  match rev l with [] => [] | x :: _ => [x] end.
Definition join_bin_lo_hi (bin_lo bin_hi : list num) : res (list num) :=
  do close <- allclose (tl bin_lo) (but_last bin_hi);
  if close then Ok (bin_lo ++ last1 bin_hi) else Err ValueError.

(** The same with leading dimensions: the arrays are lists of rows along the last
    axis.  [np.allclose] is evaluated over all rows and the concatenation is
    row-wise.  Simplification: the two arrays must have the same number of rows of
    equal lengths (numpy would broadcast or raise ValueError). *)
Definition join_bin_lo_hi_nd (bin_lo bin_hi : list (list num)) : res (list (list num)) :=
  if negb (Nat.eqb (length bin_lo) (length bin_hi)) then Err ValueError else
  do close <- rmap (fun p => allclose (tl (fst p)) (but_last (snd p))) (combine bin_lo bin_hi);
  if forallb (fun b => b) close
  then Ok (zipwith (fun lo hi => lo ++ last1 hi) bin_lo bin_hi)
  else Err ValueError.

(** binning.py:50-69 [split_bin_lo_hi] *)
Definition split_bin_lo_hi {A} (bins : list A) : list A * list A := (but_last bins, tl bins).

(** binning.py:72-96 [add_overflow_bins].  Values only: [lower] and [upper]
    are given the unit of [bins] (lines 86-88). *)
Definition add_overflow_bins (bins : list num) (positive : bool) : res (list num) :=
  let lower := if positive then Fin 0 else NInf in
  let upper := PInf in
  match bins with
  | [] => Err IndexError
  | b0 :: _ =>
      let bins1 := if ngt b0 lower then lower :: bins else bins in
      let bins2 := if nlt (last bins1 NaN) upper then bins1 ++ [upper] else bins1 in
      Ok bins2
  end.

(** ceil of a real as an integer *)
Definition Rceil (x : R) : Z := (1 - up (- x))%Z.
(** [np.arange(start, stop, step)]: ceil((stop-start)/step) values start + i*step *)
Definition arange (start stop step : R) : list R :=
  map (fun i => start + INR i * step) (seq 0 (Z.to_nat (Rceil ((stop - start) / step)))).
Definition log10 (x : R) : R := ln x / ln 10.

Definition energy_dim : nat := 1%nat.
(** binning.py:99-130 [create_bins_per_decade].  [e_min], [e_max] are scalar quantities
    (value, unit), [n] is bins_per_decade.  Decorator [quantity_input] (line 99)
    rejects non-energy units.  For non-positive values log10 is -inf or NaN
    and [np.arange] raises ValueError. *)
Definition create_bins_per_decade (e_min e_max : R * unit_) (n : R) : res (list R * unit_) :=
  if negb (Nat.eqb (u_dim (snd e_min)) energy_dim) then Err UnitTypeError
  else if negb (Nat.eqb (u_dim (snd e_max)) energy_dim) then Err UnitTypeError
  else
    let unit := snd e_min in
    let lo := fst e_min in
    let hi := fst e_max * (u_scale (snd e_max) / u_scale unit) in
    if Reqb n 0 then Err ZeroDivisionError
    else if Rleb lo 0 || Rleb hi 0 then Err ValueError
    else
      let log_lower := log10 lo in
      let log_upper := log10 hi in
      let step := 1 / n in
      let eps := step / 10000 in
      Ok (map (fun y => Rpower 10 y) (arange log_lower (log_upper + eps) step), unit).

(** binning.py:172-180: body of [calculate_bin_indices] after unit stripping *)
Definition bin_index1 (bins : list num) (x : num) : res (Z * bool) :=
  let n_bins := (Z.of_nat (length bins) - 1)%Z in
  do d <- digitize1 x bins;
  let idx := (Z.of_nat d - 1)%Z in
  let underflow := Z.ltb idx 0 in
  let overflow := Z.leb n_bins idx in
  let idx := if underflow then UNDERFLOW_INDEX else idx in
  let idx := if overflow then OVERFLOW_INDEX else idx in
  Ok (idx, negb underflow && negb overflow).
Definition calculate_bin_indices_raw (data bins : list num) : res (list Z * list bool) :=
  if Z.eqb (monotonicity bins) 0 then Err ValueError else
  do l <- rmap (bin_index1 bins) data;
  Ok (map fst l, map snd l).

(** 0, inf and nan may be compared with any unit in astropy *)
Definition arbitrary_unit_ok (x : num) : bool :=
  match x with Fin r => Reqb r 0 | _ => true end.
(** binning.py:133-180 [calculate_bin_indices].  If only the bins carry a unit, the
    check of line 165 is not triggered and astropy's [np.digitize] converts
    plain numbers (allowed if dimensionless, or if all 0/inf/nan). *)
Definition calculate_bin_indices (data bins : arr) : res (list Z * list bool) :=
  match a_unit data, a_unit bins with
  | Some ud, None => Err TypeError
  | Some ud, Some ub =>
      do d <- to_value (a_val data) ud ud;
      do b <- to_value (a_val bins) ub ud;
      calculate_bin_indices_raw d b
  | None, None => calculate_bin_indices_raw (a_val data) (a_val bins)
  | None, Some ub =>
      if Nat.eqb (u_dim ub) dimless_dim then
        do d <- to_value (a_val data) one_unit ub;
        calculate_bin_indices_raw d (a_val bins)
      else if forallb arbitrary_unit_ok (a_val data) then
        calculate_bin_indices_raw (a_val data) (a_val bins)
      else Err UnitConversionError
  end.

(** ** create_histogram_table *)
(** One row of the event table; the flags say whether the optional columns exist. *)
Record event := mkEvent { ev_x : num; ev_w : R; ev_p : string }.
Record etable := mkEvents { et_rows : list event; et_has_weight : bool; et_has_ptype : bool }.

(** [group_by(...).groups.keys]: sorted distinct labels *)
Definition group_keys (l : list string) : list string := sort_strings (nodup string_dec l).
Definition group (evs : list event) (p : string) : list event :=
  filter (fun e => String.eqb (ev_p e) p) evs.

(** binning.py:206-214 and 223-232: the two columns for one event selection *)
Definition hist_columns (evs : list event) (has_weight : bool) (bins : list num)
  : res (list Z * col) :=
  do n <- np_histogram ev_x evs bins;
  if has_weight then
    do w <- np_histogram_w ev_x ev_w evs bins;
    Ok (n, CN (map Fin w))
  else Ok (n, CZ n).

(** binning.py:220-232: loop over the groups *)
Fixpoint add_groups (evs : list event) (has_weight : bool) (bins : list num)
    (keys : list string) (hist : table) : res table :=
  match keys with
  | [] => Ok hist
  | particle :: keys' =>
      do nc <- hist_columns (group evs particle) has_weight bins;
      let c := ("n_" ++ particle)%string in
      let hist := setitem hist c (CZ (fst nc)) in
      let hist := setitem hist (c ++ "_weighted")%string (snd nc) in
      add_groups evs has_weight bins keys' hist
  end.

(** binning.py:183-234 [create_histogram_table]. Values in a common unit. *)
Definition create_histogram_table (events : etable) (bins : list num) (key : string) : res table :=
  let lo := but_last bins in
  let hi := tl bins in
  let hist := setitem [] (key ++ "_low")%string (CN lo) in
  let hist := setitem hist (key ++ "_high")%string (CN hi) in
  let hist := setitem hist (key ++ "_center")%string
                (CN (zipwith (fun a b => nmul (Fin (1/2)) (nadd a b)) lo hi)) in
  do nc <- hist_columns (et_rows events) (et_has_weight events) bins;
  let hist := setitem hist "n"%string (CZ (fst nc)) in
  let hist := setitem hist "n_weighted"%string (snd nc) in
  if et_has_ptype events && negb (Nat.eqb (length (et_rows events)) 0) then
    add_groups (et_rows events) (et_has_weight events) bins
      (group_keys (map ev_p (et_rows events))) hist
  else Ok hist.

(** ** resample_histogram1d *)
(** [np.nan_to_num(x, nan=0, posinf, neginf)] *)
Definition nan_to_num (posinf neginf : num) (x : num) : num :=
  match x with NaN => Fin 0 | PInf => posinf | NInf => neginf | Fin r => Fin r end.
(** largest float64, default replacement of +inf in [np.nan_to_num] *)
Definition fmax : R := (2 ^ 53 - 1) * 2 ^ 971.
Fixpoint all_fin (l : list num) : option (list R) :=
  match l with
  | [] => Some []
  | Fin r :: l' => match all_fin l' with Some rs => Some (r :: rs) | None => None end
  | _ => None
  end.
(** [np.insert(np.cumsum(data), 0, 0)]: running sums starting at 0 *)
Fixpoint cumsum0 (acc : R) (l : list R) : list R :=
  acc :: match l with [] => [] | a :: l' => cumsum0 (acc + a) l' end.
Fixpoint strictly_increasing (l : list R) : bool :=
  match l with a :: ((b :: _) as l') => Rltb a b && strictly_increasing l' | _ => true end.

(** binning.py:237-300 [resample_histogram1d], one slice along [axis] (all operations
    are slice-wise), exact reals, old and new edges in a common unit.
    [itp xs ys x] is the value of scipy's quadratic spline through the knots.
    [is_int]: integer dtype, for which the in-place division of line 285 raises
    UFuncTypeError (a TypeError).  Simplification: edges that are still infinite or NaN
    after line 270 (second edge infinite) are rejected here; scipy raises ValueError for
    infinities, and returns NaN when an edge is NaN.
    Lines 287-294: interp1d sorts the knots (stable), needs at least three different ones and
    as many values as knots; outside the knots it returns fill_value (0, 1). *)
Definition knots (xs ys : list R) : list (R * R) := isort (fun p q => Rleb (fst p) (fst q)) (combine xs ys).
Definition f_integral (itp : list R -> list R -> R -> R) (xs ys : list R) (x : R) : R :=
  if Rltb x (hd 0 xs) then 0
  else if Rltb (last xs 0) x then 1
  else itp xs ys x.
Definition resample_histogram1d (itp : list R -> list R -> R -> R) (is_int : bool)
    (data : list R) (old_edges new_edges : list num) : res (list R) :=
  match nth_error old_edges 1, nth_error old_edges (length old_edges - 2) with
  | Some e1, Some em2 =>
      if Nat.ltb (length old_edges) 2 then Err IndexError else
      let w := nsub em2 e1 in
      let old := map (nan_to_num (nadd em2 w) (nsub e1 w)) old_edges in
      let new := map (nan_to_num (Fin fmax) (Fin (- fmax))) new_edges in
      match all_fin old, all_fin new with
      | Some xs, Some nx =>
          let cs := cumsum0 0 data in
          let total := rsum data in
          let norm := if Reqb total 0 then 1 else total in
          if is_int then Err TypeError else
          let ys := map (fun c => c / norm) cs in
          if negb (Nat.eqb (length xs) (length ys)) then Err ValueError
          else if Nat.ltb (length xs) 3 then Err ValueError
          else
            let sorted := knots xs ys in
            if negb (strictly_increasing (map fst sorted)) then Err ValueError
            else Ok (map (fun d => d * norm) (diffR (map (f_integral itp (map fst sorted) (map snd sorted)) nx)))
      | _, _ => Err ValueError
      end
  | _, _ => Err IndexError
  end.
