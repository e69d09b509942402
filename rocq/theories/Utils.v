(** * Utils: model of pyirf/utils.py and pyirf/coordinates.py.  Angles are in radian;
    conversion to degree is a change of unit only and is not modelled. *)
From Coq Require Import String Reals List Bool ZArith Lia Lra.
From Verif Require Import Num Numpy Table Binning.
Import ListNotations.
Open Scope R_scope.

(** utils.py:172-187 [cone_solid_angle] *)
Definition cone_solid_angle (angle : R) : R := 2 * PI * (1 - cos angle).
(** utils.py:190-213 [rectangle_solid_angle] *)
Definition rectangle_solid_angle (lon_low lon_high lat_low lat_high : R) : R :=
  let diff_lon := lon_high - lon_low in
  let diff_lat := sin lat_high - sin lat_low in
  diff_lon * diff_lat.

(** [np.arctan2(y, x)] (sign of zero not modelled: arctan2(0, x < 0) = pi) *)
Definition atan2 (y x : R) : R :=
  if Rltb 0 x then atan (y / x)
  else if Rltb x 0 then (if Rltb y 0 then atan (y / x) - PI else atan (y / x) + PI)
  else if Rltb 0 y then PI / 2 else if Rltb y 0 then - (PI / 2) else 0.
(** [Angle.wrap_at(2 pi)]: into [0, 2 pi) *)
Definition wrap_2pi (x : R) : R := x - 2 * PI * IZR (Int_part (x / (2 * PI))).

(** astropy.coordinates.angular_separation (Vincenty formula), called at utils.py:56,84
    and coordinates.py:66 *)
Definition angular_separation (lon1 lat1 lon2 lat2 : R) : R :=
  let sdlon := sin (lon2 - lon1) in
  let cdlon := cos (lon2 - lon1) in
  let num1 := cos lat2 * sdlon in
  let num2 := cos lat1 * sin lat2 - sin lat1 * cos lat2 * cdlon in
  let denominator := sin lat1 * sin lat2 + cos lat1 * cos lat2 * cdlon in
  atan2 (sqrt (num1 * num1 + num2 * num2)) denominator.
(** astropy.coordinates.position_angle, called at coordinates.py:69 *)
Definition position_angle (lon1 lat1 lon2 lat2 : R) : R :=
  let deltalon := lon2 - lon1 in
  let x := sin lat2 * cos lat1 - cos lat2 * sin lat1 * cos deltalon in
  let y := sin deltalon * cos lat2 in
  wrap_2pi (atan2 y x).
(** astropy's SkyOffsetFrame: rotate by lon0 around z, by -lat0 around y
    (coordinates.py:32-39); longitude in (-pi, pi] *)
Definition sky_offset (lon lat lon0 lat0 : R) : R * R :=
  let x := cos lat * cos lon in
  let y := cos lat * sin lon in
  let z := sin lat in
  let x1 := cos lon0 * x + sin lon0 * y in
  let y1 := - sin lon0 * x + cos lon0 * y in
  let x2 := cos lat0 * x1 + sin lat0 * z in
  let z2 := - sin lat0 * x1 + cos lat0 * z in
  (atan2 y1 x2, atan2 z2 (sqrt (x2 * x2 + y1 * y1))).

(** coordinates.py:10-42 *)
Definition gadf_fov_coords_lon_lat (lon lat pointing_lon pointing_lat : R) : R * R :=
  let target_fov := sky_offset lon lat pointing_lon pointing_lat in
  (- fst target_fov, snd target_fov).
(** coordinates.py:45-72 *)
Definition gadf_fov_coords_theta_phi (lon lat pointing_lon pointing_lat : R) : R * R :=
  let theta := angular_separation pointing_lon pointing_lat lon lat in
  let phi := position_angle pointing_lon pointing_lat lon lat in
  (theta, wrap_2pi (- phi)).

(** One row of the event table: the columns used by utils.py *)
Record sky_event := mkSky {
  true_az : R; true_alt : R; reco_az : R; reco_alt : R; pointing_az : R; pointing_alt : R }.
Inductive prefix_ := TruePrefix | RecoPrefix.
Definition ev_az p e := match p with TruePrefix => true_az e | RecoPrefix => reco_az e end.
Definition ev_alt p e := match p with TruePrefix => true_alt e | RecoPrefix => reco_alt e end.
(** utils.py:37-63 [calculate_theta] *)
Definition calculate_theta (events : list sky_event) (assumed_az assumed_alt : R) : list R :=
  map (fun e => angular_separation assumed_az assumed_alt (reco_az e) (reco_alt e)) events.
(** utils.py:66-91 [calculate_source_fov_offset] *)
Definition calculate_source_fov_offset (events : list sky_event) (p : prefix_) : list R :=
  map (fun e => angular_separation (ev_az p e) (ev_alt p e) (pointing_az e) (pointing_alt e)) events.
(** utils.py:94-119 [calculate_source_fov_position_angle] *)
Definition calculate_source_fov_position_angle (events : list sky_event) (p : prefix_) : list R :=
  map (fun e => snd (gadf_fov_coords_theta_phi (ev_az p e) (ev_alt p e) (pointing_az e) (pointing_alt e))) events.
(** utils.py:122-147 [calculate_source_fov_lonlat] *)
Definition calculate_source_fov_lonlat (events : list sky_event) (p : prefix_) : list R * list R :=
  (map (fun e => fst (gadf_fov_coords_lon_lat (ev_az p e) (ev_alt p e) (pointing_az e) (pointing_alt e))) events,
   map (fun e => snd (gadf_fov_coords_lon_lat (ev_az p e) (ev_alt p e) (pointing_az e) (pointing_alt e))) events).

(** ** tables with units *)
Definition utable := list (string * arr).
(** numpy broadcasting of two one-dimensional arrays *)
Definition np_zip {A B C} (f : A -> B -> C) (a : list A) (b : list B) : res (list C) :=
  if Nat.eqb (length a) (length b) then Ok (zipwith f a b)
  else match a, b with
       | [x], _ => Ok (map (f x) b)
       | _, [y] => Ok (map (fun x => f x y) a)
       | _, _ => Err ValueError
       end.
(** [a == b] for array or Quantity columns: values are converted to the unit of the
    first; a column without unit counts as dimensionless (0, inf, nan match
    any unit); incompatible units compare as plain [False]. *)
Definition col_eq (a b : arr) : res (list bool) :=
  match a_unit a, a_unit b with
  | None, None => np_zip neqb (a_val a) (a_val b)
  | Some ua, Some ub =>
      if Nat.eqb (u_dim ua) (u_dim ub) then np_zip neqb (a_val a) (map (convert_val ub ua) (a_val b))
      else Ok [false]
  | Some ua, None =>
      if Nat.eqb (u_dim ua) dimless_dim then np_zip neqb (a_val a) (map (convert_val one_unit ua) (a_val b))
      else if forallb arbitrary_unit_ok (a_val b) then np_zip neqb (a_val a) (a_val b)
      else Ok [false]
  | None, Some ub =>
      if Nat.eqb (u_dim ub) dimless_dim then np_zip neqb (map (convert_val one_unit ub) (a_val a)) (a_val b)
      else if forallb arbitrary_unit_ok (a_val a) then np_zip neqb (a_val a) (a_val b)
      else Ok [false]
  end.
Definition get_col {A} (t : list (string * A)) (k : string) : res A :=
  match getitem t k with Some c => Ok c | None => Err KeyError end.
(** utils.py:150-169 [check_histograms] *)
Fixpoint check_keys (hist1 hist2 : utable) (key : string) (ks : list string) : res unit :=
  match ks with
  | [] => Ok tt
  | k :: ks' =>
      do c1 <- get_col hist1 (key ++ "_" ++ k)%string;
      do c2 <- get_col hist2 (key ++ "_" ++ k)%string;
      do e <- col_eq c1 c2;
      if forallb (fun b => b) e then check_keys hist1 hist2 key ks' else Err ValueError
  end.
Definition check_histograms (hist1 hist2 : utable) (key : string) : res unit :=
  check_keys hist1 hist2 key ["low"; "center"; "high"]%string.

(** outcome of [check_table]: the exceptions carry data.  A column without unit makes
    [expected.is_equivalent(None)] raise TypeError. *)
Inductive table_check :=
| TableOk
| TableMissing (columns : list string)
| TableWrongUnit (column : string) (unit expected : unit_)
| TableTypeError.
Fixpoint check_units (table : utable) (required : list (string * unit_)) : table_check :=
  match required with
  | [] => TableOk
  | (c, expected) :: rest =>
      match getitem table c with
      | None => TableMissing [c]
      | Some a =>
          match a_unit a with
          | None => TableTypeError
          | Some unit => if Nat.eqb (u_dim expected) (u_dim unit) then check_units table rest
                         else TableWrongUnit c unit expected
          end
      end
  end.
Definition mem_str (k : string) (l : list string) : bool := existsb (String.eqb k) l.
(** utils.py:216-247 [check_table]; the set difference of line 236 is given as a
    duplicate-free list *)
Definition check_table (table : utable) (required_columns : option (list string))
    (required_units : option (list (string * unit_))) : table_check :=
  let missing := match required_columns with
                 | Some req => filter (fun c => negb (mem_str c (colnames table))) (nodup string_dec req)
                 | None => [] end in
  match missing with
  | _ :: _ => TableMissing missing
  | [] => match required_units with Some r => check_units table r | None => TableOk end
  end.
