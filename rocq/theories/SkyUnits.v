(** * SkyUnits: the angular columns of pyirf/utils.py with units *)
From Coq Require Import Reals List.
From Verif Require Import Num Utils.
Import ListNotations.
Open Scope R_scope.

(** the units of the columns of an event table, in radian.  Columns whose unit is not an angle are not modelled *)
Record sky_units := mkSU { u_true_az : R; u_true_alt : R; u_reco_az : R; u_reco_alt : R; u_pointing_az : R; u_pointing_alt : R }.
(** astropy's trigonometric functions and [SkyCoord] convert their argument to radian *)
Definition in_radian (u : sky_units) (e : sky_event) : sky_event :=
  mkSky (true_az e * u_true_az u) (true_alt e * u_true_alt u) (reco_az e * u_reco_az u) (reco_alt e * u_reco_alt u)
    (pointing_az e * u_pointing_az u) (pointing_alt e * u_pointing_alt u).
(** [x.to(u.deg)] of an angle in radian: utils.py:63,91,119,147 and coordinates.py:72 *)
Definition to_deg (x : R) : R := x / (PI / 180).
(** utils.py:37-63 [calculate_theta] *)
Definition calculate_theta_deg (u : sky_units) (events : list sky_event) (az u_az alt u_alt : R) : list R :=
  map to_deg (calculate_theta (map (in_radian u) events) (az * u_az) (alt * u_alt)).
(** utils.py:66-91 [calculate_source_fov_offset] *)
Definition calculate_source_fov_offset_deg (u : sky_units) (events : list sky_event) (p : prefix_) : list R :=
  map to_deg (calculate_source_fov_offset (map (in_radian u) events) p).
(** utils.py:94-119 [calculate_source_fov_position_angle] *)
Definition calculate_source_fov_position_angle_deg (u : sky_units) (events : list sky_event) (p : prefix_) : list R :=
  map to_deg (calculate_source_fov_position_angle (map (in_radian u) events) p).
(** utils.py:122-147 [calculate_source_fov_lonlat] *)
Definition calculate_source_fov_lonlat_deg (u : sky_units) (events : list sky_event) (p : prefix_) : list R * list R :=
  let ll := calculate_source_fov_lonlat (map (in_radian u) events) p in (map to_deg (fst ll), map to_deg (snd ll)).
