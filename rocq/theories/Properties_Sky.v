(** * Properties: field-of-view coordinates of events on the sky (C91) *)
From Coq Require Import String Reals List Bool ZArith Lia Lra.
From Verif Require Import Num Utils SpecUtils SkyUnits SpecSky SkyProofs.
Import ListNotations.
Open Scope R_scope.

(** equal coordinates if and only if equal directions *)
Theorem C91_one_to_one : forall lon lat lon' lat' plon plat,
  (gadf_fov_coords_theta_phi lon lat plon plat = gadf_fov_coords_theta_phi lon' lat' plon plat <-> direction lon lat = direction lon' lat') /\
  (gadf_fov_coords_lon_lat lon lat plon plat = gadf_fov_coords_lon_lat lon' lat' plon plat <-> direction lon lat = direction lon' lat').
Proof. exact one_to_one. Qed.
Print Assumptions C91_one_to_one.
(** every field-of-view coordinate is that of a direction *)
Theorem C91_onto_theta_phi : forall plon plat theta phi, 0 < theta < PI -> 0 <= phi < 2 * PI ->
  exists lon lat, - PI < lon <= PI /\ - (PI / 2) <= lat <= PI / 2 /\ gadf_fov_coords_theta_phi lon lat plon plat = (theta, phi).
Proof. exact onto_theta_phi. Qed.
Print Assumptions C91_onto_theta_phi.
Theorem C91_onto_lon_lat : forall plon plat l b, - PI <= l < PI -> - (PI / 2) < b < PI / 2 ->
  exists lon lat, - PI < lon <= PI /\ - (PI / 2) <= lat <= PI / 2 /\ gadf_fov_coords_lon_lat lon lat plon plat = (l, b).
Proof. exact onto_lon_lat. Qed.
Print Assumptions C91_onto_lon_lat.
(** the origin of the azimuth does not matter *)
Theorem C91_rotated : forall c events az alt p,
  calculate_theta (map (rotated c) events) (az + c) alt = calculate_theta events az alt /\
  calculate_source_fov_offset (map (rotated c) events) p = calculate_source_fov_offset events p /\
  calculate_source_fov_position_angle (map (rotated c) events) p = calculate_source_fov_position_angle events p /\
  calculate_source_fov_lonlat (map (rotated c) events) p = calculate_source_fov_lonlat events p.
Proof. exact events_rotated. Qed.
Print Assumptions C91_rotated.
(** 0 and 360 degree are the same azimuth, in each column on its own *)
Theorem C91_full_turns : forall events events' az az' alt p, Forall2 same_directions events events' -> same_azimuth az az' ->
  calculate_theta events' az' alt = calculate_theta events az alt /\
  calculate_source_fov_offset events' p = calculate_source_fov_offset events p /\
  calculate_source_fov_position_angle events' p = calculate_source_fov_position_angle events p /\
  calculate_source_fov_lonlat events' p = calculate_source_fov_lonlat events p.
Proof. exact events_turned. Qed.
Print Assumptions C91_full_turns.
(** assumed source position, reconstructed position and pointing form a triangle *)
Theorem C91_triangle : forall events az alt i e d, nth_error events i = Some e ->
  angle_between (direction az alt) (direction (pointing_az e) (pointing_alt e)) d ->
  exists theta offset, nth_error (calculate_theta events az alt) i = Some theta /\
    nth_error (calculate_source_fov_offset events RecoPrefix) i = Some offset /\ sides theta offset d.
Proof. exact events_sides. Qed.
Print Assumptions C91_triangle.
(** moving the assumed position by [d] changes theta at most by [d] *)
Theorem C91_two_sources : forall events az alt az' alt' d i,
  angle_between (direction az alt) (direction az' alt') d -> (i < List.length events)%nat ->
  exists theta theta', nth_error (calculate_theta events az alt) i = Some theta /\ nth_error (calculate_theta events az' alt') i = Some theta' /\ sides theta theta' d.
Proof. exact events_two_sources. Qed.
Print Assumptions C91_two_sources.
(** theta is 0 exactly for events from the assumed direction *)
Theorem C91_zero : forall events az alt i e, nth_error events i = Some e ->
  (nth_error (calculate_theta events az alt) i = Some 0 <-> direction az alt = direction (reco_az e) (reco_alt e)).
Proof.
  intros events az alt i e E. unfold calculate_theta. rewrite nth_error_map, E. cbn [option_map].
  pose proof (zero_angle _ _ _ _ _ (UtilsProofs.separation_angle az alt (reco_az e) (reco_alt e))) as Z. rewrite <- Z. split; [congruence|intros ->; reflexivity].
Qed.
Print Assumptions C91_zero.
(** columns in degree: the angles of C41 in degree, whatever the units of the columns of the table *)
Theorem C91_degrees : forall u events az u_az alt u_alt p i e, nth_error events i = Some e ->
  exists theta offset phi lon lat,
    nth_error (calculate_theta_deg u events az u_az alt u_alt) i = Some theta /\ nth_error (calculate_source_fov_offset_deg u events p) i = Some offset /\
    nth_error (calculate_source_fov_position_angle_deg u events p) i = Some phi /\ nth_error (fst (calculate_source_fov_lonlat_deg u events p)) i = Some lon /\
    nth_error (snd (calculate_source_fov_lonlat_deg u events p)) i = Some lat /\
    0 <= theta <= 180 /\ 0 <= offset <= 180 /\ 0 <= phi < 360 /\ -180 <= lon < 180 /\ -90 <= lat <= 90 /\
    let e := in_radian u e in
    angle_between (direction (az * u_az) (alt * u_alt)) (direction (reco_az e) (reco_alt e)) (theta * (PI / 180)) /\
    angle_between (direction (ev_az p e) (ev_alt p e)) (direction (pointing_az e) (pointing_alt e)) (offset * (PI / 180)) /\
    direction (lon * (PI / 180)) (lat * (PI / 180)) = (cos (offset * (PI / 180)), sin (offset * (PI / 180)) * sin (phi * (PI / 180)), sin (offset * (PI / 180)) * cos (phi * (PI / 180))).
Proof. exact degrees. Qed.
Print Assumptions C91_degrees.
Theorem C91_units : forall u u' events events' az u_az alt u_alt az' u_az' alt' u_alt' p,
  Forall2 (same_angles u u') events events' -> az * u_az = az' * u_az' -> alt * u_alt = alt' * u_alt' ->
  calculate_theta_deg u events az u_az alt u_alt = calculate_theta_deg u' events' az' u_az' alt' u_alt' /\
  calculate_source_fov_offset_deg u events p = calculate_source_fov_offset_deg u' events' p /\
  calculate_source_fov_position_angle_deg u events p = calculate_source_fov_position_angle_deg u' events' p /\
  calculate_source_fov_lonlat_deg u events p = calculate_source_fov_lonlat_deg u' events' p.
Proof. exact units_same. Qed.
Print Assumptions C91_units.

(** 1 degree in one table, pi / 180 radian in the other; an azimuth of -1 and of 2 pi - 1 *)
Example C91_example_units : same_angles (mkSU (PI / 180) (PI / 180) (PI / 180) (PI / 180) (PI / 180) (PI / 180)) (mkSU 1 1 1 1 1 1)
  (mkSky 1 2 3 4 5 6) (mkSky (PI / 180) (2 * (PI / 180)) (3 * (PI / 180)) (4 * (PI / 180)) (5 * (PI / 180)) (6 * (PI / 180))).
Proof. unfold same_angles. cbn. repeat split; ring. Qed.
Example C91_example_turns : same_directions (mkSky (-1) 0 3 1 2 1) (mkSky (-1 + 2 * PI * 1) 0 (3 + 2 * PI * (-2)) 1 2 1).
Proof. unfold same_directions, same_azimuth. cbn. split; [exists 1%Z; auto|]. split; [exists (-2)%Z; auto|]. split; [exists 0%Z; ring|]. auto. Qed.
Example C91_example_triangle : sides 1 2 3 /\ ~ sides 1 2 4.
Proof. unfold sides. split; [lra|]. intros H. lra. Qed.
