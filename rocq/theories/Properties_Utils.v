(** * Properties_Utils: C39 - C41 *)
From Coq Require Import String Reals List Bool ZArith Lia Lra.
From Verif Require Import Num Numpy Table Utils SpecUtils UtilsProofs UtilsProofs2 Cuts SpecColumns ColumnsProofs.
Import ListNotations.
Open Scope R_scope.

(** ** C39 *)
Theorem C39_cone_values : cone_solid_angle 0 = 0 /\ cone_solid_angle PI = 4 * PI.
Proof. exact (conj cone_0 cone_pi). Qed.
Print Assumptions C39_cone_values.
Theorem C39_cone_increasing : forall a b, 0 <= a -> a < b -> b <= PI -> cone_solid_angle a < cone_solid_angle b.
Proof. exact cone_incr. Qed.
Print Assumptions C39_cone_increasing.
Theorem C39_rectangle_additive_lon : forall lon1 lon2 lon3 lat_low lat_high,
  rectangle_solid_angle lon1 lon3 lat_low lat_high =
  rectangle_solid_angle lon1 lon2 lat_low lat_high + rectangle_solid_angle lon2 lon3 lat_low lat_high.
Proof. exact rect_split_lon. Qed.
Print Assumptions C39_rectangle_additive_lon.
Theorem C39_rectangle_additive_lat : forall lon_low lon_high lat1 lat2 lat3,
  rectangle_solid_angle lon_low lon_high lat1 lat3 =
  rectangle_solid_angle lon_low lon_high lat1 lat2 + rectangle_solid_angle lon_low lon_high lat2 lat3.
Proof. exact rect_split_lat. Qed.
Print Assumptions C39_rectangle_additive_lat.
Theorem C39_rectangle_nonnegative : forall lon_low lon_high lat_low lat_high,
  lon_low <= lon_high -> - (PI / 2) <= lat_low -> lat_low <= lat_high -> lat_high <= PI / 2 ->
  0 <= rectangle_solid_angle lon_low lon_high lat_low lat_high.
Proof. exact rect_nonneg. Qed.
Print Assumptions C39_rectangle_nonnegative.
Theorem C39_rectangle_sphere : rectangle_solid_angle 0 (2 * PI) (- (PI / 2)) (PI / 2) = 4 * PI.
Proof. exact rect_sphere. Qed.
Print Assumptions C39_rectangle_sphere.
(** the two functions agree on a polar cap *)
Theorem C39_polar_cap : forall t, 0 <= t ->
  rectangle_solid_angle 0 (2 * PI) (PI / 2 - t) (PI / 2) = cone_solid_angle t.
Proof. exact rect_cone. Qed.
Print Assumptions C39_polar_cap.
Example C39_example : 0 < cone_solid_angle (PI / 2) < cone_solid_angle PI.
Proof.
  pose proof PI_RGT_0. split.
  - rewrite <- cone_0. apply cone_incr; lra.
  - apply cone_incr; lra.
Qed.

(** ** C40 *)
Theorem C40_table_ok_iff : forall t columns units,
  check_table t (Some columns) (Some units) = TableOk <->
  (forall c, In c columns -> In c (colnames t)) /\ (forall c u, In (c, u) units -> has_unit t c u).
Proof. exact c40_ok. Qed.
Print Assumptions C40_table_ok_iff.
Theorem C40_missing_columns : forall t columns units,
  (exists c, In c columns /\ ~ In c (colnames t)) ->
  exists missing, check_table t (Some columns) units = TableMissing missing /\ NoDup missing /\
    forall c, In c missing <-> In c columns /\ ~ In c (colnames t).
Proof. exact c40_missing. Qed.
Print Assumptions C40_missing_columns.
(** with all columns present and carrying units the outcome is "ok" or a wrong unit *)
Theorem C40_wrong_unit : forall t units,
  (forall c u, In (c, u) units -> exists a u', getitem t c = Some a /\ a_unit a = Some u') ->
  (check_table t None (Some units) = TableOk /\ forall c u, In (c, u) units -> has_unit t c u) \/
  (exists c u e, check_table t None (Some units) = TableWrongUnit c u e /\ In (c, e) units /\
     ~ has_unit t c e /\ exists a, getitem t c = Some a /\ a_unit a = Some u).
Proof. exact c40_units. Qed.
Print Assumptions C40_wrong_unit.
(** any requirement: the first column, in the order of the requirements, which has not the required kind of unit decides *)
Theorem C40_units_exact : forall t units,
  (check_table t None (Some units) = TableOk /\ forall c u, In (c, u) units -> has_unit t c u) \/
  (exists before c expected after, units = before ++ (c, expected) :: after /\
     (forall c' u', In (c', u') before -> has_unit t c' u') /\
     ((getitem t c = None /\ check_table t None (Some units) = TableMissing [c]) \/
      (exists a, getitem t c = Some a /\ a_unit a = None /\ check_table t None (Some units) = TableTypeError) \/
      (exists a u, getitem t c = Some a /\ a_unit a = Some u /\ u_dim u <> u_dim expected /\
         check_table t None (Some units) = TableWrongUnit c u expected))).
Proof. exact c40_units_exact. Qed.
Print Assumptions C40_units_exact.
(** a column without unit raises TypeError, not the documented WrongColumnUnit *)
Theorem C40_unitless_column_refuted : exists t units,
  (forall c u, In (c, u) units -> In c (colnames t)) /\
  (forall c u, In (c, u) units -> ~ has_unit t c u) /\ check_table t None (Some units) = TableTypeError.
Proof. exact c40_unitless. Qed.
Print Assumptions C40_unitless_column_refuted.
Theorem C40_check_histograms : forall h1 h2 key lo1 ce1 hi1 u1 lo2 ce2 hi2 u2,
  0 < u_scale u1 -> 0 < u_scale u2 ->
  List.length lo1 = List.length lo2 -> List.length ce1 = List.length ce2 -> List.length hi1 = List.length hi2 ->
  getitem h1 (key ++ "_low")%string = Some (mkArr lo1 (Some u1)) ->
  getitem h1 (key ++ "_center")%string = Some (mkArr ce1 (Some u1)) ->
  getitem h1 (key ++ "_high")%string = Some (mkArr hi1 (Some u1)) ->
  getitem h2 (key ++ "_low")%string = Some (mkArr lo2 (Some u2)) ->
  getitem h2 (key ++ "_center")%string = Some (mkArr ce2 (Some u2)) ->
  getitem h2 (key ++ "_high")%string = Some (mkArr hi2 (Some u2)) ->
  (check_histograms h1 h2 key = Ok tt /\ same_edges lo1 u1 lo2 u2 /\ same_edges ce1 u1 ce2 u2 /\
     same_edges hi1 u1 hi2 u2) \/
  (check_histograms h1 h2 key = Err ValueError /\
   ~ (same_edges lo1 u1 lo2 u2 /\ same_edges ce1 u1 ce2 u2 /\ same_edges hi1 u1 hi2 u2)).
Proof. exact c40_histograms. Qed.
Print Assumptions C40_check_histograms.
(** columns with or without units *)
Theorem C40_check_histograms_any_unit : forall h1 h2 key lo1 ce1 hi1 lo2 ce2 hi2,
  (forall c, In c [lo1; ce1; hi1; lo2; ce2; hi2] -> positive_unit c) ->
  List.length (a_val lo1) = List.length (a_val lo2) -> List.length (a_val ce1) = List.length (a_val ce2) -> List.length (a_val hi1) = List.length (a_val hi2) ->
  getitem h1 (key ++ "_low")%string = Some lo1 -> getitem h1 (key ++ "_center")%string = Some ce1 -> getitem h1 (key ++ "_high")%string = Some hi1 ->
  getitem h2 (key ++ "_low")%string = Some lo2 -> getitem h2 (key ++ "_center")%string = Some ce2 -> getitem h2 (key ++ "_high")%string = Some hi2 ->
  (check_histograms h1 h2 key = Ok tt /\ columns_agree lo1 lo2 /\ columns_agree ce1 ce2 /\ columns_agree hi1 hi2) \/
  (check_histograms h1 h2 key = Err ValueError /\ ~ (columns_agree lo1 lo2 /\ columns_agree ce1 ce2 /\ columns_agree hi1 hi2)).
Proof. exact histograms_agree. Qed.
Print Assumptions C40_check_histograms_any_unit.
(** an edge 0 without unit agrees with 0 TeV, an edge 1 without unit does not agree with 1 TeV *)
Example C40_mixed_example : columns_agree (mkArr [Fin 0; PInf] (Some (mkUnit 1 1))) (mkArr [Fin 0; PInf] None) /\
  ~ columns_agree (mkArr [Fin 1] (Some (mkUnit 1 1))) (mkArr [Fin 1] None).
Proof.
  split.
  - right. split; [discriminate|]. split.
    + intros x [<- |[<- |[]]]; auto.
    + intros [|[|[|i]]] x y Hx Hy; try discriminate; injection Hx as <-; injection Hy as <-; split; congruence.
  - intros [(D & _)|(_ & Z & _)]; [discriminate|]. destruct (Z (Fin 1)) as [E|[E|E]]; [left; reflexivity| | |]; try discriminate. injection E. lra.
Qed.
Theorem C40_check_histograms_missing : forall h1 h2 key k, In k ["low"; "center"; "high"]%string ->
  (getitem h1 (key ++ "_" ++ k)%string = None \/ getitem h2 (key ++ "_" ++ k)%string = None) ->
  check_histograms h1 h2 key = Err KeyError \/ check_histograms h1 h2 key = Err ValueError.
Proof. exact c40_histograms_key. Qed.
Print Assumptions C40_check_histograms_missing.
(** 1 TeV and 1000 GeV are the same edge *)
Example C40_example : same_edges [Fin 1; PInf] (mkUnit 1000 1) [Fin 1000; PInf] (mkUnit 1 1) /\
  has_unit [("energy"%string, mkArr [Fin 1] (Some (mkUnit 1000 1)))] "energy" (mkUnit 1 1).
Proof.
  split.
  - split; [reflexivity|]. intros [|[|[|i]]] x y; simpl; intros Hx Hy; try discriminate;
      injection Hx as <-; injection Hy as <-; (split; [congruence|]); unfold physical; simpl.
    + f_equal; lra.
    + unfold inf_signed. rsolve. reflexivity.
  - exists (mkArr [Fin 1] (Some (mkUnit 1000 1))), (mkUnit 1000 1). auto.
Qed.

(** ** C41 *)
Theorem C41_theta_phi : forall lon lat plon plat theta phi,
  gadf_fov_coords_theta_phi lon lat plon plat = (theta, phi) ->
  angle_between (direction lon lat) (direction plon plat) theta /\ 0 <= phi < 2 * PI /\
  sin theta * sin phi = - (cos lat * sin (lon - plon)) /\
  sin theta * cos phi = cos plat * sin lat - sin plat * cos lat * cos (lon - plon).
Proof. exact c41_theta_phi. Qed.
Print Assumptions C41_theta_phi.
Theorem C41_lon_lat : forall lon lat plon plat lon_t lat_t,
  gadf_fov_coords_lon_lat lon lat plon plat = (lon_t, lat_t) ->
  - PI <= lon_t < PI /\ - (PI / 2) <= lat_t <= PI / 2 /\
  cos lat_t * cos lon_t = dot3 (direction lon lat) (direction plon plat) /\
  cos lat_t * sin lon_t = - (cos lat * sin (lon - plon)) /\
  sin lat_t = cos plat * sin lat - sin plat * cos lat * cos (lon - plon).
Proof. exact c41_lon_lat. Qed.
Print Assumptions C41_lon_lat.
(** the two coordinate systems describe the same direction in the field of view *)
Theorem C41_consistent : forall lon lat plon plat theta phi lon_t lat_t,
  gadf_fov_coords_theta_phi lon lat plon plat = (theta, phi) ->
  gadf_fov_coords_lon_lat lon lat plon plat = (lon_t, lat_t) ->
  direction lon_t lat_t = (cos theta, sin theta * sin phi, sin theta * cos phi).
Proof. exact c41_consistent. Qed.
Print Assumptions C41_consistent.
Theorem C41_center : forall plon plat, - (PI / 2) < plat < PI / 2 ->
  fst (gadf_fov_coords_theta_phi plon plat plon plat) = 0 /\
  gadf_fov_coords_lon_lat plon plat plon plat = (0, 0).
Proof. exact c41_center. Qed.
Print Assumptions C41_center.
Theorem C41_event_columns : forall events p,
  List.length (calculate_source_fov_offset events p) = List.length events /\
  List.length (calculate_source_fov_position_angle events p) = List.length events /\
  forall i e, nth_error events i = Some e ->
    exists theta phi lon_t lat_t,
    nth_error (calculate_source_fov_offset events p) i = Some theta /\
    nth_error (calculate_source_fov_position_angle events p) i = Some phi /\
    nth_error (fst (calculate_source_fov_lonlat events p)) i = Some lon_t /\
    nth_error (snd (calculate_source_fov_lonlat events p)) i = Some lat_t /\
    angle_between (direction (ev_az p e) (ev_alt p e)) (direction (pointing_az e) (pointing_alt e)) theta /\
    0 <= phi < 2 * PI /\
    direction lon_t lat_t = (cos theta, sin theta * sin phi, sin theta * cos phi).
Proof. exact c41_events. Qed.
Print Assumptions C41_event_columns.
Theorem C41_theta_column : forall events az alt i e, nth_error events i = Some e ->
  exists theta, nth_error (calculate_theta events az alt) i = Some theta /\
    angle_between (direction az alt) (direction (reco_az e) (reco_alt e)) theta.
Proof. exact c41_theta_events. Qed.
Print Assumptions C41_theta_column.
(** [angle_between] determines the angle and is symmetric *)
Theorem C41_angle_unique : forall d1 d2 t t', angle_between d1 d2 t -> angle_between d2 d1 t' -> t = t'.
Proof. exact (fun d1 d2 t t' H H' => angle_between_unique d1 d2 t t' H (angle_between_sym d2 d1 t' H')). Qed.
Print Assumptions C41_angle_unique.
Example C41_example : angle_between (direction 0 0) (direction (PI / 2) 0) (PI / 2).
Proof.
  pose proof PI_RGT_0. split; [lra|]. unfold direction, dot3.
  rewrite cos_0, sin_0, cos_PI2, sin_PI2. lra.
Qed.
