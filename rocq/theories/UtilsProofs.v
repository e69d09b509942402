(** * UtilsProofs *)
From Coq Require Import String Reals List Bool ZArith Lia Lra Psatz.
From Verif Require Import Num Numpy Table Binning BinningProofs Utils.
Import ListNotations.
Open Scope R_scope.

(** ** solid angles *)
Lemma cone_0 : cone_solid_angle 0 = 0.
Proof. unfold cone_solid_angle. rewrite cos_0. lra. Qed.
Lemma cone_pi : cone_solid_angle PI = 4 * PI.
Proof. unfold cone_solid_angle. rewrite cos_PI. lra. Qed.
Lemma cone_incr a b : 0 <= a -> a < b -> b <= PI -> cone_solid_angle a < cone_solid_angle b.
Proof.
  intros. unfold cone_solid_angle. pose proof PI_RGT_0.
  pose proof (cos_decreasing_1 a b). apply Rmult_lt_compat_l; [lra|].
  enough (cos b < cos a) by lra. apply H3; lra.
Qed.
Lemma rect_split_lon a b c l h :
  rectangle_solid_angle a c l h = rectangle_solid_angle a b l h + rectangle_solid_angle b c l h.
Proof. unfold rectangle_solid_angle. lra. Qed.
Lemma rect_split_lat a b l m h :
  rectangle_solid_angle a b l h = rectangle_solid_angle a b l m + rectangle_solid_angle a b m h.
Proof. unfold rectangle_solid_angle. lra. Qed.
Lemma rect_nonneg a b l h : a <= b -> - (PI / 2) <= l -> l <= h -> h <= PI / 2 ->
  0 <= rectangle_solid_angle a b l h.
Proof.
  intros. unfold rectangle_solid_angle. apply Rmult_le_pos; [lra|].
  destruct (Req_dec l h); [subst; lra|]. pose proof (sin_increasing_1 l h). lra.
Qed.
Lemma rect_sphere : rectangle_solid_angle 0 (2 * PI) (- (PI / 2)) (PI / 2) = 4 * PI.
Proof. unfold rectangle_solid_angle. rewrite sin_neg, sin_PI2. lra. Qed.
(** a band around the pole is a cone *)
Lemma rect_cone t : 0 <= t -> rectangle_solid_angle 0 (2 * PI) (PI / 2 - t) (PI / 2) = cone_solid_angle t.
Proof. intros. unfold rectangle_solid_angle, cone_solid_angle. rewrite sin_shift, sin_PI2. lra. Qed.

(** ** atan2 *)
Lemma atan_bounds z : - (PI / 2) < atan z < PI / 2.
Proof. pose proof (atan_bound z). lra. Qed.
Lemma cos_atan_pos z : 0 < cos (atan z).
Proof. destruct (atan_bounds z); apply cos_gt_0; lra. Qed.
Lemma sin_cos_atan z : sin (atan z) = z * cos (atan z).
Proof. pose proof (tan_atan z) as H. unfold tan in H. pose proof (cos_atan_pos z).
  apply (Rmult_eq_compat_r (cos (atan z))) in H. unfold Rdiv in H. rewrite Rmult_assoc, Rinv_l in H; lra. Qed.
Lemma cos_atan_val z : cos (atan z) * sqrt (1 + z * z) = 1.
Proof.
  pose proof (cos_atan_pos z) as Hp. pose proof (sin_cos_atan z) as Hs.
  pose proof (sin2_cos2 (atan z)) as H. rewrite Hs in H. unfold Rsqr in H.
  assert (Hq : 0 < 1 + z * z) by nra.
  assert (E : (cos (atan z) * sqrt (1 + z * z)) * (cos (atan z) * sqrt (1 + z * z)) = 1).
  { replace (cos (atan z) * sqrt (1 + z * z) * (cos (atan z) * sqrt (1 + z * z)))
      with (cos (atan z) * cos (atan z) * (sqrt (1 + z * z) * sqrt (1 + z * z))) by ring.
    rewrite sqrt_sqrt by lra. lra. }
  assert (0 < cos (atan z) * sqrt (1 + z * z)) by (apply Rmult_lt_0_compat; [auto|apply sqrt_lt_R0; auto]).
  nra.
Qed.
Lemma hyp_scale x y : x <> 0 -> sqrt (x * x + y * y) = Rabs x * sqrt (1 + y / x * (y / x)).
Proof.
  intros Hx. rewrite <- (sqrt_Rsqr_abs x). rewrite <- sqrt_mult.
  - f_equal. unfold Rsqr. field. auto.
  - apply Rle_0_sqr.
  - nra.
Qed.
(** polar form: r (cos phi, sin phi) = (x, y), phi in (-pi, pi] *)
Lemma atan2_polar y x : sqrt (x * x + y * y) * cos (atan2 y x) = x /\
                        sqrt (x * x + y * y) * sin (atan2 y x) = y.
Proof.
  unfold atan2. destruct (Rltb_spec 0 x) as [Hx|Hx].
  - rewrite hyp_scale by lra. rewrite Rabs_right by lra. rewrite sin_cos_atan.
    pose proof (cos_atan_val (y / x)) as H.
    split; [|replace (x * sqrt (1 + y / x * (y / x)) * (y / x * cos (atan (y / x))))
      with (x * (y / x) * (cos (atan (y / x)) * sqrt (1 + y / x * (y / x)))) by ring; rewrite H; field; lra].
    replace (x * sqrt (1 + y / x * (y / x)) * cos (atan (y / x)))
      with (x * (cos (atan (y / x)) * sqrt (1 + y / x * (y / x)))) by ring. rewrite H. ring.
  - destruct (Rltb_spec x 0) as [Hx'|Hx'].
    + pose proof (cos_atan_val (y / x)) as H. rewrite hyp_scale by lra. rewrite Rabs_left by lra.
      assert (Ec : forall s, s = PI \/ s = - PI ->
        cos (atan (y / x) + s) = - cos (atan (y / x)) /\ sin (atan (y / x) + s) = - sin (atan (y / x))).
      { intros s [->| ->]; rewrite cos_plus, sin_plus, ?cos_neg, ?sin_neg, cos_PI, sin_PI; lra. }
      assert (E : forall s, s = PI \/ s = - PI ->
         - x * sqrt (1 + y / x * (y / x)) * cos (atan (y / x) + s) = x /\
         - x * sqrt (1 + y / x * (y / x)) * sin (atan (y / x) + s) = y).
      { intros s Hs. destruct (Ec s Hs) as [-> ->]. rewrite sin_cos_atan. split.
        - replace (- x * sqrt (1 + y / x * (y / x)) * - cos (atan (y / x)))
            with (x * (cos (atan (y / x)) * sqrt (1 + y / x * (y / x)))) by ring. rewrite H; ring.
        - replace (- x * sqrt (1 + y / x * (y / x)) * - (y / x * cos (atan (y / x))))
            with (x * (y / x) * (cos (atan (y / x)) * sqrt (1 + y / x * (y / x)))) by ring. rewrite H; field; lra. }
      destruct (Rltb y 0); [apply (E (- PI)); auto|apply (E PI); auto].
    + assert (x = 0) by lra. subst. rewrite Rmult_0_l, Rplus_0_l.
      destruct (Rltb_spec 0 y); [|destruct (Rltb_spec y 0)].
      * rewrite sqrt_square by lra. rewrite cos_PI2, sin_PI2. lra.
      * replace (y * y) with (- y * - y) by ring. rewrite sqrt_square by lra.
        rewrite cos_neg, sin_neg, cos_PI2, sin_PI2. lra.
      * assert (y = 0) by lra. subst. rewrite Rmult_0_l, sqrt_0. lra.
Qed.
Lemma atan_sign_neg z : z < 0 -> atan z < 0.
Proof. intros. rewrite <- atan_0. apply atan_increasing. auto. Qed.
Lemma atan_sign_pos z : 0 <= z -> 0 <= atan z.
Proof. intros [H| <-]; [left; rewrite <- atan_0; apply atan_increasing; auto|rewrite atan_0; lra]. Qed.
Lemma atan_sign_neg0 z : z <= 0 -> atan z <= 0.
Proof. intros [H| ->]; [left; apply atan_sign_neg; auto|rewrite atan_0; lra]. Qed.
Lemma div_sign_np y x : x < 0 -> 0 <= y -> y / x <= 0.
Proof. intros. unfold Rdiv. pose proof (Rinv_lt_0_compat x H). nra. Qed.
Lemma div_sign_nn y x : x < 0 -> y < 0 -> 0 < y / x.
Proof. intros. unfold Rdiv. pose proof (Rinv_lt_0_compat x H). nra. Qed.
Lemma atan2_range y x : - PI < atan2 y x <= PI.
Proof.
  pose proof PI_RGT_0. unfold atan2. pose proof (atan_bounds (y / x)).
  destruct (Rltb_spec 0 x); [lra|]. destruct (Rltb_spec x 0).
  - destruct (Rltb_spec y 0).
    + pose proof (div_sign_nn y x r r0). pose proof (atan_sign_pos (y / x) ltac:(lra)).
      assert (0 < atan (y / x)) by (rewrite <- atan_0; apply atan_increasing; auto). lra.
    + pose proof (div_sign_np y x r ltac:(lra)). pose proof (atan_sign_neg0 (y / x) ltac:(lra)). lra.
  - destruct (Rltb_spec 0 y); [lra|]. destruct (Rltb_spec y 0); lra.
Qed.
Lemma atan2_upper y x : 0 <= y -> 0 <= atan2 y x <= PI.
Proof.
  intros Hy. pose proof (atan2_range y x). split; [|lra]. unfold atan2.
  pose proof PI_RGT_0. pose proof (atan_bounds (y / x)).
  destruct (Rltb_spec 0 x).
  - apply atan_sign_pos. unfold Rdiv. apply Rmult_le_pos; auto. left. apply Rinv_0_lt_compat; auto.
  - destruct (Rltb_spec x 0).
    + destruct (Rltb_spec y 0); [lra|]. lra.
    + destruct (Rltb_spec 0 y); [lra|]. destruct (Rltb_spec y 0); lra.
Qed.
Lemma atan2_right y x : 0 <= x -> - (PI / 2) <= atan2 y x <= PI / 2.
Proof.
  intros Hx. unfold atan2. pose proof PI_RGT_0. pose proof (atan_bounds (y / x)).
  destruct (Rltb_spec 0 x); [lra|]. destruct (Rltb_spec x 0); [lra|].
  destruct (Rltb_spec 0 y); [lra|]. destruct (Rltb_spec y 0); lra.
Qed.
(** on the unit circle *)
Lemma atan2_unit y x : x * x + y * y = 1 -> cos (atan2 y x) = x /\ sin (atan2 y x) = y.
Proof. intros E. pose proof (atan2_polar y x) as H. rewrite E, sqrt_1 in H. lra. Qed.

(** ** wrapping *)
Lemma sin_cos_period_nat x n : sin (x + 2 * INR n * PI) = sin x /\ cos (x + 2 * INR n * PI) = cos x.
Proof. split; [apply sin_period|apply cos_period]. Qed.
Lemma sin_cos_period x (k : Z) : sin (x - 2 * PI * IZR k) = sin x /\ cos (x - 2 * PI * IZR k) = cos x.
Proof.
  destruct (Z_le_gt_dec 0 k) as [H|H].
  - rewrite <- (Z2Nat.id k H), <- INR_IZR_INZ.
    destruct (sin_cos_period_nat (x - 2 * PI * INR (Z.to_nat k)) (Z.to_nat k)) as [E1 E2].
    replace (x - 2 * PI * INR (Z.to_nat k) + 2 * INR (Z.to_nat k) * PI) with x in E1, E2 by ring.
    auto.
  - replace k with (- Z.of_nat (Z.to_nat (- k)))%Z by lia. rewrite opp_IZR, <- INR_IZR_INZ.
    destruct (sin_cos_period_nat x (Z.to_nat (- k))) as [E1 E2].
    replace (x - 2 * PI * - INR (Z.to_nat (- k))) with (x + 2 * INR (Z.to_nat (- k)) * PI) by ring. auto.
Qed.
Lemma wrap_range x : 0 <= wrap_2pi x < 2 * PI.
Proof.
  unfold wrap_2pi. pose proof PI_RGT_0. destruct (base_Int_part (x / (2 * PI))) as [H1 H2].
  assert (E : x = 2 * PI * (x / (2 * PI))) by (field; lra).
  set (k := IZR (Int_part (x / (2 * PI)))) in *. set (q := x / (2 * PI)) in *. nra.
Qed.
Lemma wrap_sin x : sin (wrap_2pi x) = sin x.
Proof. unfold wrap_2pi. apply sin_cos_period. Qed.
Lemma wrap_cos x : cos (wrap_2pi x) = cos x.
Proof. unfold wrap_2pi. apply sin_cos_period. Qed.

(** ** separation *)
Definition dotp lon1 lat1 lon2 lat2 : R := sin lat1 * sin lat2 + cos lat1 * cos lat2 * cos (lon2 - lon1).
Lemma sin2_cos2' x : sin x * sin x = 1 - cos x * cos x.
Proof. pose proof (sin2_cos2 x). unfold Rsqr in H. lra. Qed.
Lemma vincenty_unit lon1 lat1 lon2 lat2 :
  let n1 := cos lat2 * sin (lon2 - lon1) in
  let n2 := cos lat1 * sin lat2 - sin lat1 * cos lat2 * cos (lon2 - lon1) in
  let d := dotp lon1 lat1 lon2 lat2 in
  n1 * n1 + n2 * n2 + d * d = 1.
Proof.
  cbv zeta. unfold dotp. pose proof (sin2_cos2' lat1) as A. pose proof (sin2_cos2' lat2) as B.
  pose proof (sin2_cos2' (lon2 - lon1)) as C.
  set (s1 := sin lat1) in *. set (c1 := cos lat1) in *. set (s2 := sin lat2) in *.
  set (c2 := cos lat2) in *. set (s := sin (lon2 - lon1)) in *. set (c := cos (lon2 - lon1)) in *.
  replace (c2 * s * (c2 * s) + (c1 * s2 - s1 * c2 * c) * (c1 * s2 - s1 * c2 * c) +
    (s1 * s2 + c1 * c2 * c) * (s1 * s2 + c1 * c2 * c))
    with (c2 * c2 * (s * s) + (c1 * c1 + s1 * s1) * (s2 * s2 + c2 * c2 * (c * c))) by ring.
  rewrite C, A, B. ring.
Qed.
Lemma separation_cos_sin lon1 lat1 lon2 lat2 :
  let n1 := cos lat2 * sin (lon2 - lon1) in
  let n2 := cos lat1 * sin lat2 - sin lat1 * cos lat2 * cos (lon2 - lon1) in
  cos (angular_separation lon1 lat1 lon2 lat2) = dotp lon1 lat1 lon2 lat2 /\
  sin (angular_separation lon1 lat1 lon2 lat2) = sqrt (n1 * n1 + n2 * n2).
Proof.
  cbv zeta. pose proof (vincenty_unit lon1 lat1 lon2 lat2) as U. cbv zeta in U.
  unfold angular_separation. fold (dotp lon1 lat1 lon2 lat2). apply atan2_unit.
  set (n1 := cos lat2 * sin (lon2 - lon1)) in *.
  set (n2 := cos lat1 * sin lat2 - sin lat1 * cos lat2 * cos (lon2 - lon1)) in *.
  rewrite sqrt_sqrt by nra. lra.
Qed.
Lemma separation_range lon1 lat1 lon2 lat2 : 0 <= angular_separation lon1 lat1 lon2 lat2 <= PI.
Proof. unfold angular_separation. apply atan2_upper. apply sqrt_pos. Qed.
Lemma cos_inj a b : 0 <= a <= PI -> 0 <= b <= PI -> cos a = cos b -> a = b.
Proof.
  intros Ha Hb E. destruct (Rtotal_order a b) as [H|[H|H]]; auto; exfalso.
  - pose proof (cos_decreasing_1 a b ltac:(lra) ltac:(lra) ltac:(lra) ltac:(lra) H). lra.
  - pose proof (cos_decreasing_1 b a ltac:(lra) ltac:(lra) ltac:(lra) ltac:(lra) H). lra.
Qed.
Lemma separation_unique lon1 lat1 lon2 lat2 t : 0 <= t <= PI -> cos t = dotp lon1 lat1 lon2 lat2 ->
  angular_separation lon1 lat1 lon2 lat2 = t.
Proof.
  intros Ht E. apply cos_inj; auto using separation_range.
  destruct (separation_cos_sin lon1 lat1 lon2 lat2) as [-> _]. auto.
Qed.
Lemma separation_sym lon1 lat1 lon2 lat2 :
  angular_separation lon1 lat1 lon2 lat2 = angular_separation lon2 lat2 lon1 lat1.
Proof.
  apply separation_unique; [apply separation_range|].
  destruct (separation_cos_sin lon2 lat2 lon1 lat1) as [-> _]. unfold dotp.
  replace (lon1 - lon2) with (- (lon2 - lon1)) by ring. rewrite cos_neg. ring.
Qed.

(** ** field of view coordinates *)
Lemma sky_offset_vec lon lat lon0 lat0 :
  let s := sky_offset lon lat lon0 lat0 in
  cos (snd s) * cos (fst s) = dotp lon0 lat0 lon lat /\
  cos (snd s) * sin (fst s) = cos lat * sin (lon - lon0) /\
  sin (snd s) = cos lat0 * sin lat - sin lat0 * cos lat * cos (lon - lon0).
Proof.
  cbv zeta. unfold sky_offset. cbn [fst snd].
  set (x2 := cos lat0 * (cos lon0 * (cos lat * cos lon) + sin lon0 * (cos lat * sin lon)) + sin lat0 * sin lat).
  set (y1 := - sin lon0 * (cos lat * cos lon) + cos lon0 * (cos lat * sin lon)).
  set (z2 := - sin lat0 * (cos lon0 * (cos lat * cos lon) + sin lon0 * (cos lat * sin lon)) + cos lat0 * sin lat).
  assert (Ex : x2 = dotp lon0 lat0 lon lat).
  { unfold x2, dotp. rewrite cos_minus. ring. }
  assert (Ey : y1 = cos lat * sin (lon - lon0)).
  { unfold y1. rewrite sin_minus. ring. }
  assert (Ez : z2 = cos lat0 * sin lat - sin lat0 * cos lat * cos (lon - lon0)).
  { unfold z2. rewrite cos_minus. ring. }
  assert (U : sqrt (x2 * x2 + y1 * y1) * sqrt (x2 * x2 + y1 * y1) + z2 * z2 = 1).
  { rewrite sqrt_sqrt by nra. rewrite Ex, Ey, Ez.
    pose proof (vincenty_unit lon0 lat0 lon lat) as U. cbv zeta in U. lra. }
  destruct (atan2_unit _ _ U) as [Hc Hs]. rewrite Hc, Hs.
  destruct (atan2_polar y1 x2) as [H1 H2]. rewrite H1, H2. auto.
Qed.
Lemma position_angle_vec lon0 lat0 lon lat :
  let t := angular_separation lon0 lat0 lon lat in
  let p := position_angle lon0 lat0 lon lat in
  sin t * cos p = cos lat0 * sin lat - sin lat0 * cos lat * cos (lon - lon0) /\
  sin t * sin p = cos lat * sin (lon - lon0).
Proof.
  cbv zeta. destruct (separation_cos_sin lon0 lat0 lon lat) as [_ Hs]. rewrite Hs.
  unfold position_angle. rewrite wrap_cos, wrap_sin.
  set (n1 := cos lat * sin (lon - lon0)).
  set (n2 := cos lat0 * sin lat - sin lat0 * cos lat * cos (lon - lon0)).
  replace (sin (lon - lon0) * cos lat) with n1 by (unfold n1; ring).
  replace (sin lat * cos lat0 - cos lat * sin lat0 * cos (lon - lon0)) with n2 by (unfold n2; ring).
  destruct (atan2_polar n1 n2) as [H1 H2]. replace (n1 * n1 + n2 * n2) with (n2 * n2 + n1 * n1) by ring.
  auto.
Qed.

From Verif Require Import SpecUtils.
Lemma dot3_dotp lon1 lat1 lon2 lat2 :
  dot3 (direction lon1 lat1) (direction lon2 lat2) = dotp lon1 lat1 lon2 lat2.
Proof. unfold dot3, direction, dotp. rewrite cos_minus. ring. Qed.
Lemma separation_angle lon1 lat1 lon2 lat2 :
  angle_between (direction lon1 lat1) (direction lon2 lat2) (angular_separation lon1 lat1 lon2 lat2).
Proof.
  split; [apply separation_range|]. rewrite dot3_dotp. apply separation_cos_sin.
Qed.
Lemma angle_between_unique d1 d2 t t' : angle_between d1 d2 t -> angle_between d1 d2 t' -> t = t'.
Proof. intros [H1 H2] [H3 H4]. apply cos_inj; auto. congruence. Qed.
Lemma angle_between_sym d1 d2 t : angle_between d1 d2 t -> angle_between d2 d1 t.
Proof.
  intros [H1 H2]. split; auto. rewrite H2. destruct d1 as [[a b] c], d2 as [[d e] f]. unfold dot3. ring.
Qed.

Lemma c41_theta_phi lon lat plon plat theta phi :
  gadf_fov_coords_theta_phi lon lat plon plat = (theta, phi) ->
  angle_between (direction lon lat) (direction plon plat) theta /\ 0 <= phi < 2 * PI /\
  sin theta * sin phi = - (cos lat * sin (lon - plon)) /\
  sin theta * cos phi = cos plat * sin lat - sin plat * cos lat * cos (lon - plon).
Proof.
  unfold gadf_fov_coords_theta_phi. intros E. injection E as <- <-.
  split; [apply angle_between_sym, separation_angle|]. split; [apply wrap_range|].
  rewrite wrap_sin, wrap_cos, sin_neg, cos_neg.
  destruct (position_angle_vec plon plat lon lat) as [H1 H2].
  split; [|auto]. rewrite <- H2. ring.
Qed.
Lemma c41_lon_lat lon lat plon plat lon_t lat_t :
  gadf_fov_coords_lon_lat lon lat plon plat = (lon_t, lat_t) ->
  - PI <= lon_t < PI /\ - (PI / 2) <= lat_t <= PI / 2 /\
  cos lat_t * cos lon_t = dot3 (direction lon lat) (direction plon plat) /\
  cos lat_t * sin lon_t = - (cos lat * sin (lon - plon)) /\
  sin lat_t = cos plat * sin lat - sin plat * cos lat * cos (lon - plon).
Proof.
  unfold gadf_fov_coords_lon_lat.
  assert (R1 : - PI < fst (sky_offset lon lat plon plat) <= PI) by apply atan2_range.
  assert (R2 : - (PI / 2) <= snd (sky_offset lon lat plon plat) <= PI / 2)
    by (apply atan2_right; apply sqrt_pos).
  pose proof (sky_offset_vec lon lat plon plat) as H. cbv zeta in H.
  destruct (sky_offset lon lat plon plat) as [a b]. cbn [fst snd] in *. destruct H as (H1 & H2 & H3).
  intros E. injection E as <- <-.
  split; [lra|]. split; [lra|].
  rewrite cos_neg, sin_neg. split; [|split; auto].
  - rewrite H1, dot3_dotp. unfold dotp. replace (plon - lon) with (- (lon - plon)) by ring.
    rewrite cos_neg. ring.
  - rewrite <- H2. ring.
Qed.
Lemma c41_consistent lon lat plon plat theta phi lon_t lat_t :
  gadf_fov_coords_theta_phi lon lat plon plat = (theta, phi) ->
  gadf_fov_coords_lon_lat lon lat plon plat = (lon_t, lat_t) ->
  direction lon_t lat_t = (cos theta, sin theta * sin phi, sin theta * cos phi).
Proof.
  intros H1 H2. apply c41_theta_phi in H1 as ([Ht Hc] & _ & E1 & E2).
  apply c41_lon_lat in H2 as (_ & _ & F1 & F2 & F3).
  unfold direction. rewrite F1, F2, F3, E1, E2, Hc. auto.
Qed.
Lemma c41_center plon plat : - (PI / 2) < plat < PI / 2 ->
  fst (gadf_fov_coords_theta_phi plon plat plon plat) = 0 /\
  gadf_fov_coords_lon_lat plon plat plon plat = (0, 0).
Proof.
  intros Hp. pose proof PI_RGT_0. pose proof (sin2_cos2' plat) as S. split.
  - unfold gadf_fov_coords_theta_phi. cbn [fst]. apply separation_unique; [lra|].
    unfold dotp. rewrite Rminus_diag_eq by auto. rewrite cos_0. lra.
  - unfold gadf_fov_coords_lon_lat, sky_offset. cbn [fst snd].
    pose proof (sin2_cos2' plon) as S2.
    replace (- sin plon * (cos plat * cos plon) + cos plon * (cos plat * sin plon)) with 0 by ring.
    replace (cos plat * (cos plon * (cos plat * cos plon) + sin plon * (cos plat * sin plon)) + sin plat * sin plat)
      with 1 by (replace (cos plat * (cos plon * (cos plat * cos plon) + sin plon * (cos plat * sin plon)))
        with (cos plat * cos plat * (cos plon * cos plon + sin plon * sin plon)) by ring; rewrite S2, S; ring).
    replace (- sin plat * (cos plon * (cos plat * cos plon) + sin plon * (cos plat * sin plon)) + cos plat * sin plat)
      with 0 by (replace (- sin plat * (cos plon * (cos plat * cos plon) + sin plon * (cos plat * sin plon)))
        with (- sin plat * cos plat * (cos plon * cos plon + sin plon * sin plon)) by ring; rewrite S2; ring).
    replace (1 * 1 + 0 * 0) with 1 by ring. rewrite sqrt_1. unfold atan2. rsolve.
    replace (0 / 1) with 0 by lra. rewrite atan_0. f_equal. lra.
Qed.
Lemma c41_events events p : 
  List.length (calculate_source_fov_offset events p) = List.length events /\
  List.length (calculate_source_fov_position_angle events p) = List.length events /\
  forall i e, nth_error events i = Some e ->
    exists theta phi lon_t lat_t,
    nth_error (calculate_source_fov_offset events p) i = Some theta /\
    nth_error (calculate_source_fov_position_angle events p) i = Some phi /\
    nth_error (fst (calculate_source_fov_lonlat events p)) i = Some lon_t /\
    nth_error (snd (calculate_source_fov_lonlat events p)) i = Some lat_t /\
    angle_between (direction (ev_az p e) (ev_alt p e)) (direction (pointing_az e) (pointing_alt e)) theta /\
    0 <= phi < 2 * PI /\
    direction lon_t lat_t = (cos theta, sin theta * sin phi, sin theta * cos phi).
Proof.
  unfold calculate_source_fov_offset, calculate_source_fov_position_angle, calculate_source_fov_lonlat.
  rewrite !map_length. split; auto. split; auto. intros i e Hi.
  destruct (gadf_fov_coords_theta_phi (ev_az p e) (ev_alt p e) (pointing_az e) (pointing_alt e)) as [th ph] eqn:E1.
  destruct (gadf_fov_coords_lon_lat (ev_az p e) (ev_alt p e) (pointing_az e) (pointing_alt e)) as [lo la] eqn:E2.
  assert (Eth : angular_separation (ev_az p e) (ev_alt p e) (pointing_az e) (pointing_alt e) = th).
  { rewrite separation_sym. unfold gadf_fov_coords_theta_phi in E1. congruence. }
  exists th, ph, lo, la. cbn [fst snd].
  repeat split.
  - rewrite (map_nth_error _ _ _ Hi). congruence.
  - rewrite (map_nth_error _ _ _ Hi), E1. reflexivity.
  - rewrite (map_nth_error _ _ _ Hi), E2. reflexivity.
  - rewrite (map_nth_error _ _ _ Hi), E2. reflexivity.
  - rewrite <- Eth. apply separation_range.
  - rewrite <- Eth. apply separation_range.
  - rewrite <- Eth. apply separation_angle.
  - apply c41_theta_phi in E1. tauto.
  - apply c41_theta_phi in E1. tauto.
  - eapply c41_consistent; eauto.
Qed.
Lemma c41_theta_events events az alt i e : nth_error events i = Some e ->
  exists theta, nth_error (calculate_theta events az alt) i = Some theta /\
    angle_between (direction az alt) (direction (reco_az e) (reco_alt e)) theta.
Proof.
  intros Hi. unfold calculate_theta. eexists. split; [apply (map_nth_error _ _ _ Hi)|]. apply separation_angle.
Qed.

(** ** tables *)
Lemma np_zip_eq {A B C} (f : A -> B -> C) a b : length a = length b -> np_zip f a b = Ok (zipwith f a b).
Proof. intros H. unfold np_zip. rewrite H, Nat.eqb_refl. auto. Qed.
Lemma zipwith_forallb {A B} (f : A -> B -> bool) a b : length a = length b ->
  (forallb (fun c => c) (zipwith f a b) = true <->
   forall i x y, nth_error a i = Some x -> nth_error b i = Some y -> f x y = true).
Proof.
  revert b; induction a as [|x a IH]; destruct b as [|y b]; simpl; intros H; try discriminate.
  - split; auto. intros _ [|i] ? ? E; simpl in E; discriminate.
  - rewrite andb_true_iff, IH by lia. split.
    + intros [H1 H2] [|i] x' y'; simpl; intros; [congruence|eauto].
    + intros H1. split; [apply (H1 0%nat); auto|]. intros i. apply (H1 (S i)).
Qed.
Lemma neqb_convert u1 u2 x y : 0 < u_scale u1 -> 0 < u_scale u2 ->
  (neqb x (convert_val u2 u1 y) = true <-> x <> NaN /\ physical u1 x = physical u2 y).
Proof.
  intros H1 H2. unfold convert_val, physical. rewrite neqb_eq.
  assert (Hq : 0 < u_scale u2 / u_scale u1) by (apply Rdiv_lt_0_compat; auto).
  assert (Hn : is_nan x = false <-> x <> NaN) by (destruct x; simpl; split; congruence).
  rewrite Hn. assert (I : forall s b, 0 < s -> inf_signed s b = if b then PInf else NInf).
  { intros. unfold inf_signed. destruct (Reqb_spec s 0); [lra|]. destruct (Rltb_spec 0 s); [auto|lra]. }
  destruct x, y; cbn [nmul]; rewrite ?I by auto; split; intros [A B]; split; try congruence; try (destruct B; congruence).
  - injection A as ->. f_equal. field. lra.
  - injection B as B. f_equal. apply (Rmult_eq_reg_l (u_scale u1)); [|lra]. rewrite B. field. lra.
Qed.
Lemma col_eq_edges l1 u1 l2 u2 : 0 < u_scale u1 -> 0 < u_scale u2 -> length l1 = length l2 ->
  exists bs, col_eq (mkArr l1 (Some u1)) (mkArr l2 (Some u2)) = Ok bs /\
   (forallb (fun b => b) bs = true <-> same_edges l1 u1 l2 u2).
Proof.
  intros H1 H2 Hl. unfold col_eq. cbn [a_unit a_val]. destruct (Nat.eqb_spec (u_dim u1) (u_dim u2)) as [Hd|Hd].
  - rewrite np_zip_eq by (rewrite map_length; auto). eexists. split; [reflexivity|].
    rewrite zipwith_forallb by (rewrite map_length; auto). unfold same_edges. split.
    + intros H. split; auto. intros i x y Hx Hy. apply neqb_convert; auto.
      apply (H i); auto. apply map_nth_error; auto.
    + intros [_ H] i x y Hx Hy. rewrite nth_error_map in Hy. destruct (nth_error l2 i) as [y'|] eqn:E; [|discriminate].
      injection Hy as <-. apply neqb_convert; auto. eapply H; eauto.
  - eexists. split; [reflexivity|]. simpl. split; [discriminate|]. intros [H _]. contradiction.
Qed.
Lemma c40_histograms h1 h2 key lo1 ce1 hi1 u1 lo2 ce2 hi2 u2 :
  0 < u_scale u1 -> 0 < u_scale u2 ->
  length lo1 = length lo2 -> length ce1 = length ce2 -> length hi1 = length hi2 ->
  getitem h1 (key ++ "_low")%string = Some (mkArr lo1 (Some u1)) ->
  getitem h1 (key ++ "_center")%string = Some (mkArr ce1 (Some u1)) ->
  getitem h1 (key ++ "_high")%string = Some (mkArr hi1 (Some u1)) ->
  getitem h2 (key ++ "_low")%string = Some (mkArr lo2 (Some u2)) ->
  getitem h2 (key ++ "_center")%string = Some (mkArr ce2 (Some u2)) ->
  getitem h2 (key ++ "_high")%string = Some (mkArr hi2 (Some u2)) ->
  (check_histograms h1 h2 key = Ok tt /\ same_edges lo1 u1 lo2 u2 /\ same_edges ce1 u1 ce2 u2 /\
     same_edges hi1 u1 hi2 u2) \/
  (check_histograms h1 h2 key = Err ValueError /\
   ~ (same_edges lo1 u1 lo2 u2 /\ same_edges ce1 u1 ce2 u2 /\ same_edges hi1 u1 hi2 u2)).
Proof.
  intros P1 P2 L1 L2 L3 A1 A2 A3 B1 B2 B3.
  destruct (col_eq_edges lo1 u1 lo2 u2 P1 P2 L1) as (b1 & E1 & I1).
  destruct (col_eq_edges ce1 u1 ce2 u2 P1 P2 L2) as (b2 & E2 & I2).
  destruct (col_eq_edges hi1 u1 hi2 u2 P1 P2 L3) as (b3 & E3 & I3).
  unfold check_histograms. cbn [check_keys]. unfold get_col.
  change (key ++ "_" ++ "low")%string with (key ++ "_low")%string.
  change (key ++ "_" ++ "center")%string with (key ++ "_center")%string.
  change (key ++ "_" ++ "high")%string with (key ++ "_high")%string.
  rewrite A1, A2, A3, B1, B2, B3. cbn [rbind]. rewrite E1. cbn [rbind].
  destruct (forallb (fun b => b) b1); [|right; split; auto; intros (H & _); apply I1 in H; discriminate].
  rewrite E2. cbn [rbind].
  destruct (forallb (fun b => b) b2); [|right; split; auto; intros (_ & H & _); apply I2 in H; discriminate].
  rewrite E3. cbn [rbind].
  destruct (forallb (fun b => b) b3); [|right; split; auto; intros (_ & _ & H); apply I3 in H; discriminate].
  left. split; auto. split; [apply I1|split; [apply I2|apply I3]]; auto.
Qed.
Lemma c40_histograms_key h1 h2 key k : In k ["low"; "center"; "high"]%string ->
  (getitem h1 (key ++ "_" ++ k)%string = None \/ getitem h2 (key ++ "_" ++ k)%string = None) ->
  check_histograms h1 h2 key = Err KeyError \/ check_histograms h1 h2 key = Err ValueError.
Proof.
  unfold check_histograms. generalize ["low"; "center"; "high"]%string.
  induction l as [|k' l IH]; [intros []|]. cbn [check_keys]. intros [->|Hk] Hn.
  - unfold get_col. destruct Hn as [-> |Hn]; [auto|].
    destruct (getitem h1 (key ++ "_" ++ k)%string); cbn [rbind]; auto. rewrite Hn. auto.
  - unfold get_col. destruct (getitem h1 (key ++ "_" ++ k')%string); cbn [rbind]; auto.
    destruct (getitem h2 (key ++ "_" ++ k')%string); cbn [rbind]; auto.
    destruct (col_eq a a0) as [bs|e] eqn:E; cbn [rbind].
    + destruct (forallb (fun b => b) bs); auto.
    + assert (e = ValueError); [|subst; auto]. clear - E. 
      assert (Z : forall (f : num -> num -> bool) x y, np_zip f x y = Err e -> e = ValueError).
      { unfold np_zip. intros f x y. destruct (Nat.eqb _ _); [discriminate|].
        destruct x as [|? [|]], y as [|? [|]]; congruence. }
      unfold col_eq in E. destruct (a_unit a), (a_unit a0);
        repeat match type of E with (if ?c then _ else _) = _ => destruct c end; try discriminate; eauto.
Qed.

Lemma mem_str_spec k l : mem_str k l = true <-> In k l.
Proof.
  unfold mem_str. rewrite existsb_exists. split.
  - intros (x & H & E). apply String.eqb_eq in E. congruence.
  - intros H. exists k. rewrite String.eqb_refl. auto.
Qed.
Lemma c40_missing t req units : 
  (exists c, In c req /\ ~ In c (colnames t)) ->
  exists missing, check_table t (Some req) units = TableMissing missing /\ NoDup missing /\
    forall c, In c missing <-> In c req /\ ~ In c (colnames t).
Proof.
  intros (c & Hc & Hn). unfold check_table.
  set (m := filter _ _).
  assert (S : forall c, In c m <-> In c req /\ ~ In c (colnames t)).
  { intros x. unfold m. rewrite filter_In, nodup_In, negb_true_iff.
    rewrite <- (mem_str_spec x (colnames t)). destruct (mem_str x (colnames t)); split; intros [A B]; split; auto; congruence. }
  exists m. destruct m as [|x m'] eqn:E.
  - exfalso. apply (S c). auto.
  - split; auto. split; [|auto]. rewrite <- E. apply NoDup_filter, NoDup_nodup.
Qed.
Lemma c40_units t units : (forall c u, In (c, u) units -> exists a u', getitem t c = Some a /\ a_unit a = Some u') ->
  (check_units t units = TableOk /\ forall c u, In (c, u) units -> has_unit t c u) \/
  (exists c u e, check_units t units = TableWrongUnit c u e /\ In (c, e) units /\ ~ has_unit t c e /\
     exists a, getitem t c = Some a /\ a_unit a = Some u).
Proof.
  induction units as [|[c e] units IH]; intros H.
  - left. split; auto. intros ? ? [].
  - simpl. destruct (H c e ltac:(simpl; auto)) as (a & u & Ha & Hu). rewrite Ha, Hu.
    destruct (Nat.eqb_spec (u_dim e) (u_dim u)) as [E|E].
    + destruct IH as [[I1 I2]|(c' & u' & e' & I1 & I2 & I3 & I4)].
      { intros; apply (H c0 u0). simpl; auto. }
      * left. split; auto. intros c' u' [X|X]; [|auto]. injection X as <- <-. exists a, u. auto.
      * right. exists c', u', e'. simpl; auto.
    + right. exists c, u, e. simpl. repeat split; auto.
      * intros (a' & u' & A & B & C). rewrite Ha in A. injection A as <-. rewrite Hu in B. injection B as <-. congruence.
      * exists a. auto.
Qed.
Lemma c40_ok t req units :
  check_table t (Some req) (Some units) = TableOk <->
  (forall c, In c req -> In c (colnames t)) /\ (forall c u, In (c, u) units -> has_unit t c u).
Proof.
  assert (U : check_units t units = TableOk <-> forall c u, In (c, u) units -> has_unit t c u).
  { induction units as [|[c e] units IH]; simpl; [split; auto; intros _ ? ? []|]. split.
    - destruct (getitem t c) as [a|] eqn:Ha; [|discriminate]. destruct (a_unit a) as [u|] eqn:Hu; [|discriminate].
      destruct (Nat.eqb_spec (u_dim e) (u_dim u)) as [E|E]; [|discriminate].
      intros H c' u' [X|X]; [injection X as <- <-; exists a, u; auto|]. apply IH; auto.
    - intros H. destruct (H c e ltac:(auto)) as (a & u & -> & -> & ->). rewrite Nat.eqb_refl. apply IH. auto. }
  unfold check_table. set (m := filter _ _).
  assert (S : forall c, In c m <-> In c req /\ ~ In c (colnames t)).
  { intros x. unfold m. rewrite filter_In, nodup_In, negb_true_iff.
    rewrite <- (mem_str_spec x (colnames t)). destruct (mem_str x (colnames t)); split; intros [A B]; split; auto; congruence. }
  destruct m as [|x m'].
  - rewrite U. split; [|tauto]. intros H. split; auto. intros c Hc.
    destruct (in_dec string_dec c (colnames t)); auto. exfalso. apply (S c). auto.
  - split; [discriminate|]. intros [H _]. exfalso. destruct (proj1 (S x)) as [A B]; simpl; auto.
Qed.
Lemma c40_columns_only t req : (forall c, In c req -> In c (colnames t)) -> check_table t (Some req) None = TableOk.
Proof.
  intros H. unfold check_table. set (m := filter _ _). destruct m as [|x m'] eqn:E; auto.
  exfalso. assert (I : In x m) by (rewrite E; simpl; auto). unfold m in I.
  apply filter_In in I as [I J]. rewrite nodup_In in I. apply H, mem_str_spec in I. rewrite I in J. discriminate.
Qed.
Lemma c40_unitless : exists t units, (forall c u, In (c, u) units -> In c (colnames t)) /\
  (forall c u, In (c, u) units -> ~ has_unit t c u) /\ check_table t None (Some units) = TableTypeError.
Proof.
  exists [("energy", mkArr [Fin 1] None)]%string, [("energy", mkUnit 1 1)]%string.
  split; [intros c u [H|[]]; injection H as <- <-; simpl; auto|]. split; [|reflexivity].
  intros c u [H|[]]. injection H as <- <-. intros (a & u & A & B & _). simpl in A. injection A as <-. discriminate.
Qed.
