(** * SkyProofs: proofs for C91 *)
From Coq Require Import String Reals List Bool ZArith Lia Lra.
From Verif Require Import Num Utils SpecUtils UtilsProofs.
Import ListNotations.
Open Scope R_scope.

Definition vx lon lat lon0 lat0 : R := sin lat0 * sin lat + cos lat0 * cos lat * cos (lon - lon0).
Definition vy lon lat lon0 : R := cos lat * sin (lon - lon0).
Definition vz lon lat lon0 lat0 : R := cos lat0 * sin lat - sin lat0 * cos lat * cos (lon - lon0).
Lemma theta_phi_view lon lat plon plat : gadf_fov_coords_theta_phi lon lat plon plat =
  (atan2 (sqrt (vy lon lat plon * vy lon lat plon + vz lon lat plon plat * vz lon lat plon plat)) (vx lon lat plon plat), wrap_2pi (- wrap_2pi (atan2 (vy lon lat plon) (vz lon lat plon plat)))).
Proof.
  unfold gadf_fov_coords_theta_phi, angular_separation, position_angle. cbv zeta. f_equal. f_equal. f_equal. f_equal. f_equal; unfold vy, vz; ring.
Qed.
Lemma lon_lat_view lon lat plon plat : gadf_fov_coords_lon_lat lon lat plon plat =
  (- atan2 (vy lon lat plon) (vx lon lat plon plat), atan2 (vz lon lat plon plat) (sqrt (vx lon lat plon plat * vx lon lat plon plat + vy lon lat plon * vy lon lat plon))).
Proof.
  unfold gadf_fov_coords_lon_lat, sky_offset. cbv zeta. cbn [fst snd].
  assert (Ex : cos plat * (cos plon * (cos lat * cos lon) + sin plon * (cos lat * sin lon)) + sin plat * sin lat = vx lon lat plon plat) by (unfold vx; rewrite cos_minus; ring).
  assert (Ey : - sin plon * (cos lat * cos lon) + cos plon * (cos lat * sin lon) = vy lon lat plon) by (unfold vy; rewrite sin_minus; ring).
  assert (Ez : - sin plat * (cos plon * (cos lat * cos lon) + sin plon * (cos lat * sin lon)) + cos plat * sin lat = vz lon lat plon plat) by (unfold vz; rewrite cos_minus; ring).
  rewrite Ex, Ey, Ez. reflexivity.
Qed.
(** the rotation and its inverse *)
Definition back (plon plat a b c : R) : R * R * R :=
  (cos plon * (cos plat * a - sin plat * c) - sin plon * b, sin plon * (cos plat * a - sin plat * c) + cos plon * b, sin plat * a + cos plat * c).
Lemma back_view lon lat plon plat : back plon plat (vx lon lat plon plat) (vy lon lat plon) (vz lon lat plon plat) = direction lon lat.
Proof.
  unfold back, direction, vx, vy, vz. rewrite cos_minus, sin_minus. pose proof (sin2_cos2' plon) as A. pose proof (sin2_cos2' plat) as B.
  set (s0 := sin plat) in *. set (c0 := cos plat) in *. set (sp := sin plon) in *. set (cp := cos plon) in *. set (sl := sin lon). set (cl := cos lon). set (s := sin lat). set (c := cos lat).
  f_equal; [f_equal|].
  - replace (cp * (c0 * (s0 * s + c0 * c * (cl * cp + sl * sp)) - s0 * (c0 * s - s0 * c * (cl * cp + sl * sp))) - sp * (c * (sl * cp - cl * sp)))
      with (cp * c * (cl * cp + sl * sp) * (s0 * s0 + c0 * c0) - sp * c * (sl * cp - cl * sp)) by ring. rewrite B.
    replace (cp * c * (cl * cp + sl * sp) * (1 - c0 * c0 + c0 * c0) - sp * c * (sl * cp - cl * sp)) with (c * cl * (cp * cp + sp * sp)) by ring. rewrite A. ring.
  - replace (sp * (c0 * (s0 * s + c0 * c * (cl * cp + sl * sp)) - s0 * (c0 * s - s0 * c * (cl * cp + sl * sp))) + cp * (c * (sl * cp - cl * sp)))
      with (sp * c * (cl * cp + sl * sp) * (s0 * s0 + c0 * c0) + cp * c * (sl * cp - cl * sp)) by ring. rewrite B.
    replace (sp * c * (cl * cp + sl * sp) * (1 - c0 * c0 + c0 * c0) + cp * c * (sl * cp - cl * sp)) with (c * sl * (cp * cp + sp * sp)) by ring. rewrite A. ring.
  - replace (s0 * (s0 * s + c0 * c * (cl * cp + sl * sp)) + c0 * (c0 * s - s0 * c * (cl * cp + sl * sp))) with (s * (s0 * s0 + c0 * c0)) by ring. rewrite B. ring.
Qed.
Lemma view_direction lon lat plon plat d1 d2 d3 : direction lon lat = (d1, d2, d3) ->
  vx lon lat plon plat = cos plat * (cos plon * d1 + sin plon * d2) + sin plat * d3 /\ vy lon lat plon = cos plon * d2 - sin plon * d1 /\
  vz lon lat plon plat = cos plat * d3 - sin plat * (cos plon * d1 + sin plon * d2).
Proof. unfold direction. intros E. injection E as <- <- <-. unfold vx, vy, vz. rewrite cos_minus, sin_minus. repeat split; ring. Qed.
Lemma same_view lon lat lon' lat' plon plat : direction lon lat = direction lon' lat' ->
  vx lon lat plon plat = vx lon' lat' plon plat /\ vy lon lat plon = vy lon' lat' plon /\ vz lon lat plon plat = vz lon' lat' plon plat.
Proof.
  intros E. destruct (direction lon' lat') as [[d1 d2] d3] eqn:D. destruct (view_direction _ _ plon plat _ _ _ E) as (-> & -> & ->). destruct (view_direction _ _ plon plat _ _ _ D) as (-> & -> & ->). auto.
Qed.
(** from a unit vector to angles *)
Lemma direction_of x y z : x * x + y * y + z * z = 1 -> exists lon lat, - PI < lon <= PI /\ - (PI / 2) <= lat <= PI / 2 /\ direction lon lat = (x, y, z).
Proof.
  intros U. exists (atan2 y x), (atan2 z (sqrt (x * x + y * y))). split; [apply atan2_range|]. split; [apply atan2_right, sqrt_pos|].
  assert (U' : sqrt (x * x + y * y) * sqrt (x * x + y * y) + z * z = 1) by (rewrite sqrt_sqrt by nra; lra).
  destruct (atan2_unit _ _ U') as [Hc Hs]. destruct (atan2_polar y x) as [H1 H2]. unfold direction. rewrite Hc, Hs, H1, H2. auto.
Qed.
Lemma view_of plon plat a b c : a * a + b * b + c * c = 1 -> exists lon lat, - PI < lon <= PI /\ - (PI / 2) <= lat <= PI / 2 /\
  vx lon lat plon plat = a /\ vy lon lat plon = b /\ vz lon lat plon plat = c.
Proof.
  intros U. pose proof (sin2_cos2' plon) as A. pose proof (sin2_cos2' plat) as B.
  set (s0 := sin plat) in *. set (c0 := cos plat) in *. set (sp := sin plon) in *. set (cp := cos plon) in *.
  destruct (direction_of (cp * (c0 * a - s0 * c) - sp * b) (sp * (c0 * a - s0 * c) + cp * b) (s0 * a + c0 * c)) as (lon & lat & R1 & R2 & D).
  { replace ((cp * (c0 * a - s0 * c) - sp * b) * (cp * (c0 * a - s0 * c) - sp * b) + (sp * (c0 * a - s0 * c) + cp * b) * (sp * (c0 * a - s0 * c) + cp * b) + (s0 * a + c0 * c) * (s0 * a + c0 * c))
      with ((sp * sp + cp * cp) * (c0 * a - s0 * c) * (c0 * a - s0 * c) + (sp * sp + cp * cp) * (b * b) + (s0 * a + c0 * c) * (s0 * a + c0 * c)) by ring. rewrite A.
    replace ((1 - cp * cp + cp * cp) * (c0 * a - s0 * c) * (c0 * a - s0 * c) + (1 - cp * cp + cp * cp) * (b * b) + (s0 * a + c0 * c) * (s0 * a + c0 * c))
      with ((s0 * s0 + c0 * c0) * (a * a + c * c) + b * b) by ring. rewrite B. lra. }
  exists lon, lat. split; auto. split; auto. destruct (view_direction lon lat plon plat _ _ _ D) as (-> & -> & ->). fold s0 c0 sp cp. repeat split.
  - replace (c0 * (cp * (cp * (c0 * a - s0 * c) - sp * b) + sp * (sp * (c0 * a - s0 * c) + cp * b)) + s0 * (s0 * a + c0 * c))
      with (c0 * (sp * sp + cp * cp) * (c0 * a - s0 * c) + s0 * (s0 * a + c0 * c)) by ring. rewrite A.
    replace (c0 * (1 - cp * cp + cp * cp) * (c0 * a - s0 * c) + s0 * (s0 * a + c0 * c)) with (a * (s0 * s0 + c0 * c0)) by ring. rewrite B. ring.
  - replace (cp * (sp * (c0 * a - s0 * c) + cp * b) - sp * (cp * (c0 * a - s0 * c) - sp * b)) with (b * (sp * sp + cp * cp)) by ring. rewrite A. ring.
  - replace (c0 * (s0 * a + c0 * c) - s0 * (cp * (cp * (c0 * a - s0 * c) - sp * b) + sp * (sp * (c0 * a - s0 * c) + cp * b)))
      with (c0 * (s0 * a + c0 * c) - s0 * (sp * sp + cp * cp) * (c0 * a - s0 * c)) by ring. rewrite A.
    replace (c0 * (s0 * a + c0 * c) - s0 * (1 - cp * cp + cp * cp) * (c0 * a - s0 * c)) with (c * (s0 * s0 + c0 * c0)) by ring. rewrite B. ring.
Qed.
(** angles with the same sine and cosine *)
Lemma cos_one x : - (2 * PI) < x < 2 * PI -> cos x = 1 -> x = 0.
Proof.
  intros R E. pose proof PI_RGT_0. replace x with (2 * (x / 2)) in E by field. rewrite cos_2a_sin in E.
  assert (S : sin (x / 2) = 0) by nra. destruct (Rtotal_order x 0) as [L|[L|L]]; auto; exfalso.
  - pose proof (sin_gt_0 (- (x / 2)) ltac:(lra) ltac:(lra)) as P. rewrite sin_neg in P. lra.
  - pose proof (sin_gt_0 (x / 2) ltac:(lra) ltac:(lra)). lra.
Qed.
Lemma same_angle a b : - (2 * PI) < a - b < 2 * PI -> sin a = sin b -> cos a = cos b -> a = b.
Proof.
  intros R S C. assert (a - b = 0); [|lra]. apply cos_one; auto. rewrite cos_minus, S, C. pose proof (sin2_cos2' b). lra.
Qed.
Lemma sin_inj a b : - (PI / 2) <= a <= PI / 2 -> - (PI / 2) <= b <= PI / 2 -> sin a = sin b -> a = b.
Proof.
  intros Ra Rb E. destruct (Rtotal_order a b) as [L|[L|L]]; auto; exfalso.
  - pose proof (sin_increasing_1 a b ltac:(lra) ltac:(lra) ltac:(lra) ltac:(lra) L). lra.
  - pose proof (sin_increasing_1 b a ltac:(lra) ltac:(lra) ltac:(lra) ltac:(lra) L). lra.
Qed.
(** ** one-to-one *)
Lemma theta_phi_vec lon lat plon plat theta phi : gadf_fov_coords_theta_phi lon lat plon plat = (theta, phi) ->
  0 <= theta <= PI /\ 0 <= phi < 2 * PI /\ cos theta = vx lon lat plon plat /\ sin theta * sin phi = - vy lon lat plon /\ sin theta * cos phi = vz lon lat plon plat.
Proof.
  intros E. destruct (c41_theta_phi _ _ _ _ _ _ E) as ((R & C) & P & S1 & S2). repeat (split; [auto; fail|]). split; [|auto].
  rewrite C, dot3_dotp. unfold dotp, vx. replace (plon - lon) with (- (lon - plon)) by ring. rewrite cos_neg. ring.
Qed.
Lemma lon_lat_vec lon lat plon plat l b : gadf_fov_coords_lon_lat lon lat plon plat = (l, b) ->
  - PI <= l < PI /\ - (PI / 2) <= b <= PI / 2 /\ cos b * cos l = vx lon lat plon plat /\ cos b * sin l = - vy lon lat plon /\ sin b = vz lon lat plon plat.
Proof.
  intros E. destruct (c41_lon_lat _ _ _ _ _ _ E) as (R & R' & C & S1 & S2). repeat (split; [auto; fail|]). split; [|auto].
  rewrite C, dot3_dotp. unfold dotp, vx. replace (plon - lon) with (- (lon - plon)) by ring. rewrite cos_neg. ring.
Qed.
Lemma one_to_one lon lat lon' lat' plon plat :
  (gadf_fov_coords_theta_phi lon lat plon plat = gadf_fov_coords_theta_phi lon' lat' plon plat <-> direction lon lat = direction lon' lat') /\
  (gadf_fov_coords_lon_lat lon lat plon plat = gadf_fov_coords_lon_lat lon' lat' plon plat <-> direction lon lat = direction lon' lat').
Proof.
  split; split; intros E.
  - destruct (gadf_fov_coords_theta_phi lon' lat' plon plat) as [t p] eqn:E'. destruct (theta_phi_vec _ _ _ _ _ _ E) as (_ & _ & A1 & A2 & A3). destruct (theta_phi_vec _ _ _ _ _ _ E') as (_ & _ & B1 & B2 & B3).
    rewrite <- (back_view lon lat plon plat), <- (back_view lon' lat' plon plat). rewrite <- A1, <- A3, <- B1, <- B3. replace (vy lon lat plon) with (vy lon' lat' plon) by lra. auto.
  - destruct (same_view _ _ _ _ plon plat E) as (E1 & E2 & E3). rewrite !theta_phi_view, E1, E2, E3. auto.
  - destruct (gadf_fov_coords_lon_lat lon' lat' plon plat) as [t p] eqn:E'. destruct (lon_lat_vec _ _ _ _ _ _ E) as (_ & _ & A1 & A2 & A3). destruct (lon_lat_vec _ _ _ _ _ _ E') as (_ & _ & B1 & B2 & B3).
    rewrite <- (back_view lon lat plon plat), <- (back_view lon' lat' plon plat). rewrite <- A1, <- A3, <- B1, <- B3. replace (vy lon lat plon) with (vy lon' lat' plon) by lra. auto.
  - destruct (same_view _ _ _ _ plon plat E) as (E1 & E2 & E3). rewrite !lon_lat_view, E1, E2, E3. auto.
Qed.
Lemma onto_theta_phi plon plat theta phi : 0 < theta < PI -> 0 <= phi < 2 * PI -> exists lon lat, - PI < lon <= PI /\ - (PI / 2) <= lat <= PI / 2 /\
  gadf_fov_coords_theta_phi lon lat plon plat = (theta, phi).
Proof.
  intros T P. pose proof (sin2_cos2' theta) as A. pose proof (sin2_cos2' phi) as B.
  destruct (view_of plon plat (cos theta) (- (sin theta * sin phi)) (sin theta * cos phi)) as (lon & lat & R1 & R2 & V1 & V2 & V3).
  { replace (cos theta * cos theta + - (sin theta * sin phi) * - (sin theta * sin phi) + sin theta * cos phi * (sin theta * cos phi))
      with (cos theta * cos theta + sin theta * sin theta * (sin phi * sin phi + cos phi * cos phi)) by ring. rewrite B, A. ring. }
  exists lon, lat. split; auto. split; auto. destruct (gadf_fov_coords_theta_phi lon lat plon plat) as [t p] eqn:E. destruct (theta_phi_vec _ _ _ _ _ _ E) as (Rt & Rp & C1 & C2 & C3).
  assert (t = theta) by (apply cos_inj; lra). subst t. assert (0 < sin theta) by (apply sin_gt_0; lra). f_equal.
  apply same_angle; [lra| |]; apply Rmult_eq_reg_l with (sin theta); lra.
Qed.
Lemma onto_lon_lat plon plat l b : - PI <= l < PI -> - (PI / 2) < b < PI / 2 -> exists lon lat, - PI < lon <= PI /\ - (PI / 2) <= lat <= PI / 2 /\
  gadf_fov_coords_lon_lat lon lat plon plat = (l, b).
Proof.
  intros L Bb. pose proof (sin2_cos2' l) as A. pose proof (sin2_cos2' b) as B.
  destruct (view_of plon plat (cos b * cos l) (- (cos b * sin l)) (sin b)) as (lon & lat & R1 & R2 & V1 & V2 & V3).
  { replace (cos b * cos l * (cos b * cos l) + - (cos b * sin l) * - (cos b * sin l) + sin b * sin b) with (cos b * cos b * (sin l * sin l + cos l * cos l) + sin b * sin b) by ring. rewrite A, B. ring. }
  exists lon, lat. split; auto. split; auto. destruct (gadf_fov_coords_lon_lat lon lat plon plat) as [t p] eqn:E. destruct (lon_lat_vec _ _ _ _ _ _ E) as (Rt & Rp & C1 & C2 & C3).
  assert (p = b) by (apply sin_inj; lra). subst p. assert (0 < cos b) by (apply cos_gt_0; lra). f_equal.
  apply same_angle; [lra| |]; apply Rmult_eq_reg_l with (cos b); lra.
Qed.
(** ** rotations about the zenith *)
Lemma shifted lon lat plon plat c : gadf_fov_coords_theta_phi (lon + c) lat (plon + c) plat = gadf_fov_coords_theta_phi lon lat plon plat /\
  gadf_fov_coords_lon_lat (lon + c) lat (plon + c) plat = gadf_fov_coords_lon_lat lon lat plon plat.
Proof.
  rewrite !theta_phi_view, !lon_lat_view. unfold vx, vy, vz. replace (lon + c - (plon + c)) with (lon - plon) by ring. auto.
Qed.
Lemma turned lon lat plon plat (j k : Z) : gadf_fov_coords_theta_phi (lon + 2 * PI * IZR j) lat (plon + 2 * PI * IZR k) plat = gadf_fov_coords_theta_phi lon lat plon plat /\
  gadf_fov_coords_lon_lat (lon + 2 * PI * IZR j) lat (plon + 2 * PI * IZR k) plat = gadf_fov_coords_lon_lat lon lat plon plat.
Proof.
  assert (E : lon + 2 * PI * IZR j - (plon + 2 * PI * IZR k) = lon - plon - 2 * PI * IZR (k - j)) by (rewrite minus_IZR; ring).
  destruct (sin_cos_period (lon - plon) (k - j)) as [S C].
  rewrite !theta_phi_view, !lon_lat_view. unfold vx, vy, vz. rewrite E, S, C. auto.
Qed.
(** ** distances *)
Lemma cauchy a1 a2 a3 b1 b2 b3 A B : 0 <= A -> 0 <= B -> a1 * a1 + a2 * a2 + a3 * a3 = A * A -> b1 * b1 + b2 * b2 + b3 * b3 = B * B -> - (A * B) <= a1 * b1 + a2 * b2 + a3 * b3.
Proof.
  intros HA HB EA EB. set (d := a1 * b1 + a2 * b2 + a3 * b3).
  assert (D : d * d <= (A * B) * (A * B)).
  { replace (A * B * (A * B)) with (A * A * (B * B)) by ring. rewrite <- EA, <- EB. unfold d.
    pose proof (Rle_0_sqr (a1 * b2 - a2 * b1)). pose proof (Rle_0_sqr (a1 * b3 - a3 * b1)). pose proof (Rle_0_sqr (a2 * b3 - a3 * b2)). unfold Rsqr in *. lra. }
  assert (0 <= A * B) by nra. destruct (Rle_dec (- (A * B)) d); auto. nra.
Qed.
Lemma triangle lon1 lat1 lon2 lat2 lon3 lat3 a b c : angle_between (direction lon1 lat1) (direction lon2 lat2) a -> angle_between (direction lon2 lat2) (direction lon3 lat3) b ->
  angle_between (direction lon1 lat1) (direction lon3 lat3) c -> c <= a + b.
Proof.
  intros [Ra Ca] [Rb Cb] [Rc Cc]. destruct (Rle_dec (a + b) PI) as [L|]; [|lra].
  assert (U : forall lon lat, dot3 (direction lon lat) (direction lon lat) = 1).
  { intros lon lat. unfold dot3, direction. pose proof (sin2_cos2' lon). pose proof (sin2_cos2' lat).
    replace (cos lat * cos lon * (cos lat * cos lon) + cos lat * sin lon * (cos lat * sin lon) + sin lat * sin lat) with (cos lat * cos lat * (sin lon * sin lon + cos lon * cos lon) + sin lat * sin lat) by ring. rewrite H, H0. ring. }
  pose proof (U lon1 lat1) as U1. pose proof (U lon2 lat2) as U2. pose proof (U lon3 lat3) as U3. clear U.
  destruct (direction lon1 lat1) as [[x1 y1] z1], (direction lon2 lat2) as [[x2 y2] z2], (direction lon3 lat3) as [[x3 y3] z3]. unfold dot3 in *.
  assert (D : cos (a + b) <= cos c).
  { rewrite cos_plus. assert (0 <= sin a) by (apply sin_ge_0; lra). assert (0 <= sin b) by (apply sin_ge_0; lra).
    pose proof (cauchy (x1 - cos a * x2) (y1 - cos a * y2) (z1 - cos a * z2) (x3 - cos b * x2) (y3 - cos b * y2) (z3 - cos b * z2) (sin a) (sin b) ltac:(lra) ltac:(lra)) as K.
    assert (K1 : (x1 - cos a * x2) * (x1 - cos a * x2) + (y1 - cos a * y2) * (y1 - cos a * y2) + (z1 - cos a * z2) * (z1 - cos a * z2) = sin a * sin a).
    { rewrite sin2_cos2'. replace ((x1 - cos a * x2) * (x1 - cos a * x2) + (y1 - cos a * y2) * (y1 - cos a * y2) + (z1 - cos a * z2) * (z1 - cos a * z2))
        with ((x1 * x1 + y1 * y1 + z1 * z1) - 2 * cos a * (x1 * x2 + y1 * y2 + z1 * z2) + cos a * cos a * (x2 * x2 + y2 * y2 + z2 * z2)) by ring. rewrite U1, U2, <- Ca. ring. }
    assert (K2 : (x3 - cos b * x2) * (x3 - cos b * x2) + (y3 - cos b * y2) * (y3 - cos b * y2) + (z3 - cos b * z2) * (z3 - cos b * z2) = sin b * sin b).
    { rewrite sin2_cos2'. replace ((x3 - cos b * x2) * (x3 - cos b * x2) + (y3 - cos b * y2) * (y3 - cos b * y2) + (z3 - cos b * z2) * (z3 - cos b * z2))
        with ((x3 * x3 + y3 * y3 + z3 * z3) - 2 * cos b * (x2 * x3 + y2 * y3 + z2 * z3) + cos b * cos b * (x2 * x2 + y2 * y2 + z2 * z2)) by ring. rewrite U3, U2, <- Cb. ring. }
    specialize (K K1 K2). clear K1 K2.
    replace ((x1 - cos a * x2) * (x3 - cos b * x2) + (y1 - cos a * y2) * (y3 - cos b * y2) + (z1 - cos a * z2) * (z3 - cos b * z2))
      with ((x1 * x3 + y1 * y3 + z1 * z3) - cos b * (x1 * x2 + y1 * y2 + z1 * z2) - cos a * (x2 * x3 + y2 * y3 + z2 * z3) + cos a * cos b * (x2 * x2 + y2 * y2 + z2 * z2)) in K by ring.
    rewrite U2, <- Ca, <- Cb, <- Cc in K. lra. }
  destruct (Rle_dec c (a + b)); auto. pose proof (cos_decreasing_1 (a + b) c ltac:(lra) ltac:(lra) ltac:(lra) ltac:(lra) ltac:(lra)). lra.
Qed.
Lemma zero_angle lon lat lon' lat' t : angle_between (direction lon lat) (direction lon' lat') t -> (t = 0 <-> direction lon lat = direction lon' lat').
Proof.
  intros [R C]. pose proof PI_RGT_0.
  assert (U : forall lon lat, dot3 (direction lon lat) (direction lon lat) = 1).
  { intros a b. unfold dot3, direction. pose proof (sin2_cos2' a). pose proof (sin2_cos2' b).
    replace (cos b * cos a * (cos b * cos a) + cos b * sin a * (cos b * sin a) + sin b * sin b) with (cos b * cos b * (sin a * sin a + cos a * cos a) + sin b * sin b) by ring. rewrite H0, H1. ring. }
  split.
  - intros ->. rewrite cos_0 in C. pose proof (U lon lat) as U1. pose proof (U lon' lat') as U2.
    destruct (direction lon lat) as [[x y] z], (direction lon' lat') as [[x' y'] z']. unfold dot3 in *.
    assert (S : (x - x') * (x - x') + (y - y') * (y - y') + (z - z') * (z - z') = 0) by lra.
    pose proof (Rle_0_sqr (x - x')). pose proof (Rle_0_sqr (y - y')). pose proof (Rle_0_sqr (z - z')).
    assert (x - x' = 0 /\ y - y' = 0 /\ z - z' = 0) as (? & ? & ?) by (repeat split; apply Rsqr_0_uniq; unfold Rsqr in *; lra). f_equal; [f_equal|]; lra.
  - intros E. rewrite E, U in C. apply cos_inj; [lra|lra|]. rewrite C, cos_0. auto.
Qed.
(** ** event tables *)
From Verif Require Import SkyUnits SpecSky.
Lemma sep_theta a b c d : angular_separation a b c d = fst (gadf_fov_coords_theta_phi c d a b).
Proof. reflexivity. Qed.
Lemma theta_sym a b c d : fst (gadf_fov_coords_theta_phi c d a b) = fst (gadf_fov_coords_theta_phi a b c d).
Proof. rewrite <- !sep_theta. apply separation_sym. Qed.
Lemma map_pointwise {A B} (R : A -> A -> Prop) (f g : A -> B) l l' : (forall e e', R e e' -> f e = g e') -> Forall2 R l l' -> map f l = map g l'.
Proof. intros H. induction 1; cbn; f_equal; auto. Qed.
Lemma events_turned events events' az az' alt p : Forall2 same_directions events events' -> same_azimuth az az' ->
  calculate_theta events' az' alt = calculate_theta events az alt /\ calculate_source_fov_offset events' p = calculate_source_fov_offset events p /\
  calculate_source_fov_position_angle events' p = calculate_source_fov_position_angle events p /\ calculate_source_fov_lonlat events' p = calculate_source_fov_lonlat events p.
Proof.
  intros F (n & ->). unfold calculate_theta, calculate_source_fov_offset, calculate_source_fov_position_angle, calculate_source_fov_lonlat.
  assert (T : forall lon lat plon plat j k, fst (gadf_fov_coords_theta_phi (lon + 2 * PI * IZR j) lat (plon + 2 * PI * IZR k) plat) = fst (gadf_fov_coords_theta_phi lon lat plon plat)) by (intros; f_equal; apply turned).
  assert (G : forall e e', same_directions e e' -> exists j k, ev_az p e' = ev_az p e + 2 * PI * IZR j /\ ev_alt p e' = ev_alt p e /\ pointing_az e' = pointing_az e + 2 * PI * IZR k /\ pointing_alt e' = pointing_alt e).
  { intros e e' ((i & A) & (j & B) & (k & C) & D & E & G). destruct p; cbn; [exists i, k|exists j, k]; auto. }
  split; [|split; [|split]].
  - symmetry. eapply map_pointwise; [|exact F]. intros e e' (_ & (j & ->) & _ & _ & -> & _). rewrite !sep_theta. symmetry. apply T.
  - symmetry. eapply map_pointwise; [|exact F]. intros e e' H. destruct (G _ _ H) as (j & k & -> & -> & -> & ->). rewrite !sep_theta. symmetry. apply T.
  - symmetry. eapply map_pointwise; [|exact F]. intros e e' H. destruct (G _ _ H) as (j & k & -> & -> & -> & ->). f_equal. symmetry. apply turned.
  - f_equal; symmetry; (eapply map_pointwise; [|exact F]); intros e e' H; destruct (G _ _ H) as (j & k & -> & -> & -> & ->); f_equal; symmetry; apply turned.
Qed.
Lemma events_rotated c events az alt p :
  calculate_theta (map (rotated c) events) (az + c) alt = calculate_theta events az alt /\ calculate_source_fov_offset (map (rotated c) events) p = calculate_source_fov_offset events p /\
  calculate_source_fov_position_angle (map (rotated c) events) p = calculate_source_fov_position_angle events p /\ calculate_source_fov_lonlat (map (rotated c) events) p = calculate_source_fov_lonlat events p.
Proof.
  unfold calculate_theta, calculate_source_fov_offset, calculate_source_fov_position_angle, calculate_source_fov_lonlat. rewrite !map_map.
  assert (Z : forall e, ev_az p (rotated c e) = ev_az p e + c /\ ev_alt p (rotated c e) = ev_alt p e) by (intros e; destruct p; auto).
  split; [|split; [|split]].
  - apply map_ext. intros e. rewrite !sep_theta. cbn [rotated true_az true_alt reco_az reco_alt pointing_az pointing_alt]. f_equal. apply shifted.
  - apply map_ext. intros e. destruct (Z e) as [-> ->]. rewrite !sep_theta. cbn [rotated true_az true_alt reco_az reco_alt pointing_az pointing_alt]. f_equal. apply shifted.
  - apply map_ext. intros e. destruct (Z e) as [-> ->]. cbn [rotated true_az true_alt reco_az reco_alt pointing_az pointing_alt]. f_equal. apply shifted.
  - f_equal; apply map_ext; intros e; destruct (Z e) as [-> ->]; cbn [rotated true_az true_alt reco_az reco_alt pointing_az pointing_alt]; f_equal; apply shifted.
Qed.
Lemma events_sides events az alt i e d : nth_error events i = Some e -> angle_between (direction az alt) (direction (pointing_az e) (pointing_alt e)) d ->
  exists theta offset, nth_error (calculate_theta events az alt) i = Some theta /\ nth_error (calculate_source_fov_offset events RecoPrefix) i = Some offset /\ sides theta offset d.
Proof.
  intros E D. exists (angular_separation az alt (reco_az e) (reco_alt e)), (angular_separation (reco_az e) (reco_alt e) (pointing_az e) (pointing_alt e)).
  unfold calculate_theta, calculate_source_fov_offset. rewrite !nth_error_map, E. split; [reflexivity|]. split; [reflexivity|].
  pose proof (separation_angle az alt (reco_az e) (reco_alt e)) as T. pose proof (separation_angle (reco_az e) (reco_alt e) (pointing_az e) (pointing_alt e)) as O.
  split; [|split].
  - pose proof (triangle _ _ _ _ _ _ _ _ _ D (angle_between_sym _ _ _ O) T). lra.
  - pose proof (triangle _ _ _ _ _ _ _ _ _ (angle_between_sym _ _ _ T) D O). lra.
  - exact (triangle _ _ _ _ _ _ _ _ _ T O D).
Qed.
Lemma events_two_sources events az alt az' alt' d i : angle_between (direction az alt) (direction az' alt') d -> (i < List.length events)%nat ->
  exists theta theta', nth_error (calculate_theta events az alt) i = Some theta /\ nth_error (calculate_theta events az' alt') i = Some theta' /\ sides theta theta' d.
Proof.
  intros D L. destruct (nth_error events i) as [e|] eqn:E; [|apply nth_error_None in E; lia].
  exists (angular_separation az alt (reco_az e) (reco_alt e)), (angular_separation az' alt' (reco_az e) (reco_alt e)).
  unfold calculate_theta. rewrite !nth_error_map, E. split; [reflexivity|]. split; [reflexivity|].
  pose proof (separation_angle az alt (reco_az e) (reco_alt e)) as T. pose proof (separation_angle az' alt' (reco_az e) (reco_alt e)) as O.
  split; [|split].
  - pose proof (triangle _ _ _ _ _ _ _ _ _ D O T). lra.
  - pose proof (triangle _ _ _ _ _ _ _ _ _ (angle_between_sym _ _ _ D) T O). lra.
  - exact (triangle _ _ _ _ _ _ _ _ _ T (angle_between_sym _ _ _ O) D).
Qed.
Lemma in_radian_same u u' events events' : Forall2 (same_angles u u') events events' -> map (in_radian u) events = map (in_radian u') events'.
Proof.
  apply map_pointwise. intros e e' (A & B & C & D & E & F). unfold in_radian. rewrite A, B, C, D, E, F. reflexivity.
Qed.
Lemma units_same u u' events events' az u_az alt u_alt az' u_az' alt' u_alt' p : Forall2 (same_angles u u') events events' -> az * u_az = az' * u_az' -> alt * u_alt = alt' * u_alt' ->
  calculate_theta_deg u events az u_az alt u_alt = calculate_theta_deg u' events' az' u_az' alt' u_alt' /\
  calculate_source_fov_offset_deg u events p = calculate_source_fov_offset_deg u' events' p /\
  calculate_source_fov_position_angle_deg u events p = calculate_source_fov_position_angle_deg u' events' p /\
  calculate_source_fov_lonlat_deg u events p = calculate_source_fov_lonlat_deg u' events' p.
Proof.
  intros F A B. unfold calculate_theta_deg, calculate_source_fov_offset_deg, calculate_source_fov_position_angle_deg, calculate_source_fov_lonlat_deg.
  rewrite (in_radian_same _ _ _ _ F), A, B. auto.
Qed.
Lemma to_deg_back x : to_deg x * (PI / 180) = x.
Proof. unfold to_deg. pose proof PI_RGT_0. field. lra. Qed.
Lemma to_deg_le a b : a <= b <-> to_deg a <= to_deg b.
Proof.
  pose proof PI_RGT_0. rewrite <- (to_deg_back a), <- (to_deg_back b) at 1. split; intros K; [apply Rmult_le_reg_r with (PI / 180); lra|apply Rmult_le_compat_r; lra].
Qed.
Lemma degrees u events az u_az alt u_alt p i e : nth_error events i = Some e ->
  exists theta offset phi lon lat,
    nth_error (calculate_theta_deg u events az u_az alt u_alt) i = Some theta /\ nth_error (calculate_source_fov_offset_deg u events p) i = Some offset /\
    nth_error (calculate_source_fov_position_angle_deg u events p) i = Some phi /\ nth_error (fst (calculate_source_fov_lonlat_deg u events p)) i = Some lon /\
    nth_error (snd (calculate_source_fov_lonlat_deg u events p)) i = Some lat /\
    0 <= theta <= 180 /\ 0 <= offset <= 180 /\ 0 <= phi < 360 /\ -180 <= lon < 180 /\ -90 <= lat <= 90 /\
    let e := in_radian u e in
    angle_between (direction (az * u_az) (alt * u_alt)) (direction (reco_az e) (reco_alt e)) (theta * (PI / 180)) /\
    angle_between (direction (ev_az p e) (ev_alt p e)) (direction (pointing_az e) (pointing_alt e)) (offset * (PI / 180)) /\
    direction (lon * (PI / 180)) (lat * (PI / 180)) = (cos (offset * (PI / 180)), sin (offset * (PI / 180)) * sin (phi * (PI / 180)), sin (offset * (PI / 180)) * cos (phi * (PI / 180))).
Proof.
  intros E. pose proof PI_RGT_0. assert (E' : nth_error (map (in_radian u) events) i = Some (in_radian u e)) by (rewrite nth_error_map, E; reflexivity).
  destruct (c41_theta_events _ (az * u_az) (alt * u_alt) i _ E') as (t & Et & At).
  destruct (c41_events (map (in_radian u) events) p) as (_ & _ & H'). destruct (H' i _ E') as (o & ph & l & b & E1 & E2 & E3 & E4 & A & P & D).
  assert (Rl : - PI <= l < PI /\ - (PI / 2) <= b <= PI / 2).
  { revert E3 E4. unfold calculate_source_fov_lonlat. cbn [fst snd]. rewrite !nth_error_map, E. cbn [option_map]. intros X Y.
    destruct (gadf_fov_coords_lon_lat (ev_az p (in_radian u e)) (ev_alt p (in_radian u e)) (pointing_az (in_radian u e)) (pointing_alt (in_radian u e))) as [l' b'] eqn:Q.
    destruct (c41_lon_lat _ _ _ _ _ _ Q) as (Z1 & Z2 & _). cbn [fst snd] in *. injection X as <-. injection Y as <-. auto. }
  exists (to_deg t), (to_deg o), (to_deg ph), (to_deg l), (to_deg b).
  unfold calculate_theta_deg, calculate_source_fov_offset_deg, calculate_source_fov_position_angle_deg, calculate_source_fov_lonlat_deg. cbn [fst snd]. rewrite !(nth_error_map to_deg).
  rewrite Et, E1, E2, E3, E4. do 5 (split; [reflexivity|]). rewrite !to_deg_back. cbv zeta.
  assert (K : forall x, to_deg x = x * (180 / PI)) by (intros; unfold to_deg; field; lra). assert (K0 : PI * (180 / PI) = 180) by (field; lra). assert (Kp : 0 < 180 / PI) by (apply Rdiv_lt_0_compat; lra).
  destruct At as [Rt Ct]. destruct A as [Ro Co]. destruct Rl as [Rl Rb]. rewrite !K.
  split; [nra|]. split; [nra|]. split; [nra|]. split; [nra|]. split; [nra|]. repeat (split; [split; assumption|]). exact D.
Qed.
