(** * SimulationsProofs3: C32, showers on three-dimensional grids *)
From Coq Require Import Reals List Bool ZArith Lia Lra.
From Verif Require Import Num Numpy Lists Binning Utils SpecUtils UtilsProofs SpecSimulations Simulations SimulationsProofs SimulationsProofs2.
Import ListNotations.
Open Scope R_scope.

(** ** polar *)
Lemma c32_polar s ebins fbins pbins : (n_showers s <> 0)%Z ->
  0 < energy_min s -> energy_min s < energy_max s -> spectral_index s < -1 ->
  0 <= viewcone_min s -> viewcone_min s < viewcone_max s -> viewcone_max s <= PI ->
  exists out, calculate_n_showers_3d_polar s ebins fbins pbins = Ok out /\
    shape3 out (length ebins - 1) (length fbins - 1) (length pbins - 1) /\
    forall k j m e e' f f', nth_error ebins k = Some e -> nth_error ebins (S k) = Some e' ->
      nth_error fbins j = Some f -> nth_error fbins (S j) = Some f' -> (m < length pbins - 1)%nat ->
      energy_bin e e' -> ~ overhangs (energy_min s) (energy_max s) e e' -> f <= f' ->
      exists v w, entry3 out k j m (Fin (IZR (n_showers s) * v * w / INR (length pbins - 1))) /\
        share positive (power_law (spectral_index s)) (energy_min s) (energy_max s) e e' v /\
        share everywhere per_solid_angle (viewcone_min s) (viewcone_max s) (Fin f) (Fin f') w.
Proof.
  intros Hn E0 E1 E2 F0 F1 F2. unfold calculate_n_showers_3d_polar.
  destruct (c31_grid s ebins fbins Hn E0 E1 E2 F0 F1 F2) as (g & Eg & Lg & Rg & Hg). rewrite Eg. cbn [rbind].
  assert (Ev : calculate_n_showers_per_fov s [viewcone_min s; viewcone_max s] = Ok [nz (n_showers s)]).
  { unfold calculate_n_showers_per_fov, viewcone_pdf_integral. replace (Reqb (viewcone_max s - viewcone_min s) 0) with false by (symmetry; rcmp; lra).
    cbn [rbind but_last tl zipwith map]. rewrite viewcone_bin_eq by lra. unfold ring_part. cbn [into].
    rewrite (Rmin_right _ (viewcone_min s)), (Rmax_left (viewcone_min s) (viewcone_min s)) by lra.
    rewrite (Rmin_left _ (viewcone_max s)), Rmax_right by lra. unfold nz. cbn [nmul]. do 3 f_equal.
    pose proof (cone_pos _ _ F0 F1 F2). field. lra. }
  rewrite Ev. cbn [rbind]. eexists. split; [reflexivity|]. split.
  { split; [rewrite map_length; auto|]. intros m Hm. apply in_map_iff in Hm as (r & <- & Hr). rewrite map_length. split; [auto|].
    intros x Hx. apply in_map_iff in Hx as (y & <- & _). rewrite map_length, repeat_length. auto. }
  intros k j m e e' f f' Ha Ha' Hb Hb' Hm He Ho Hff.
  destruct (Hg k j e e' f f' Ha Ha' Hb Hb' He Ho Hff) as (row & v & w & Hrow & Hx & Sv & Sw).
  exists v, w. split; [|auto]. eexists _, _. split; [apply map_nth_some; exact Hrow|]. split; [apply map_nth_some; exact Hx|].
  rewrite (map_nth_some _ _ _ _ (repeat_nth _ _ _ Hm)). unfold nz. rewrite <- INR_IZR_INZ.
  assert (Hp : INR (length pbins - 1) <> 0) by (apply not_0_INR; lia). apply not_0_IZR in Hn.
  cbn [ndiv]. replace (Reqb (INR (length pbins - 1)) 0) with false by (symmetry; rcmp; auto). cbn [nmul ndiv].
  replace (Reqb (IZR (n_showers s)) 0) with false by (symmetry; rcmp; auto). do 2 f_equal. field. auto.
Qed.
(** with equal bins around the full circle this is the share of the position angle bin *)
Lemma c32_polar_equal n a (pbins : list R) m p p' : length pbins = S n -> (0 < n)%nat ->
  (forall i x, nth_error pbins i = Some x -> x = a + INR i * (2 * PI / INR n)) ->
  nth_error pbins m = Some p -> nth_error pbins (S m) = Some p' ->
  / INR (length pbins - 1) = (p' - p) / (2 * PI).
Proof.
  intros L Hn H Hp Hp'. apply H in Hp, Hp'. subst. rewrite L. replace (S n - 1)%nat with n by lia. rewrite S_INR.
  pose proof PI_RGT_0. assert (INR n <> 0) by (apply not_0_INR; lia). field. split; auto. lra.
Qed.

(** ** lon/lat *)
Lemma fov_radius_spec lon lat d : fov_distance lon lat d <-> fov_radius lon lat = d.
Proof.
  unfold fov_distance, fov_radius. pose proof (separation_angle lon lat 0 0) as H. split; intros E.
  - eapply angle_between_unique; eauto.
  - subst d. exact H.
Qed.
Lemma fov_radius_range lon lat : 0 <= fov_radius lon lat <= PI.
Proof. apply separation_range. Qed.
Lemma fov_radius_cos lon lat : cos (fov_radius lon lat) = cos lat * cos lon.
Proof.
  pose proof (separation_angle lon lat 0 0) as [_ H]. unfold fov_radius. rewrite H. unfold dot3, direction. rewrite cos_0, sin_0. ring.
Qed.
Lemma in_concat_mesh {A} (f : R -> R -> A) lon lat x : In x (concat (meshgrid f lon lat)) <-> exists l b, In l lon /\ In b lat /\ x = f l b.
Proof.
  unfold meshgrid. rewrite in_concat. split.
  - intros (r & Hr & Hx). apply in_map_iff in Hr as (b & <- & Hb). apply in_map_iff in Hx as (l & <- & Hl). eauto.
  - intros (l & b & Hl & Hb & ->). eexists. split; [apply in_map; exact Hb|]. apply (in_map (fun l => f l b)); auto.
Qed.
Lemma mesh_length {A} (f : R -> R -> A) lon lat : length (concat (meshgrid f lon lat)) = (length lon * length lat)%nat.
Proof. unfold meshgrid. induction lat; simpl; [lia|]. rewrite app_length, map_length, IHlat. lia. Qed.
Lemma count_bounds l : (0 <= count_true l <= Z.of_nat (length l))%Z.
Proof. unfold count_true. induction l as [|[] l IH]; cbn [filter length]; lia. Qed.
Lemma linspace_length a b n : length (linspace a b n) = S n.
Proof. unfold linspace. rewrite map_length, seq_length. auto. Qed.
Lemma centers_length l : length (centers l) = (length l - 1)%nat.
Proof. apply adj_length. Qed.
Definition unit_interval (x : num) : Prop := exists r, x = Fin r /\ 0 <= r <= 1.
Lemma fraction_bounds vmin vmax a b w h n : (0 < n)%nat -> unit_interval (subpixel_fraction vmin vmax a b w h n).
Proof.
  intros Hn. unfold subpixel_fraction, nz. match goal with |- context [count_true ?l] => pose proof (count_bounds l) as H; set (m := l) in * end.
  assert (L : length m = (n * n)%nat) by (unfold m; rewrite mesh_length, !centers_length, !linspace_length; lia).
  rewrite L in H. assert (P : 0 < IZR (Z.of_nat (n * n))) by (apply IZR_lt; nia).
  cbn [ndiv]. rsolve. eexists. split; [reflexivity|]. destruct H as [A B]. apply IZR_le in A. apply IZR_le in B. split.
  - apply Rmult_le_pos; auto. left. apply Rinv_0_lt_compat; auto.
  - apply (Rmult_le_reg_r (IZR (Z.of_nat (n * n)))); auto. unfold Rdiv. rewrite Rmult_assoc, Rinv_l by lra. lra.
Qed.
Lemma overlap_bounds ulon ulat vmin vmax w h l b lc bc n : (0 < n)%nat -> unit_interval (bin_overlap ulon ulat vmin vmax w h l b lc bc n).
Proof.
  intros Hn. unfold bin_overlap. destruct (edge_bin _ _ _ _ _ _ _ _); [apply fraction_bounds; auto|].
  destruct (_ || _); eexists; (split; [reflexivity|lra]).
Qed.
(** shape and bounds, whatever the grid *)
Lemma times_shape s ulon ulat lon lat n o (g : list (list num)) :
  fov_lonlat_grid_overlap s ulon ulat lon lat n = Ok o -> (0 < n)%nat ->
  length g = (length lat - 1)%nat -> (forall r, In r g -> length r = (length lon - 1)%nat) ->
  length (times_overlap o g) = (length lat - 1)%nat /\ (forall r, In r (times_overlap o g) -> length r = (length lon - 1)%nat) /\
  forall i j r x, nth_error g i = Some r -> nth_error r j = Some x ->
    exists r' c, nth_error (times_overlap o g) i = Some r' /\ nth_error r' j = Some (nmul (Fin c) x) /\ 0 <= c <= 1.
Proof.
  intros Ho Hn Lg Hg. unfold fov_lonlat_grid_overlap in Ho.
  assert (K : forall v, unit_interval v -> length (map (map (nmul v)) g) = (length lat - 1)%nat /\
     (forall r, In r (map (map (nmul v)) g) -> length r = (length lon - 1)%nat) /\
     forall i j r x, nth_error g i = Some r -> nth_error r j = Some x ->
    exists r' c, nth_error (map (map (nmul v)) g) i = Some r' /\ nth_error r' j = Some (nmul (Fin c) x) /\ 0 <= c <= 1).
  { intros v (c & -> & Hc). split; [rewrite map_length; auto|]. split.
    - intros r Hr. apply in_map_iff in Hr as (r0 & <- & Hr). rewrite map_length; auto.
    - intros i j r x Hi Hj. eexists _, c. split; [apply map_nth_some; exact Hi|]. split; [apply map_nth_some; exact Hj|auto]. }
  destruct (forallb _ _ || forallb _ _). { injection Ho as <-. apply K. exists 0. split; [auto|lra]. }
  destruct (forallb _ _ && forallb _ _). { injection Ho as <-. apply K. exists 1. split; [auto|lra]. }
  clear K. destruct lon as [|l0 [|l1 lon]]; try discriminate. destruct lat as [|b0 [|b1 lat]]; try discriminate.
  set (LON := l0 :: l1 :: lon) in *. set (LAT := b0 :: b1 :: lat) in *.
  destruct (negb _); [discriminate|].
  match type of Ho with Ok ?x = Ok ?y => assert (Eo : y = x) by congruence end. clear Ho. rewrite Eo. clear Eo. cbn [times_overlap].
  assert (La : forall b bc, length (zipwith (fun l lc => bin_overlap ulon ulat (viewcone_min s) (viewcone_max s) (l1 - l0) (b1 - b0) l b lc bc n) (but_last LON) (centers LON)) = (length LON - 1)%nat).
  { intros. rewrite zipwith_length, but_last_length, centers_length. lia. }
  split; [rewrite !zipwith_length, but_last_length, centers_length; lia|]. split.
  - intros r Hr. apply In_nth_error in Hr as [i Hi]. apply zw_nth_inv in Hi as (a & r0 & Ha & Hr0 & ->).
    apply zw_nth_inv in Ha as (b & bc & _ & _ & ->). rewrite zipwith_length, La, (Hg r0) by (eapply nth_error_In; eauto). lia.
  - intros i j r x Hi Hj. assert (Li := nth_some_lt _ _ _ Hi). assert (Lj := nth_some_lt _ _ _ Hj). rewrite (Hg r) in Lj by (eapply nth_error_In; eauto).
    destruct (nth_some_ex (but_last LAT) i) as [b Hb]; [rewrite but_last_length; lia|].
    destruct (nth_some_ex (centers LAT) i) as [bc Hbc]; [rewrite centers_length; lia|].
    destruct (nth_some_ex (but_last LON) j) as [l Hl]; [rewrite but_last_length; lia|].
    destruct (nth_some_ex (centers LON) j) as [lc Hlc]; [rewrite centers_length; lia|].
    destruct (overlap_bounds ulon ulat (viewcone_min s) (viewcone_max s) (l1 - l0) (b1 - b0) l b lc bc n Hn) as (c & Ec & Hc).
    eexists _, c. split; [apply zipwith_nth; [apply zipwith_nth; eassumption|exact Hi]|]. split; [|auto].
    erewrite zipwith_nth; [|apply zipwith_nth; eassumption|exact Hj]. rewrite Ec. reflexivity.
Qed.
Definition area_grid (s : sim_info) (ulon ulat : R) (lon lat : list R) : list (list num) :=
  map (map (fun a => nmul (ndiv (nz (n_showers s)) (Fin (cone_solid_angle (viewcone_max s) - cone_solid_angle (viewcone_min s)))) (Fin a)))
    (zipwith (fun b b' => zipwith (fun l l' =>
        rectangle_solid_angle (l * ulon) (l' * ulon) (b * ulat) (b' * ulat)) (but_last lon) (tl lon)) (but_last lat) (tl lat)).
Lemma area_grid_shape s ulon ulat lon lat : length (area_grid s ulon ulat lon lat) = (length lat - 1)%nat /\
  forall r, In r (area_grid s ulon ulat lon lat) -> length r = (length lon - 1)%nat.
Proof.
  unfold area_grid. split; [rewrite map_length; apply adj_length|]. intros r Hr. apply in_map_iff in Hr as (r0 & <- & Hr). rewrite map_length.
  apply In_nth_error in Hr as [i Hi]. apply adj_inv in Hi as (b & b' & _ & _ & ->). apply adj_length.
Qed.
Lemma area_grid_nth s ulon ulat lon lat i j l l' b b' :
  0 <= viewcone_min s -> viewcone_min s < viewcone_max s -> viewcone_max s <= PI ->
  nth_error lat i = Some b -> nth_error lat (S i) = Some b' -> nth_error lon j = Some l -> nth_error lon (S j) = Some l' ->
  exists r, nth_error (area_grid s ulon ulat lon lat) i = Some r /\
    nth_error r j = Some (Fin (IZR (n_showers s) * (rectangle_sr (l * ulon) (l' * ulon) (b * ulat) (b' * ulat) / ring_sr (viewcone_min s) (viewcone_max s)))).
Proof.
  intros F0 F1 F2 Hb Hb' Hl Hl'. unfold area_grid. eexists. split; [apply map_nth_some; apply (adj_nth _ _ _ _ _ Hb Hb')|].
  rewrite (map_nth_some _ _ _ _ (adj_nth _ _ _ _ _ Hl Hl')). pose proof (cone_pos _ _ F0 F1 F2) as HC. pose proof PI_RGT_0.
  assert (P : 0 < 2 * PI * (cos (viewcone_min s) - cos (viewcone_max s))) by (apply Rmult_lt_0_compat; lra).
  unfold nz, cone_solid_angle. cbn [ndiv]. rsolve.
  replace (2 * PI * (1 - cos (viewcone_max s)) - 2 * PI * (1 - cos (viewcone_min s))) with (2 * PI * (cos (viewcone_min s) - cos (viewcone_max s))) by ring.
  rsolve. cbn [nmul]. do 2 f_equal. unfold rectangle_solid_angle, rectangle_sr, ring_sr. field. split; lra.
Qed.

Lemma c32_lonlat_any s ebins ulon ulat lon lat n out : (n_showers s <> 0)%Z -> (0 < n)%nat ->
  0 < energy_min s -> energy_min s < energy_max s -> spectral_index s < -1 ->
  0 <= viewcone_min s -> viewcone_min s < viewcone_max s -> viewcone_max s <= PI ->
  calculate_n_showers_3d_lonlat s ebins ulon ulat lon lat n = Ok out ->
  shape3 out (length ebins - 1) (length lat - 1) (length lon - 1) /\
  forall k i j e e' l l' b b', nth_error ebins k = Some e -> nth_error ebins (S k) = Some e' ->
    nth_error lat i = Some b -> nth_error lat (S i) = Some b' -> nth_error lon j = Some l -> nth_error lon (S j) = Some l' ->
    energy_bin e e' -> ~ overhangs (energy_min s) (energy_max s) e e' ->
    exists v c, 0 <= c <= 1 /\
      share positive (power_law (spectral_index s)) (energy_min s) (energy_max s) e e' v /\
      entry3 out k i j (Fin (c * (IZR (n_showers s) * v *
        (rectangle_sr (l * ulon) (l' * ulon) (b * ulat) (b' * ulat) / ring_sr (viewcone_min s) (viewcone_max s))))).
Proof.
  intros Hn Hpix E0 E1 E2 F0 F1 F2 H. unfold calculate_n_showers_3d_lonlat in H.
  destruct (fov_lonlat_grid_overlap s ulon ulat lon lat n) as [o|ex] eqn:Eo; [|discriminate]. cbn [rbind] in H. fold (area_grid s ulon ulat lon lat) in H. injection H as <-.
  destruct (area_grid_shape s ulon ulat lon lat) as [La Ra]. destruct (times_shape s ulon ulat lon lat n o (area_grid s ulon ulat lon lat) Eo Hpix La Ra) as (L1 & L2 & Hx).
  split.
  - split; [rewrite map_length; apply c30_length|]. intros m Hm. apply in_map_iff in Hm as (x & <- & _). rewrite map_length. split; [auto|].
    intros r Hr. apply in_map_iff in Hr as (r0 & <- & Hr). rewrite map_length. auto.
  - intros k i j e e' l l' b b' Ha Ha' Hb Hb' Hl Hl' He Hov.
    destruct (c30_bin s ebins k e e' E0 E1 E2 Ha Ha' He Hov) as (v & Hv & Sv & _).
    destruct (area_grid_nth s ulon ulat lon lat i j l l' b b' F0 F1 F2 Hb Hb' Hl Hl') as (r & Hr & Hrj).
    destruct (Hx i j r _ Hr Hrj) as (r' & c & Hr' & Hj & Hc). exists v, c. split; auto. split; auto.
    eexists _, _. split; [apply map_nth_some; exact Hv|]. split; [apply map_nth_some; exact Hr'|].
    rewrite (map_nth_some _ _ _ _ Hj). unfold nz. cbn [nmul ndiv]. apply not_0_IZR in Hn.
    replace (Reqb (IZR (n_showers s)) 0) with false by (symmetry; rcmp; auto). do 2 f_equal.
    field. split; auto. unfold ring_sr. pose proof (cone_pos _ _ F0 F1 F2). pose proof PI_RGT_0. apply Rgt_not_eq. apply Rmult_lt_0_compat; lra.
Qed.
(** all corners inside the viewcone *)
Lemma forallb_mesh (f : R -> bool) (g : R -> R -> R) lon lat : forallb f (concat (meshgrid g lon lat)) = true <->
  forall l b, In l lon -> In b lat -> f (g l b) = true.
Proof.
  rewrite forallb_forall. split; intros H.
  - intros l b Hl Hb. apply H. apply in_concat_mesh. eauto.
  - intros x Hx. apply in_concat_mesh in Hx as (l & b & Hl & Hb & ->). auto.
Qed.
Lemma c32_lonlat_inside s ebins ulon ulat lon lat n : (n_showers s <> 0)%Z -> (0 < n)%nat ->
  0 < energy_min s -> energy_min s < energy_max s -> spectral_index s < -1 ->
  0 <= viewcone_min s -> viewcone_min s < viewcone_max s -> viewcone_max s <= PI ->
  (forall l b d, In l lon -> In b lat -> fov_distance (l * ulon) (b * ulat) d -> viewcone_min s <= d <= viewcone_max s) ->
  (exists l b d, In l lon /\ In b lat /\ fov_distance (l * ulon) (b * ulat) d /\ viewcone_min s < d) ->
  (exists l b d, In l lon /\ In b lat /\ fov_distance (l * ulon) (b * ulat) d /\ d < viewcone_max s) ->
  exists out, calculate_n_showers_3d_lonlat s ebins ulon ulat lon lat n = Ok out /\
  forall k i j e e' l l' b b', nth_error ebins k = Some e -> nth_error ebins (S k) = Some e' ->
    nth_error lat i = Some b -> nth_error lat (S i) = Some b' -> nth_error lon j = Some l -> nth_error lon (S j) = Some l' ->
    energy_bin e e' -> ~ overhangs (energy_min s) (energy_max s) e e' ->
    exists v, share positive (power_law (spectral_index s)) (energy_min s) (energy_max s) e e' v /\
      entry3 out k i j (Fin (IZR (n_showers s) * v *
        (rectangle_sr (l * ulon) (l' * ulon) (b * ulat) (b' * ulat) / ring_sr (viewcone_min s) (viewcone_max s)))).
Proof.
  intros Hn Hpix E0 E1 E2 F0 F1 F2 Hin (la & ba & da & Hla & Hba & Hda & Lda) (lb & bb & db & Hlb & Hbb & Hdb & Ldb).
  apply fov_radius_spec in Hda, Hdb.
  assert (Eo : fov_lonlat_grid_overlap s ulon ulat lon lat n = Ok (All (Fin 1))).
  { unfold fov_lonlat_grid_overlap.
    assert (A1 : forallb (fun d => Rleb d (viewcone_min s)) (concat (meshgrid (fun l b => fov_radius (l * ulon) (b * ulat)) lon lat)) = false).
    { apply not_true_is_false. intros A. rewrite forallb_mesh in A. specialize (A la ba Hla Hba). rcmp. lra. }
    assert (A2 : forallb (fun d => Rleb (viewcone_max s) d) (concat (meshgrid (fun l b => fov_radius (l * ulon) (b * ulat)) lon lat)) = false).
    { apply not_true_is_false. intros A. rewrite forallb_mesh in A. specialize (A lb bb Hlb Hbb). rcmp. lra. }
    assert (A3 : forallb (fun d => Rleb d (viewcone_max s)) (concat (meshgrid (fun l b => fov_radius (l * ulon) (b * ulat)) lon lat)) = true).
    { apply forallb_mesh. intros l b Hl Hb. rcmp. apply (Hin l b); auto. apply fov_radius_spec; auto. }
    assert (A4 : forallb (fun d => Rleb (viewcone_min s) d) (concat (meshgrid (fun l b => fov_radius (l * ulon) (b * ulat)) lon lat)) = true).
    { apply forallb_mesh. intros l b Hl Hb. rcmp. apply (Hin l b); auto. apply fov_radius_spec; auto. }
    rewrite A1, A2, A3, A4. reflexivity. }
  unfold calculate_n_showers_3d_lonlat. rewrite Eo. cbn [rbind]. fold (area_grid s ulon ulat lon lat). eexists. split; [reflexivity|].
  intros k i j e e' l l' b b' Ha Ha' Hb Hb' Hl Hl' He Hov.
  destruct (c30_bin s ebins k e e' E0 E1 E2 Ha Ha' He Hov) as (v & Hv & Sv & _).
  destruct (area_grid_nth s ulon ulat lon lat i j l l' b b' F0 F1 F2 Hb Hb' Hl Hl') as (r & Hr & Hrj).
  exists v. split; auto. eexists _, _. split; [apply map_nth_some; exact Hv|]. split; [apply map_nth_some; cbn [times_overlap]; apply map_nth_some; exact Hr|].
  rewrite (map_nth_some _ _ _ _ (map_nth_some _ _ _ _ Hrj)). unfold nz. cbn [nmul ndiv]. apply not_0_IZR in Hn.
  replace (Reqb (IZR (n_showers s)) 0) with false by (symmetry; rcmp; auto). do 2 f_equal.
  field. split; auto. unfold ring_sr. pose proof (cone_pos _ _ F0 F1 F2). pose proof PI_RGT_0. apply Rgt_not_eq. apply Rmult_lt_0_compat; lra.
Qed.
(** all corners further away than the viewcone: no showers at all, even if a bin contains
    the whole viewcone *)
Lemma swallowed s ulon ulat lon lat n :
  viewcone_max s <= PI / 2 -> 0 <= viewcone_max s -> viewcone_min s < viewcone_max s ->
  (forall l, In l lon -> viewcone_max s <= Rabs (l * ulon) <= PI / 2) ->
  (forall b, In b lat -> Rabs (b * ulat) <= PI / 2) ->
  fov_lonlat_grid_overlap s ulon ulat lon lat n = Ok (All (Fin 0)).
Proof.
  intros V1 V0 V2 Hlon Hlat. unfold fov_lonlat_grid_overlap.
  assert (A2 : forallb (fun d => Rleb (viewcone_max s) d) (concat (meshgrid (fun l b => fov_radius (l * ulon) (b * ulat)) lon lat)) = true).
  { apply forallb_mesh. intros l b Hl Hb. rcmp. pose proof (fov_radius_range (l * ulon) (b * ulat)) as R1.
    destruct (Rle_dec (viewcone_max s) (fov_radius (l * ulon) (b * ulat))) as [|Hc]; auto. exfalso. apply Rnot_le_lt in Hc.
    pose proof (cos_decreasing_1 (fov_radius (l * ulon) (b * ulat)) (viewcone_max s) ltac:(lra) ltac:(lra) ltac:(lra) ltac:(lra) Hc) as D.
    rewrite fov_radius_cos in D.
    assert (C1 : cos (l * ulon) <= cos (viewcone_max s)).
    { destruct (Hlon l Hl) as [P1 P2]. replace (cos (l * ulon)) with (cos (Rabs (l * ulon))).
      - destruct P1 as [P1 | P1]; [|rewrite <- P1; lra]. left. apply cos_decreasing_1; lra.
      - unfold Rabs. destruct (Rcase_abs _); auto. apply cos_neg. }
    assert (C2 : 0 <= cos (l * ulon)).
    { destruct (Hlon l Hl) as [P1 P2]. apply cos_ge_0; unfold Rabs in P2; destruct (Rcase_abs _) in P2; lra. }
    pose proof (COS_bound (b * ulat)) as [_ C3].
    assert (cos (b * ulat) * cos (l * ulon) <= 1 * cos (l * ulon)) by (apply Rmult_le_compat_r; auto). lra. }
  rewrite A2, orb_true_r. reflexivity.
Qed.
Lemma c32_lonlat_swallowed s ebins ulon ulat lon lat n :
  0 <= viewcone_min s -> viewcone_min s < viewcone_max s -> viewcone_max s <= PI / 2 ->
  (n_showers s <> 0)%Z -> 0 < energy_min s -> energy_min s < energy_max s -> spectral_index s < -1 ->
  (forall l, In l lon -> viewcone_max s <= Rabs (l * ulon) <= PI / 2) ->
  (forall b, In b lat -> Rabs (b * ulat) <= PI / 2) ->
  (forall k lo hi, nth_error ebins k = Some lo -> nth_error ebins (S k) = Some hi ->
     energy_bin lo hi /\ ~ overhangs (energy_min s) (energy_max s) lo hi) ->
  exists out, calculate_n_showers_3d_lonlat s ebins ulon ulat lon lat n = Ok out /\
    forall k i j x, entry3 out k i j x -> x = Fin 0.
Proof.
  intros V0 V2 V1 Hn E0 E1 E2 Hlon Hlat Heb. unfold calculate_n_showers_3d_lonlat. rewrite swallowed by (auto; lra). cbn [rbind].
  fold (area_grid s ulon ulat lon lat). eexists. split; [reflexivity|].
  intros k i j x (m & r & Hm & Hr & Hx). apply map_nth_inv in Hm as (e & He & ->). apply map_nth_inv in Hr as (r0 & Hr0 & ->).
  apply map_nth_inv in Hx as (y & Hy & ->). cbn [times_overlap] in Hr0. apply map_nth_inv in Hr0 as (r1 & Hr1 & ->). apply map_nth_inv in Hy as (z & Hz & ->).
  unfold area_grid in Hr1. apply map_nth_inv in Hr1 as (r2 & Hr2 & ->). apply map_nth_inv in Hz as (w & Hw & ->).
  assert (Lk := nth_some_lt _ _ _ He). rewrite c30_length in Lk. destruct (adj_ex ebins k Lk) as (a & b & Ha & Hb).
  destruct (Heb k a b Ha Hb) as [B1 B2]. destruct (c30_bin s ebins k a b E0 E1 E2 Ha Hb B1 B2) as (v & Hv & _). rewrite He in Hv. injection Hv as ->.
  pose proof PI_RGT_0. pose proof (cone_pos (viewcone_min s) (viewcone_max s) V0 V2 ltac:(lra)) as HC.
  assert (P : 0 < 2 * PI * (cos (viewcone_min s) - cos (viewcone_max s))) by (apply Rmult_lt_0_compat; lra).
  unfold nz, cone_solid_angle. cbn [ndiv].
  replace (2 * PI * (1 - cos (viewcone_max s)) - 2 * PI * (1 - cos (viewcone_min s))) with (2 * PI * (cos (viewcone_min s) - cos (viewcone_max s))) by ring.
  rsolve. cbn [nmul ndiv]. apply not_0_IZR in Hn. replace (Reqb (IZR (n_showers s)) 0) with false by (symmetry; rcmp; auto).
  f_equal. unfold Rdiv. ring.
Qed.
