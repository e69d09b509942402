(** * Properties_Simulations: C30-C33 *)
From Coq Require Import Reals List Bool ZArith Lia Lra.
From Verif Require Import Num Numpy Lists Binning Utils SpecUtils UtilsProofs SpecSimulations Simulations SimulationsProofs SimulationsProofs2 SimulationsProofs3 SpecLonLat LonLatProofs.
Import ListNotations.
Open Scope R_scope.

(** the share of a bin is determined by the density and the interval *)
Theorem C30_share_unique : forall (dom : R -> Prop) dens a b lo hi v w,
  a <= b -> (forall x, a <= x <= b -> dom x) ->
  share dom dens a b lo hi v -> share dom dens a b lo hi w -> v = w.
Proof. exact share_unique. Qed.
Print Assumptions C30_share_unique.
(** ** C30 *)
Theorem C30_bin : forall s bins k lo hi,
  0 < energy_min s -> energy_min s < energy_max s -> spectral_index s < -1 ->
  nth_error bins k = Some lo -> nth_error bins (S k) = Some hi ->
  energy_bin lo hi -> ~ overhangs (energy_min s) (energy_max s) lo hi ->
  exists v, nth_error (calculate_n_showers_per_energy s bins) k = Some (Fin (IZR (n_showers s) * v)) /\
    share positive (power_law (spectral_index s)) (energy_min s) (energy_max s) lo hi v /\ 0 <= v <= 1.
Proof. exact c30_bin. Qed.
Print Assumptions C30_bin.
Theorem C30_length : forall s bins,
  List.length (calculate_n_showers_per_energy s bins) = (List.length bins - 1)%nat.
Proof. exact c30_length. Qed.
Print Assumptions C30_length.
Theorem C30_total : forall s bins,
  0 < energy_min s -> energy_min s < energy_max s -> spectral_index s < -1 ->
  covers bins (energy_min s) (energy_max s) ->
  (forall k lo hi, nth_error bins k = Some lo -> nth_error bins (S k) = Some hi ->
     energy_bin lo hi /\ ~ overhangs (energy_min s) (energy_max s) lo hi) ->
  nsum (calculate_n_showers_per_energy s bins) = Fin (IZR (n_showers s)).
Proof. exact c30_total. Qed.
Print Assumptions C30_total.
Theorem C30_merge : forall s a b c,
  0 < energy_min s -> energy_min s < energy_max s -> spectral_index s < -1 ->
  energy_bin a b -> energy_bin b c -> ~ overhangs (energy_min s) (energy_max s) a c ->
  exists x y, calculate_n_showers_per_energy s [a; b; c] = [Fin x; Fin y] /\
    calculate_n_showers_per_energy s [a; c] = [Fin (x + y)].
Proof. exact c30_merge. Qed.
Print Assumptions C30_merge.
Theorem C30_outside : forall s bins k lo hi,
  energy_min s <= energy_max s ->
  nth_error bins k = Some lo -> nth_error bins (S k) = Some hi -> nle lo hi = true ->
  nle hi (Fin (energy_min s)) = true \/ nle (Fin (energy_max s)) lo = true ->
  nth_error (calculate_n_showers_per_energy s bins) k = Some (Fin 0).
Proof. exact c30_outside. Qed.
Print Assumptions C30_outside.
(** a bin that sticks out of the simulated range on both sides is counted too often: more showers than simulated *)
Theorem C30_overhang_refuted : forall s lo hi,
  (0 < n_showers s)%Z ->
  0 < energy_min s -> energy_min s < energy_max s -> spectral_index s < -1 ->
  overhangs (energy_min s) (energy_max s) lo (Fin hi) ->
  exists x, calculate_n_showers_per_energy s [lo; Fin hi] = [Fin x] /\ IZR (n_showers s) < x.
Proof. exact c30_overhang. Qed.
Print Assumptions C30_overhang_refuted.
(** ** C31 *)
Theorem C31_bin : forall s bins,
  0 <= viewcone_min s -> viewcone_min s < viewcone_max s -> viewcone_max s <= PI ->
  exists out, calculate_n_showers_per_fov s bins = Ok out /\ List.length out = (List.length bins - 1)%nat /\
    forall k lo hi, nth_error bins k = Some lo -> nth_error bins (S k) = Some hi -> lo <= hi ->
      exists v, nth_error out k = Some (Fin (IZR (n_showers s) * v)) /\
        share everywhere per_solid_angle (viewcone_min s) (viewcone_max s) (Fin lo) (Fin hi) v /\ 0 <= v <= 1.
Proof. exact c31_bin. Qed.
Print Assumptions C31_bin.
Theorem C31_total : forall s bins first last,
  0 <= viewcone_min s -> viewcone_min s < viewcone_max s -> viewcone_max s <= PI ->
  nth_error bins 0 = Some first -> nth_error bins (List.length bins - 1) = Some last ->
  first <= viewcone_min s -> viewcone_max s <= last ->
  (forall k lo hi, nth_error bins k = Some lo -> nth_error bins (S k) = Some hi -> lo <= hi) ->
  exists out, calculate_n_showers_per_fov s bins = Ok out /\ nsum out = Fin (IZR (n_showers s)).
Proof. exact c31_total. Qed.
Print Assumptions C31_total.
Theorem C31_point_like : forall s bins,
  calculate_n_showers_per_fov s bins = Err ValueError <-> viewcone_min s = viewcone_max s.
Proof. exact c31_point_like. Qed.
Print Assumptions C31_point_like.
Theorem C31_energy_and_fov : forall s ebins fbins,
  (n_showers s <> 0)%Z ->
  0 < energy_min s -> energy_min s < energy_max s -> spectral_index s < -1 ->
  0 <= viewcone_min s -> viewcone_min s < viewcone_max s -> viewcone_max s <= PI ->
  exists out, calculate_n_showers_per_energy_and_fov s ebins fbins = Ok out /\ List.length out = (List.length ebins - 1)%nat /\
    (forall row, In row out -> List.length row = (List.length fbins - 1)%nat) /\
    forall k j e e' f f', nth_error ebins k = Some e -> nth_error ebins (S k) = Some e' ->
      nth_error fbins j = Some f -> nth_error fbins (S j) = Some f' ->
      energy_bin e e' -> ~ overhangs (energy_min s) (energy_max s) e e' -> f <= f' ->
      exists row v w, nth_error out k = Some row /\ nth_error row j = Some (Fin (IZR (n_showers s) * v * w)) /\
        share positive (power_law (spectral_index s)) (energy_min s) (energy_max s) e e' v /\
        share everywhere per_solid_angle (viewcone_min s) (viewcone_max s) (Fin f) (Fin f') w.
Proof. exact c31_grid. Qed.
Print Assumptions C31_energy_and_fov.
(** ** C32 *)
(** every position angle bin gets the same number of showers, whatever its edges *)
Theorem C32_polar : forall s ebins fbins pbins,
  (n_showers s <> 0)%Z ->
  0 < energy_min s -> energy_min s < energy_max s -> spectral_index s < -1 ->
  0 <= viewcone_min s -> viewcone_min s < viewcone_max s -> viewcone_max s <= PI ->
  exists out, calculate_n_showers_3d_polar s ebins fbins pbins = Ok out /\
    shape3 out (List.length ebins - 1) (List.length fbins - 1) (List.length pbins - 1) /\
    forall k j m e e' f f', nth_error ebins k = Some e -> nth_error ebins (S k) = Some e' ->
      nth_error fbins j = Some f -> nth_error fbins (S j) = Some f' -> (m < List.length pbins - 1)%nat ->
      energy_bin e e' -> ~ overhangs (energy_min s) (energy_max s) e e' -> f <= f' ->
      exists v w, entry3 out k j m (Fin (IZR (n_showers s) * v * w / INR (List.length pbins - 1))) /\
        share positive (power_law (spectral_index s)) (energy_min s) (energy_max s) e e' v /\
        share everywhere per_solid_angle (viewcone_min s) (viewcone_max s) (Fin f) (Fin f') w.
Proof. exact c32_polar. Qed.
Print Assumptions C32_polar.
(** for equal bins around the circle that is the share of the bin *)
Theorem C32_polar_equal_bins : forall n a (pbins : list R) m p p',
  List.length pbins = S n -> (0 < n)%nat ->
  (forall i x, nth_error pbins i = Some x -> x = a + INR i * (2 * PI / INR n)) ->
  nth_error pbins m = Some p -> nth_error pbins (S m) = Some p' ->
  / INR (List.length pbins - 1) = (p' - p) / (2 * PI).
Proof. exact c32_polar_equal. Qed.
Print Assumptions C32_polar_equal_bins.
(** ... but not for other bins: a quarter circle and the other three quarters get the same *)
Theorem C32_polar_refuted : forall s ebins fbins k j e e' f f', (n_showers s <> 0)%Z ->
  0 < energy_min s -> energy_min s < energy_max s -> spectral_index s < -1 ->
  0 <= viewcone_min s -> viewcone_min s < viewcone_max s -> viewcone_max s <= PI ->
  nth_error ebins k = Some e -> nth_error ebins (S k) = Some e' ->
  nth_error fbins j = Some f -> nth_error fbins (S j) = Some f' ->
  energy_bin e e' -> ~ overhangs (energy_min s) (energy_max s) e e' -> f <= f' ->
  exists out x, calculate_n_showers_3d_polar s ebins fbins [0; PI / 2; 2 * PI] = Ok out /\
    entry3 out k j 0 x /\ entry3 out k j 1 x.
Proof.
  intros s ebins fbins k j e e' f f' Hn E0 E1 E2 F0 F1 F2 He He' Hf Hf' Hb Ho Hff.
  destruct (c32_polar s ebins fbins [0; PI / 2; 2 * PI] Hn E0 E1 E2 F0 F1 F2) as (out & Eo & _ & H).
  destruct (H k j 0%nat e e' f f' He He' Hf Hf' ltac:(cbn; lia) Hb Ho Hff) as (v & w & X & Sv & Sw).
  destruct (H k j 1%nat e e' f f' He He' Hf Hf' ltac:(cbn; lia) Hb Ho Hff) as (v' & w' & X' & Sv' & Sw').
  assert (v = v'). { eapply (share_unique positive); [|  |exact Sv|exact Sv']; [lra|]. intros x Hx. unfold positive. lra. }
  assert (w = w'). { eapply (share_unique everywhere); [| |exact Sw|exact Sw']; [lra|]. intros x Hx. exact I. }
  subst. eauto.
Qed.
Print Assumptions C32_polar_refuted.
(** for every lon/lat grid: axes (energy, lat, lon), between 0 and the showers of the full rectangle *)
Theorem C32_lonlat_any_grid : forall s ebins ulon ulat lon lat n out,
  (n_showers s <> 0)%Z -> (0 < n)%nat ->
  0 < energy_min s -> energy_min s < energy_max s -> spectral_index s < -1 ->
  0 <= viewcone_min s -> viewcone_min s < viewcone_max s -> viewcone_max s <= PI ->
  calculate_n_showers_3d_lonlat s ebins ulon ulat lon lat n = Ok out ->
  shape3 out (List.length ebins - 1) (List.length lat - 1) (List.length lon - 1) /\
  forall k i j e e' l l' b b', nth_error ebins k = Some e -> nth_error ebins (S k) = Some e' ->
    nth_error lat i = Some b -> nth_error lat (S i) = Some b' -> nth_error lon j = Some l -> nth_error lon (S j) = Some l' ->
    energy_bin e e' -> ~ overhangs (energy_min s) (energy_max s) e e' ->
    exists v c, 0 <= c <= 1 /\
      share positive (power_law (spectral_index s)) (energy_min s) (energy_max s) e e' v /\
      entry3 out k i j (Fin (c * (IZR (n_showers s) * v *
        (rectangle_sr (l * ulon) (l' * ulon) (b * ulat) (b' * ulat) / ring_sr (viewcone_min s) (viewcone_max s))))).
Proof. exact c32_lonlat_any. Qed.
Print Assumptions C32_lonlat_any_grid.
(** the documented axis order (energy, lon, lat) is refuted *)
Theorem C32_lonlat_shape_refuted : exists s ebins lon lat out,
  calculate_n_showers_3d_lonlat s ebins 1 1 lon lat 1 = Ok out /\
  ~ shape3 out (List.length ebins - 1) (List.length lon - 1) (List.length lat - 1).
Proof.
  exists (mkSim 1 1 2 1 (-2) 0 (PI / 2)), [Fin 1; Fin 2], [PI / 2; PI / 2; PI / 2], [0; 0].
  eexists. split; [unfold calculate_n_showers_3d_lonlat; rewrite swallowed|].
  - cbn [rbind]. reflexivity.
  - cbn; lra.
  - cbn. pose proof PI_RGT_0; lra.
  - cbn. pose proof PI_RGT_0; lra.
  - cbn [viewcone_max]. intros l Hl. replace (l * 1) with (PI / 2). { pose proof PI_RGT_0. rewrite Rabs_right; lra. } cbn in Hl. intuition lra.
  - intros b Hb. replace (b * 1) with 0. { rewrite Rabs_R0. pose proof PI_RGT_0. lra. } cbn in Hb. intuition lra.
  - intros [_ H]. cbn in H. destruct (H _ (or_introl eq_refl)) as [H' _]. cbn in H'. discriminate.
Qed.
Print Assumptions C32_lonlat_shape_refuted.
(** when all bin corners lie inside the viewcone: density times rectangle *)
Theorem C32_lonlat_inside : forall s ebins ulon ulat lon lat n,
  (n_showers s <> 0)%Z -> (0 < n)%nat ->
  0 < energy_min s -> energy_min s < energy_max s -> spectral_index s < -1 ->
  0 <= viewcone_min s -> viewcone_min s < viewcone_max s -> viewcone_max s <= PI ->
  (forall l b d, In l lon -> In b lat -> fov_distance (l * ulon) (b * ulat) d -> viewcone_min s <= d <= viewcone_max s) ->
  (exists l b d, In l lon /\ In b lat /\ fov_distance (l * ulon) (b * ulat) d /\ viewcone_min s < d) ->
  (exists l b d, In l lon /\ In b lat /\ fov_distance (l * ulon) (b * ulat) d /\ d < viewcone_max s) ->
  exists out, calculate_n_showers_3d_lonlat s ebins ulon ulat lon lat n = Ok out /\
  forall k i j e e' l l' b b', nth_error ebins k = Some e -> nth_error ebins (S k) = Some e' ->
    nth_error lat i = Some b -> nth_error lat (S i) = Some b' -> nth_error lon j = Some l -> nth_error lon (S j) = Some l' ->
    energy_bin e e' -> ~ overhangs (energy_min s) (energy_max s) e e' ->
    exists v, share positive (power_law (spectral_index s)) (energy_min s) (energy_max s) e e' v /\
      entry3 out k i j (Fin (IZR (n_showers s) * v *
        (rectangle_sr (l * ulon) (l' * ulon) (b * ulat) (b' * ulat) / ring_sr (viewcone_min s) (viewcone_max s)))).
Proof. exact c32_lonlat_inside. Qed.
Print Assumptions C32_lonlat_inside.
(** no showers at all when every corner is outside, even if a bin contains the whole viewcone *)
Theorem C32_lonlat_swallowed_refuted : forall s ebins ulon ulat lon lat n,
  0 <= viewcone_min s -> viewcone_min s < viewcone_max s -> viewcone_max s <= PI / 2 ->
  (n_showers s <> 0)%Z -> 0 < energy_min s -> energy_min s < energy_max s -> spectral_index s < -1 ->
  (forall l, In l lon -> viewcone_max s <= Rabs (l * ulon) <= PI / 2) ->
  (forall b, In b lat -> Rabs (b * ulat) <= PI / 2) ->
  (forall k lo hi, nth_error ebins k = Some lo -> nth_error ebins (S k) = Some hi ->
     energy_bin lo hi /\ ~ overhangs (energy_min s) (energy_max s) lo hi) ->
  exists out, calculate_n_showers_3d_lonlat s ebins ulon ulat lon lat n = Ok out /\
    forall k i j x, entry3 out k i j x -> x = Fin 0.
Proof. exact c32_lonlat_swallowed. Qed.
Print Assumptions C32_lonlat_swallowed_refuted.
Example C32_swallowed_example : let s := mkSim 1000 1 10 100 (-2) 0 (PI / 180) in
  (forall l, In l [-5; 5] -> viewcone_max s <= Rabs (l * (PI / 180)) <= PI / 2) /\
  (forall b, In b [-5; 5] -> Rabs (b * (PI / 180)) <= PI / 2) /\
  energy_bin (Fin 1) (Fin 10) /\ ~ overhangs (energy_min s) (energy_max s) (Fin 1) (Fin 10).
Proof.
  pose proof PI_RGT_0. split; [|split; [|split]].
  - intros l [<-|[<-|[]]]; cbn [viewcone_max]; [rewrite Rabs_left|rewrite Rabs_right]; lra.
  - intros l [<-|[<-|[]]]; [rewrite Rabs_left|rewrite Rabs_right]; lra.
  - split; cbn [nle]; apply Rleb_true; lra.
  - intros [H1 _]. cbn [energy_min nlt] in H1. apply Rltb_true in H1. lra.
Qed.
(** every entry of a result, partially covered bins included: the covered part of the bin times density x rectangle *)
Theorem C32_lonlat_exact : forall s ebins ulon ulat lon lat n out, (n_showers s <> 0)%Z -> (0 < n)%nat ->
  0 < energy_min s -> energy_min s < energy_max s -> spectral_index s < -1 ->
  0 <= viewcone_min s -> viewcone_min s < viewcone_max s -> viewcone_max s <= PI ->
  calculate_n_showers_3d_lonlat s ebins ulon ulat lon lat n = Ok out ->
  forall k i j e e' l l' b b', nth_error ebins k = Some e -> nth_error ebins (S k) = Some e' ->
    nth_error lat i = Some b -> nth_error lat (S i) = Some b' -> nth_error lon j = Some l -> nth_error lon (S j) = Some l' ->
    energy_bin e e' -> ~ overhangs (energy_min s) (energy_max s) e e' ->
    exists v c, coverage (viewcone_min s) (viewcone_max s) ulon ulat lon lat n l l' b b' c /\
      share positive (power_law (spectral_index s)) (energy_min s) (energy_max s) e e' v /\
      entry3 out k i j (Fin (c * (IZR (n_showers s) * v *
        (rectangle_sr (l * ulon) (l' * ulon) (b * ulat) (b' * ulat) / ring_sr (viewcone_min s) (viewcone_max s))))).
Proof. exact c32_lonlat_exact. Qed.
Print Assumptions C32_lonlat_exact.
(** the only error of a grid with bins: neither all corners outside nor all inside, but no bin near to the border *)
Theorem C32_lonlat_error : forall s ebins ulon ulat lon lat n, (2 <= length lon)%nat -> (2 <= length lat)%nat ->
  let mixed := ~ (corners ulon ulat lon lat (fun d => d <= viewcone_min s) \/ corners ulon ulat lon lat (fun d => viewcone_max s <= d)) /\
    ~ corners ulon ulat lon lat (fun d => viewcone_min s <= d <= viewcone_max s) in
  let no_border_bin := forall i j l l' b b', nth_error lat i = Some b -> nth_error lat (S i) = Some b' ->
    nth_error lon j = Some l -> nth_error lon (S j) = Some l' ->
    ~ near_border (viewcone_min s) (viewcone_max s) ulon ulat lon lat l l' b b' in
  (mixed /\ no_border_bin -> calculate_n_showers_3d_lonlat s ebins ulon ulat lon lat n = Err IndexError) /\
  (~ (mixed /\ no_border_bin) -> exists out, calculate_n_showers_3d_lonlat s ebins ulon ulat lon lat n = Ok out).
Proof. exact c32_lonlat_error. Qed.
Print Assumptions C32_lonlat_error.
(** the same bin [0, 90 deg] x [0, 90 deg] given in degree and in radian gets different counts (viewcone of 45 deg) *)
Theorem C32_lonlat_units_refuted : exists out out' x, let s := mkSim 1000 1 10 100 (-2) 0 (PI / 4) in
  calculate_n_showers_3d_lonlat s [Fin 1; Fin 10] (PI / 180) (PI / 180) [0; 90] [0; 90] 1 = Ok out /\
  calculate_n_showers_3d_lonlat s [Fin 1; Fin 10] 1 1 [0; 90 * (PI / 180)] [0; 90 * (PI / 180)] 1 = Ok out' /\
  entry3 out 0 0 0 (Fin 0) /\ entry3 out' 0 0 0 (Fin x) /\ 0 < x.
Proof. exact c32_units. Qed.
Print Assumptions C32_lonlat_units_refuted.
(** ** C33 *)
Theorem C33_constructor : forall n emin emax impact index vmin vmax,
  (index <= -1 -> simulated_events_info n emin emax impact index vmin vmax = Ok (mkSim n emin emax impact index vmin vmax)) /\
  (-1 < index -> simulated_events_info n emin emax impact index vmin vmax = Err ValueError).
Proof. exact c33. Qed.
Print Assumptions C33_constructor.
(** index -1 is accepted but its spectrum cannot be normalised: every bin in the simulated range is NaN *)
Theorem C33_normalisable_refuted : forall n emin emax impact vmin vmax lo hi,
  0 < emin -> emin <= lo -> lo < hi -> hi <= emax ->
  exists s, simulated_events_info n emin emax impact (-1) vmin vmax = Ok s /\
    calculate_n_showers_per_energy s [Fin lo; Fin hi] = [NaN].
Proof. exact c33_minus_one. Qed.
Print Assumptions C33_normalisable_refuted.

Example C30_example : let s := mkSim 1000 1 100 800 (-2) 0 (PI / 18) in
  covers [Fin 0; Fin 1; Fin 10; Fin 1000] (energy_min s) (energy_max s) /\
  (forall k lo hi, nth_error [Fin 0; Fin 1; Fin 10; Fin 1000] k = Some lo -> nth_error [Fin 0; Fin 1; Fin 10; Fin 1000] (S k) = Some hi ->
     energy_bin lo hi /\ ~ overhangs (energy_min s) (energy_max s) lo hi) /\
  overhangs (energy_min s) (energy_max s) (Fin 0) (Fin 1000).
Proof.
  cbn [energy_min energy_max]. split; [|split].
  - split; eexists; (split; [reflexivity|]); cbn [nle]; apply Rleb_true; lra.
  - intros k lo hi Ha Hb.
    assert (C : (lo, hi) = (Fin 0, Fin 1) \/ (lo, hi) = (Fin 1, Fin 10) \/ (lo, hi) = (Fin 10, Fin 1000)).
    { destruct k as [|[|[|[|[|k]]]]]; cbn in Ha, Hb; try discriminate; injection Ha as <-; injection Hb as <-; tauto. }
    unfold energy_bin, overhangs. destruct C as [C|[C|C]]; injection C as -> ->; cbn [nle nlt]; rewrite !Rltb_true, !Rleb_true; lra.
  - split; cbn [nlt]; apply Rltb_true; lra.
Qed.
