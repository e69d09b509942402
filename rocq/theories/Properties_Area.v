(** * C97: numbers of showers in energy and field of view, and effective areas from event lists, in double precision *)
From Coq Require Import Reals List Bool ZArith String Lia Lra.
From Verif Require PSFDoubleProofs.
From Verif Require Import Num Numpy Lists Table Binning SpecBinning HistProofs Simulations SpecDouble SpecShowers WeightsDoubleProofs ShowersDoubleProofs SpecEventWeights EventWeightsDoubleProofs
  AreaDouble SpecArea AreaDoubleProofs.
Import ListNotations.
Notation length := List.length.
Open Scope R_scope.

(** the expected number of showers in a bin of energy and field of view *)
Theorem C97_showers pow cosine s ebins fbins : accurate_power pow -> accurate_cos cosine -> usable_simulation s -> usable_cone s ->
  / 10 ^ 8 <= contrast (spectral_index s) (energy_min s) (energy_max s) ->
  exists ns, calculate_n_showers_per_energy_and_fov_double pow cosine s ebins fbins = Ok ns /\
  forall k j lo hi flo fhi, nth_error ebins k = Some (Fin lo) -> nth_error ebins (S k) = Some (Fin hi) -> tev lo -> tev hi -> lo < hi ->
    nth_error fbins j = Some flo -> nth_error fbins (S j) = Some fhi -> double flo -> double fhi -> flo < fhi ->
    overlaps s lo hi -> viewcone_min s <= fhi -> flo <= viewcone_max s ->
    exists row v, nth_error ns k = Some row /\ nth_error row j = Some (Fin v) /\
      Rabs (v - IZR (n_showers s) * (bin_share s lo hi * cone_part s flo fhi)) <=
      25 * eps53 * IZR (n_showers s) * (/ contrast (spectral_index s) (energy_min s) (energy_max s) + / (cos (viewcone_min s) - cos (viewcone_max s))).
Proof. exact (c97_showers pow cosine s ebins fbins). Qed.
Print Assumptions C97_showers.

(** the effective area of an energy bin *)
Theorem C97_area pow s events bins : accurate_power pow -> usable_simulation s -> usual (max_impact s) ->
  / 10 ^ 8 <= contrast (spectral_index s) (energy_min s) (energy_max s) -> nondecreasing bins -> (2 <= length bins)%nat -> (Z.of_nat (length (et_rows events)) < 2 ^ 53)%Z ->
  exists areas, effective_area_per_energy_double pow events s bins = Ok areas /\ length areas = (length bins - 1)%nat /\
  forall k lo hi m, nth_error bins k = Some (Fin lo) -> nth_error bins (S k) = Some (Fin hi) -> tev lo -> tev hi -> lo < hi ->
    number_of (fun e => in_hist_bin bins k (ev_x e)) (et_rows events) m ->
    (overlaps s lo hi -> / 10 ^ 8 <= digits s lo hi -> exists a, nth_error areas k = Some (Fin a) /\
      Rabs (a - INR m / (IZR (n_showers s) * bin_share s lo hi) * (PI * max_impact s ^ 2)) <=
      32 * eps53 / digits s lo hi * (INR m / (IZR (n_showers s) * bin_share s lo hi) * (PI * max_impact s ^ 2))) /\
    (hi <= energy_min s \/ energy_max s <= lo -> nth_error areas k = Some (if Nat.eqb m 0 then NaN else PInf)).
Proof. exact (c97_area pow s events bins). Qed.
Print Assumptions C97_area.

(** a bin that holds 9/19 of a spectrum from 1 TeV to 20 TeV, and a bin above it *)
Example C97_example : accurate_power rounded_power /\ accurate_cos PSFDoubleProofs.rounded_cos /\ usable_simulation s_diffuse /\ usable_cone s_diffuse /\ usual (max_impact s_diffuse) /\
  / 10 ^ 8 <= contrast (spectral_index s_diffuse) (energy_min s_diffuse) (energy_max s_diffuse) /\ nondecreasing [Fin 2; Fin 20; Fin 40] /\
  tev 2 /\ tev 20 /\ tev 40 /\ overlaps s_diffuse 2 20 /\ bin_share s_diffuse 2 20 = 9 / 19 /\ / 10 ^ 8 <= digits s_diffuse 2 20 /\ energy_max s_diffuse <= 20.
Proof.
  assert (C : / 10 ^ 8 <= 9 / 20) by (apply Rle_trans with (/ 10 ^ 1); [apply ten_inv; lia|lra]).
  assert (T : forall n, (1 <= n <= 40)%Z -> tev (IZR n)).
  { intros n H. split; [apply (double_int n); lia|]. assert (1 <= IZR n <= 40) by (split; apply IZR_le; lia). assert (/ 10 ^ 10 <= / 10 ^ 1) by (apply ten_inv; lia). lra. }
  assert (B : bin_share s_diffuse 2 20 = 9 / 19).
  { unfold bin_share, spectrum_share, s_diffuse. cbn [spectral_index energy_min energy_max]. rewrite Rmax_left, Rmin_left by lra.
    replace (-2 + 1) with (- (1)) by lra. rewrite !Rpower_Ropp, !Rpower_1 by lra. lra. }
  split; [apply rounded_power_accurate|]. split; [apply PSFDoubleProofs.rounded_cos_accurate|]. split.
  { unfold usable_simulation, s_diffuse. cbn [energy_min energy_max spectral_index n_showers]. split; [apply (T 1%Z); lia|]. split; [apply (T 20%Z); lia|].
    split; [lra|]. split; [apply (double_int (-2)); lia|]. split; [lra|lia]. }
  split; [exact usable_cone_example|]. split; [apply (sized_int 6 1000); [lia|lra]|]. split; [cbn [spectral_index energy_min energy_max s_diffuse]; rewrite contrast_20; lra|].
  split.
  { split; [intros e [<-|[<-|[<-|[]]]]; reflexivity|]. intros i a b Ha Hb. destruct i as [|[|[|i]]]; cbn in Ha, Hb; try discriminate; inversion Ha; inversion Hb; subst; cbn.
    - destruct (Rleb_spec 2 20); auto; lra.
    - destruct (Rleb_spec 20 40); auto; lra. }
  split; [apply (T 2%Z); lia|]. split; [apply (T 20%Z); lia|]. split; [apply (T 40%Z); lia|].
  split; [unfold overlaps, s_diffuse; cbn [energy_min energy_max]; lra|]. split; [exact B|].
  split; [unfold digits; rewrite B; cbn [spectral_index energy_min energy_max s_diffuse]; rewrite contrast_20; lra|]. cbn. lra.
Qed.
