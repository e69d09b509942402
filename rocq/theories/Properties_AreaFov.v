(** * C98: effective areas in energy and field of view in double precision *)
From Coq Require Import Reals List Bool ZArith String Lia Lra.
From Verif Require PSFDoubleProofs.
From Verif Require Import Num Numpy Lists Table Binning SpecBinning HistProofs Simulations Tensor SpecIRF IRF SpecDouble SpecShowers WeightsDoubleProofs ShowersDoubleProofs SpecEventWeights EventWeightsDoubleProofs
  SpecArea AreaFovDouble AreaFovDoubleProofs Properties_Area.
Import ListNotations.
Notation length := List.length.
Open Scope R_scope.

Theorem C98_area pow cosine s events ebins fbins frad : accurate_power pow -> accurate_cos cosine -> usable_simulation s -> usable_cone s -> usual (max_impact s) ->
  / 10 ^ 8 <= contrast (spectral_index s) (energy_min s) (energy_max s) -> nondecreasing ebins -> (2 <= length ebins)%nat -> increasing fbins -> (2 <= length fbins)%nat ->
  length frad = length fbins -> (Z.of_nat (length events) < 2 ^ 53)%Z ->
  exists areas, effective_area_per_energy_and_fov_double pow cosine events s ebins fbins frad = Ok areas /\ shape areas = [(length ebins - 1)%nat; (length fbins - 1)%nat] /\
  forall k j lo hi flo fhi m, nth_error ebins k = Some (Fin lo) -> nth_error ebins (S k) = Some (Fin hi) -> tev lo -> tev hi -> lo < hi ->
    nth_error frad j = Some flo -> nth_error frad (S j) = Some fhi -> double flo -> double fhi -> flo < fhi ->
    number_of (fun e => in_hist_bin ebins k (true_energy e) /\ in_hist_bin (map Fin fbins) j (true_fov_offset e)) events m ->
    let area := INR m / (IZR (n_showers s) * (bin_share s lo hi * cone_part s flo fhi)) * (PI * max_impact s ^ 2) in
    (overlaps s lo hi -> viewcone_min s <= fhi -> flo <= viewcone_max s -> / 10 ^ 8 <= fov_digits s lo hi flo fhi ->
      exists a, at_ areas [k; j] = Fin a /\ Rabs (a - area) <= 36 * eps53 / fov_digits s lo hi flo fhi * area) /\
    ((hi <= energy_min s \/ energy_max s <= lo) \/ overlaps s lo hi /\ (fhi < viewcone_min s \/ viewcone_max s < flo) ->
      at_ areas [k; j] = if Nat.eqb m 0 then NaN else PInf).
Proof. exact (c98_area pow cosine s events ebins fbins frad). Qed.
Print Assumptions C98_area.

(** all directions and 9/19 of a spectrum from 1 TeV to 20 TeV; no directions *)
Example C98_example : accurate_power rounded_power /\ accurate_cos PSFDoubleProofs.rounded_cos /\ usable_simulation s_diffuse /\ usable_cone s_diffuse /\ usual (max_impact s_diffuse) /\
  / 10 ^ 8 <= contrast (spectral_index s_diffuse) (energy_min s_diffuse) (energy_max s_diffuse) /\ nondecreasing [Fin 2; Fin 20; Fin 40] /\
  increasing [0; 58; 116; 172] /\ tev 2 /\ tev 20 /\ overlaps s_diffuse 2 20 /\ double 0 /\ double 1 /\ double 2 /\ double 3 /\
  bin_share s_diffuse 2 20 = 9 / 19 /\ cone_part s_diffuse 0 1 = 1 /\ / 10 ^ 8 <= fov_digits s_diffuse 2 20 0 1 /\ viewcone_max s_diffuse < 2.
Proof.
  destruct C97_example as (E1 & E2 & E3 & E4 & E5 & E6 & E7 & E8 & E9 & _ & E11 & E12 & _).
  assert (Q : / 5 <= 1 - cos 1).
  { pose proof PI2_1. pose proof PI_4. assert (C : cos 1 <= cos (PI / 4)) by (apply cos_decreases; lra). rewrite cos_PI4 in C.
    assert (5 / 4 <= sqrt 2) by (rewrite <- (sqrt_Rsqr (5 / 4)) by lra; apply sqrt_le_1; unfold Rsqr; lra).
    assert (1 / sqrt 2 <= 4 / 5). { apply Rmult_le_reg_r with (sqrt 2); [lra|]. unfold Rdiv. rewrite Rmult_1_l, Rinv_l by lra. lra. } lra. }
  assert (P : cone_part s_diffuse 0 1 = 1).
  { unfold cone_part, cone_share, s_diffuse. cbn [viewcone_min viewcone_max]. rewrite Rmax_left, Rmin_left by lra. rewrite cos_0. field. lra. }
  repeat (split; [first [assumption|apply d_zero|apply d_one|apply (double_int 2); lia|apply (double_int 3); lia|idtac]|]).
  - intros i a b Ha Hb. destruct i as [|[|[|[|i]]]]; cbn in Ha, Hb; try discriminate; inversion Ha; inversion Hb; lra.
  - unfold fov_digits. rewrite E12, P. cbn [spectral_index energy_min energy_max viewcone_min viewcone_max s_diffuse]. rewrite contrast_20, cos_0.
    assert (J : / (1 - cos 1) <= 5) by (rewrite <- (Rinv_inv 5); apply Rinv_le_contravar; lra). assert (J0 : 0 < / (1 - cos 1)) by (apply Rinv_0_lt_compat; lra).
    assert (K : / 7 <= / (/ (19 / 20) + / (1 - cos 1))) by (apply Rinv_le_contravar; lra).
    assert (/ 10 ^ 8 <= / 10 ^ 2) by (apply ten_inv; lia). replace (/ 10 ^ 2) with (/ 100) in * by (f_equal; ring).
    apply Rle_trans with (9 / 19 * 1 * / 7); [lra|]. apply Rmult_le_compat_l; lra.
  - cbn. lra.
Qed.
