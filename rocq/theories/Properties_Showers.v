(** * C95: expected numbers of simulated showers in double precision *)
From Coq Require Import Reals List Bool ZArith Lia Lra.
From Verif Require PSFDoubleProofs.
From Verif Require Import Num Numpy Binning Simulations SpecDouble ShowersDouble SpecShowers WeightsDoubleProofs ShowersDoubleProofs.
Import ListNotations.
Open Scope R_scope.

(** bins outside the simulated range get exactly 0, all others their share of the showers up to rounding *)
Theorem C95_energy pow s bins k lo hi : accurate_power pow -> usable_simulation s -> / 10 ^ 8 <= contrast (spectral_index s) (energy_min s) (energy_max s) ->
  nth_error bins k = Some (Fin lo) -> nth_error bins (S k) = Some (Fin hi) -> tev lo -> tev hi -> lo < hi ->
  (hi <= energy_min s \/ energy_max s <= lo -> nth_error (calculate_n_showers_per_energy_double pow s bins) k = Some (Fin 0)) /\
  (energy_min s < hi -> lo < energy_max s -> ~ (lo < energy_min s /\ energy_max s < hi) ->
    exists v, nth_error (calculate_n_showers_per_energy_double pow s bins) k = Some (Fin v) /\
      Rabs (v - IZR (n_showers s) * spectrum_share (spectral_index s) (energy_min s) (energy_max s) (Rmax lo (energy_min s)) (Rmin hi (energy_max s)))
      <= 20 * eps53 * IZR (n_showers s) / contrast (spectral_index s) (energy_min s) (energy_max s)).
Proof. exact (c95_energy pow s bins k lo hi). Qed.
Print Assumptions C95_energy.

Theorem C95_fov cosine s bins : accurate_cos cosine -> usable_cone s ->
  exists ns, calculate_n_showers_per_fov_double cosine s bins = Ok ns /\ List.length ns = (List.length bins - 1)%nat /\
  forall k lo hi, nth_error bins k = Some lo -> nth_error bins (S k) = Some hi -> double lo -> double hi -> lo < hi ->
    (hi < viewcone_min s \/ viewcone_max s < lo -> nth_error ns k = Some (Fin 0)) /\
    (viewcone_min s <= hi -> lo <= viewcone_max s -> exists v, nth_error ns k = Some (Fin v) /\
      Rabs (v - IZR (n_showers s) * cone_share (viewcone_min s) (viewcone_max s) (Rmax lo (viewcone_min s)) (Rmin hi (viewcone_max s)))
      <= 20 * eps53 * IZR (n_showers s) / (cos (viewcone_min s) - cos (viewcone_max s))).
Proof. exact (c95_fov cosine s bins). Qed.
Print Assumptions C95_fov.

(** a bin with the whole simulated range does not get exactly all showers *)
Theorem C95_complete_refuted : exists pow s, accurate_power pow /\ usable_simulation s /\
  / 10 ^ 8 <= contrast (spectral_index s) (energy_min s) (energy_max s) /\
  n_showers s = 1%Z /\ calculate_n_showers_per_energy_double pow s [Fin (energy_min s); Fin (energy_max s)] = [Fin (1 - / 2 ^ 53)].
Proof. exact c95_complete_refuted. Qed.
Print Assumptions C95_complete_refuted.

(** an index next to -1 is accepted, but the number of showers is NaN *)
Theorem C95_flat_refuted : exists pow s, accurate_power pow /\ usable_simulation s /\
  calculate_n_showers_per_energy_double pow s [Fin (energy_min s); Fin (energy_max s)] = [NaN].
Proof. exact c95_flat_refuted. Qed.
Print Assumptions C95_flat_refuted.

Example C95_energy_example : accurate_power rounded_power /\ usable_simulation s20 /\
  / 10 ^ 8 <= contrast (spectral_index s20) (energy_min s20) (energy_max s20) /\
  nth_error [Fin 1; Fin 2; Fin 20] 1 = Some (Fin 2) /\ nth_error [Fin 1; Fin 2; Fin 20] 2 = Some (Fin 20) /\ tev 2 /\ tev 20 /\
  energy_min s20 < 20 /\ 2 < energy_max s20 /\ ~ (2 < energy_min s20 /\ energy_max s20 < 20) /\
  spectrum_share (-2) 1 20 2 20 = 9 / 19.
Proof.
  split; [apply rounded_power_accurate|]. split; [apply usable_20|]. cbn [s20 energy_min energy_max spectral_index].
  split; [rewrite contrast_20; apply Rle_trans with (/ 10 ^ 1); [apply ten_inv; lia|lra]|]. split; [reflexivity|]. split; [reflexivity|].
  split; [apply tev_small; [apply (double_int 2); lia|lra]|]. split; [apply tev_small; [apply (double_int 20); lia|lra]|]. repeat (split; [lra|]).
  unfold spectrum_share. replace (-2 + 1) with (- (1)) by lra. rewrite !Rpower_Ropp, !Rpower_1 by lra. lra.
Qed.
Example C95_fov_example : accurate_cos PSFDoubleProofs.rounded_cos /\ usable_cone s_cone /\ double (/ 4) /\ double (1 / 2) /\ viewcone_min s_cone <= / 4 /\ 1 / 2 <= viewcone_max s_cone.
Proof.
  split; [exact PSFDoubleProofs.rounded_cos_accurate|]. split; [apply usable_cone_example|]. split; [replace (/ 4) with (IZR 1 / IZR (2 ^ 2)) by (cbn; lra); apply double_q; cbn; lia|].
  split; [replace (1 / 2) with (IZR 1 / IZR (2 ^ 1)) by (cbn; lra); apply double_q; cbn; lia|]. cbn. lra.
Qed.
