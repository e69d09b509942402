(** * C99: showers and effective areas in energy, field of view and position angle in double precision *)
From Coq Require Import Reals List Bool ZArith String Lia Lra.
From Verif Require PSFDoubleProofs.
From Verif Require Import Num Numpy Lists Table Binning SpecBinning HistProofs SpecSimulations Simulations Tensor SpecIRF IRF SpecDouble SpecShowers WeightsDoubleProofs ShowersDoubleProofs SpecEventWeights EventWeightsDoubleProofs
  SpecArea AreaPolarDouble AreaPolarDoubleProofs Properties_Area Properties_AreaFov.
Import ListNotations.
Notation length := List.length.
Open Scope R_scope.

(** the expected numbers of showers *)
Theorem C99_showers power cosine s ebins frad pbins : accurate_power power -> accurate_cos cosine -> usable_simulation s -> usable_cone s ->
  / 10 ^ 8 <= contrast (spectral_index s) (energy_min s) (energy_max s) -> (2 <= length pbins)%nat -> (Z.of_nat (length pbins) < 2 ^ 53)%Z ->
  exists ns, calculate_n_showers_3d_polar_double power cosine s ebins frad pbins = Ok ns /\
  shape3 ns (length ebins - 1) (length frad - 1) (length pbins - 1) /\
  forall k j i lo hi flo fhi, nth_error ebins k = Some (Fin lo) -> nth_error ebins (S k) = Some (Fin hi) -> tev lo -> tev hi -> lo < hi ->
    nth_error frad j = Some flo -> nth_error frad (S j) = Some fhi -> double flo -> double fhi -> flo < fhi -> (i < length pbins - 1)%nat ->
    let n := IZR (n_showers s) * (bin_share s lo hi * cone_part s flo fhi) / INR (length pbins - 1) in
    (overlaps s lo hi -> viewcone_min s <= fhi -> flo <= viewcone_max s -> / 10 ^ 8 <= fov_digits s lo hi flo fhi ->
      exists v, entry3 ns k j i (Fin v) /\ Rabs (v - n) <= 53 * eps53 / fov_digits s lo hi flo fhi * n) /\
    ((hi <= energy_min s \/ energy_max s <= lo) \/ overlaps s lo hi /\ (fhi < viewcone_min s \/ viewcone_max s < flo) -> entry3 ns k j i (Fin 0)).
Proof. exact (c99_numbers power cosine s ebins frad pbins). Qed.
Print Assumptions C99_showers.

(** the effective areas *)
Theorem C99_area power cosine s ebins frad pbins events fbins : accurate_power power -> accurate_cos cosine -> usable_simulation s -> usable_cone s ->
  / 10 ^ 8 <= contrast (spectral_index s) (energy_min s) (energy_max s) -> (2 <= length pbins)%nat -> (Z.of_nat (length pbins) < 2 ^ 53)%Z ->
  usual (max_impact s) -> nondecreasing ebins -> (2 <= length ebins)%nat -> increasing fbins -> (2 <= length fbins)%nat -> increasing pbins ->
  length frad = length fbins -> (Z.of_nat (length events) < 2 ^ 53)%Z ->
  exists areas, effective_area_3d_polar_double power cosine events s ebins fbins frad pbins = Ok areas /\ shape areas = [(length ebins - 1)%nat; (length fbins - 1)%nat; (length pbins - 1)%nat] /\
  forall k j i lo hi flo fhi m, nth_error ebins k = Some (Fin lo) -> nth_error ebins (S k) = Some (Fin hi) -> tev lo -> tev hi -> lo < hi ->
    nth_error frad j = Some flo -> nth_error frad (S j) = Some fhi -> double flo -> double fhi -> flo < fhi -> (i < length pbins - 1)%nat ->
    number_of (fun e => in_hist_bin ebins k (true_energy e) /\ in_hist_bin (map Fin fbins) j (true_fov_offset e) /\ in_hist_bin (map Fin pbins) i (true_fov_pa e)) events m ->
    let area := INR m / (IZR (n_showers s) * (bin_share s lo hi * cone_part s flo fhi) / INR (length pbins - 1)) * (PI * max_impact s ^ 2) in
    (overlaps s lo hi -> viewcone_min s <= fhi -> flo <= viewcone_max s -> / 10 ^ 8 <= fov_digits s lo hi flo fhi ->
      exists a, at_ areas [k; j; i] = Fin a /\ Rabs (a - area) <= 64 * eps53 / fov_digits s lo hi flo fhi * area) /\
    ((hi <= energy_min s \/ energy_max s <= lo) \/ overlaps s lo hi /\ (fhi < viewcone_min s \/ viewcone_max s < flo) ->
      at_ areas [k; j; i] = if Nat.eqb m 0 then NaN else PInf).
Proof. intros HP HC US UC Con Lp Mp. exact (c99_area power cosine s ebins frad pbins HP HC US UC Con Lp Mp events fbins). Qed.
Print Assumptions C99_area.

(** four position angles *)
Example C99_example : accurate_power rounded_power /\ accurate_cos PSFDoubleProofs.rounded_cos /\ usable_simulation s_diffuse /\ usable_cone s_diffuse /\ usual (max_impact s_diffuse) /\
  / 10 ^ 8 <= contrast (spectral_index s_diffuse) (energy_min s_diffuse) (energy_max s_diffuse) /\ nondecreasing [Fin 2; Fin 20; Fin 40] /\
  increasing [0; 58; 116; 172] /\ tev 2 /\ tev 20 /\ overlaps s_diffuse 2 20 /\ double 0 /\ double 1 /\ double 2 /\ double 3 /\
  bin_share s_diffuse 2 20 = 9 / 19 /\ cone_part s_diffuse 0 1 = 1 /\ / 10 ^ 8 <= fov_digits s_diffuse 2 20 0 1 /\ viewcone_max s_diffuse < 2 /\
  increasing [0; 1; 3; 4; 6].
Proof.
  destruct C98_example as (E1 & E2 & E3 & E4 & E5 & E6 & E7 & E8 & E9 & E10 & E11 & E12 & E13 & E14 & E15 & E16 & E17 & E18 & E19).
  repeat (split; [assumption|]). intros i a b Ha Hb. destruct i as [|[|[|[|[|i]]]]]; cbn in Ha, Hb; try discriminate; inversion Ha; inversion Hb; lra.
Qed.
