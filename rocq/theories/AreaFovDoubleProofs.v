(** * AreaFovDoubleProofs: effective areas in energy and field of view in double precision *)
From Coq Require Import Reals List Bool ZArith String Lia Lra Psatz.
From Flocq Require Import Core.
From Verif Require Import Num Numpy Lists Table Binning SpecBinning HistProofs Simulations Tensor TensorProofs SpecIRF IRF IRFProofs IRFProofs3 IRFProofs4 Double SpecDouble DoubleProofs NearProofs WeightsDoubleProofs
  ShowersDouble SpecShowers ShowersDoubleProofs SpecEventWeights EventWeightsDoubleProofs AreaDouble SpecArea AreaDoubleProofs AreaFovDouble.
Import ListNotations.
Notation length := List.length.
Open Scope R_scope.
Notation u := eps53.

Section Quotient.
Variables (t r : R).
Hypotheses (TU : u <= t) (T6 : t <= / 10 ^ 6) (Imp : usual r).
Lemma impact_apx : exists A, fmul (fl PI) (fmul (Fin r) (Fin r)) = Fin A /\ apx t (53 / 10) 13 A (PI * (r * r)).
Proof.
  destruct (pi_apx t TU T6) as (q & Fq & Aq).
  destruct (apx_mul t TU T6 0 0 (21 / 10) 6 6 _ _ _ _ (apx_exact t _ _ (usual_mag _ Imp)) (apx_exact t _ _ (usual_mag _ Imp))) as (r2 & Fr & Ar); try lra; try lia.
  destruct (apx_mul t TU T6 (11 / 10) (21 / 10) (53 / 10) 1 12 _ _ _ _ Aq Ar) as (A & FA & AA); try lra; try lia.
  exists A. rewrite Fq, Fr. auto.
Qed.
Lemma apx_positive a n y x : apx t a n y x -> 0 < x -> 0 <= a <= 100 -> 0 < y.
Proof.
  intros [_ H] X A. rewrite (Rabs_pos_eq x) in H by lra. destruct u_bounds as [U0 _]. pose proof T6 as T6'.
  assert (/ 10 ^ 6 <= / 10 ^ 3) by (apply ten_inv; lia). replace (/ 10 ^ 3) with (/ 1000) in * by (f_equal; ring).
  assert (a * t <= 100 * / 1000) by (apply Rmult_le_compat; lra). assert (a * t * x <= / 10 * x) by (apply Rmult_le_compat_r; lra).
  apply Rabs_le_inv in H. lra.
Qed.
Lemma area_positive A : fmul (fl PI) (fmul (Fin r) (Fin r)) = Fin A -> 0 < A.
Proof.
  intros E. destruct impact_apx as (B & E' & H). rewrite E in E'. injection E' as <-. apply (apx_positive _ _ _ _ H); [|lra].
  pose proof PI_RGT_0. pose proof (usual_pos _ Imp). apply Rmult_lt_0_compat; auto. apply Rmult_lt_0_compat; auto.
Qed.
Lemma area_quotient m v x : (Z.of_nat m < 2 ^ 53)%Z -> apx t 25 16 v x -> 0 < x ->
  exists a, fmul (fdiv (Fin (INR m)) (Fin v)) (fmul (fl PI) (fmul (Fin r) (Fin r))) = Fin a /\ Rabs (a - INR m / x * (PI * r ^ 2)) <= 36 * t * (INR m / x * (PI * r ^ 2)).
Proof.
  intros Lm Av X. destruct impact_apx as (A & FA & AA). rewrite FA. replace (r ^ 2) with (r * r) by ring. destruct (Nat.eq_dec m 0) as [->|M0].
  - cbn [INR]. assert (0 < v) by (apply (apx_positive _ _ _ _ Av); lra).
    rewrite fdiv_zero by lra. rewrite fmul_zero'. exists 0. split; auto. unfold Rdiv. rewrite !Rmult_0_l, Rminus_0_r, Rabs_R0, Rmult_0_r. lra.
  - assert (M1 : 1 <= INR m) by (rewrite INR_IZR_INZ; apply IZR_le; lia). assert (M2 : INR m <= 9007199254740992) by (rewrite INR_IZR_INZ; apply IZR_le; lia).
    assert (Mm : mag 16 (INR m)).
    { apply mag_pos. split; [|lra]. assert (/ 10 ^ 16 <= / 10 ^ 0) by (apply ten_inv; lia). cbn in *. lra. }
    destruct (apx_div t TU T6 0 25 (273 / 10) 16 16 _ _ _ _ (apx_exact t _ _ Mm) Av) as (q & Fq & Aq); try lra; try lia.
    destruct (apx_mul t TU T6 (273 / 10) (53 / 10) 36 32 13 _ _ _ _ Aq AA) as (a & Fa & [_ Ka]); try lra; try lia.
    rewrite Fq, Fa. exists a. split; auto. eapply Rle_trans; [exact Ka|].
    rewrite Rabs_pos_eq; [right; reflexivity|]. apply Rmult_le_pos; [apply Rmult_le_pos; [lra|left; apply Rinv_0_lt_compat; lra]|].
    pose proof PI_RGT_0. pose proof (usual_pos _ Imp). apply Rmult_le_pos; [lra|]. apply Rmult_le_pos; lra.
Qed.
End Quotient.
Lemma area_of_zero r m : usual r -> fmul (fdiv (Fin (INR m)) (Fin 0)) (fmul (fl PI) (fmul (Fin r) (Fin r))) = if Nat.eqb m 0 then NaN else PInf.
Proof.
  intros Imp. destruct u_bounds as [U0 U1]. assert (U6 : u <= / 10 ^ 6) by (eapply Rle_trans; [exact U1|apply ten_inv; lia]).
  destruct (impact_apx u r (Rle_refl _) U6 Imp) as (A & FA & _). pose proof (area_positive u r (Rle_refl _) U6 Imp A FA) as Ap. rewrite FA.
  unfold fdiv. cbn [ndiv]. destruct (Reqb_spec 0 0); [|congruence]. destruct (Nat.eqb_spec m 0) as [->|M0].
  - cbn [INR]. destruct (Reqb_spec 0 0); [|congruence]. reflexivity.
  - assert (Mp : 0 < INR m) by (apply lt_0_INR; lia). destruct (Reqb_spec (INR m) 0); [lra|]. destruct (Rltb_spec 0 (INR m)); [|lra].
    unfold fmul. cbn [fl_num nmul]. unfold inf_signed. destruct (Reqb_spec A 0); [lra|]. destruct (Rltb_spec 0 A); [reflexivity|lra].
Qed.
(** all rows of the number of showers are as long as the field of view has bins *)
Lemma showers_shape pow cosine s ebins fbins ns : accurate_cos cosine -> usable_cone s -> calculate_n_showers_per_energy_and_fov_double pow cosine s ebins fbins = Ok ns ->
  length ns = (length ebins - 1)%nat /\ forall row, In row ns -> length row = (length fbins - 1)%nat.
Proof.
  intros HC UC. destruct (c95_fov cosine s fbins HC UC) as (fs & Ef & Lf & _). unfold calculate_n_showers_per_energy_and_fov_double. cbv zeta. rewrite Ef. cbn [rbind].
  intros H. injection H as <-. rewrite map_length. unfold calculate_n_showers_per_energy_double at 1. rewrite adj_length. split; auto.
  intros row Hr. apply in_map_iff in Hr. destruct Hr as (e & <- & _). now rewrite map_length.
Qed.
(** bins outside the simulated range have no showers *)
Lemma showers_outside pow cosine s ebins fbins ns k j lo hi flo fhi : accurate_power pow -> accurate_cos cosine -> usable_simulation s -> usable_cone s ->
  / 10 ^ 8 <= contrast (spectral_index s) (energy_min s) (energy_max s) ->
  calculate_n_showers_per_energy_and_fov_double pow cosine s ebins fbins = Ok ns ->
  nth_error ebins k = Some (Fin lo) -> nth_error ebins (S k) = Some (Fin hi) -> tev lo -> tev hi -> lo < hi ->
  nth_error fbins j = Some flo -> nth_error fbins (S j) = Some fhi -> double flo -> double fhi -> flo < fhi ->
  (hi <= energy_min s \/ energy_max s <= lo) \/ overlaps s lo hi /\ (fhi < viewcone_min s \/ viewcone_max s < flo) ->
  exists row, nth_error ns k = Some row /\ nth_error row j = Some (Fin 0).
Proof.
  intros HP HC US UC Con E H1 H2 Tl Th L F1 F2 Dl Dh Lf O. destruct (c95_fov cosine s fbins HC UC) as (fs & Ef & _ & Hf).
  unfold calculate_n_showers_per_energy_and_fov_double in E. cbv zeta in E. rewrite Ef in E. cbn [rbind] in E. injection E as <-.
  destruct (c95_energy pow s ebins k lo hi HP US Con H1 H2 Tl Th L) as [He0 He]. destruct (Hf j flo fhi F1 F2 Dl Dh Lf) as [Hf0 Hf1].
  assert (N0 : IZR (n_showers s) <> 0). { destruct US as (_ & _ & _ & _ & _ & Nn). assert (1 <= IZR (n_showers s)) by (apply IZR_le; lia). lra. }
  assert (Fj : exists b, nth_error fs j = Some (Fin b)).
  { destruct (Rlt_le_dec fhi (viewcone_min s)); [eauto|]. destruct (Rlt_le_dec (viewcone_max s) flo); [eauto|]. destruct Hf1 as (b & Hb & _); eauto. }
  destruct O as [O|[(O1 & O2 & O3) O]].
  - destruct Fj as (b & Hb). eexists. split; [rewrite nth_error_map, (He0 O); reflexivity|]. rewrite nth_error_map, Hb. cbn [option_map]. unfold nz. now rewrite fmul_zero', fdiv_zero.
  - destruct (He O1 O2 O3) as (a & Ea & _). eexists. split; [rewrite nth_error_map, Ea; reflexivity|]. rewrite nth_error_map, (Hf0 O). cbn [option_map]. unfold nz. now rewrite fmul_zero, fdiv_zero.
Qed.
Theorem c98_area pow cosine s events ebins fbins frad : accurate_power pow -> accurate_cos cosine -> usable_simulation s -> usable_cone s -> usual (max_impact s) ->
  / 10 ^ 8 <= contrast (spectral_index s) (energy_min s) (energy_max s) -> nondecreasing ebins -> (2 <= length ebins)%nat -> increasing fbins -> (2 <= length fbins)%nat ->
  length frad = length fbins -> (Z.of_nat (length events) < 2 ^ 53)%Z ->
  exists areas, effective_area_per_energy_and_fov_double pow cosine events s ebins fbins frad = Ok areas /\ shape areas = [(length ebins - 1)%nat; (length fbins - 1)%nat] /\
  forall k j lo hi flo fhi m, nth_error ebins k = Some (Fin lo) -> nth_error ebins (S k) = Some (Fin hi) -> tev lo -> tev hi -> lo < hi ->
    nth_error frad j = Some flo -> nth_error frad (S j) = Some fhi -> double flo -> double fhi -> flo < fhi ->
    number_of (fun e => in_hist_bin ebins k (true_energy e) /\ in_hist_bin (map Fin fbins) j (true_fov_offset e)) events m ->
    let area := INR m / (IZR (n_showers s) * (bin_share s lo hi * cone_part s flo fhi)) * (PI * max_impact s ^ 2) in
    (overlaps s lo hi -> viewcone_min s <= fhi -> flo <= viewcone_max s -> / 10 ^ 8 <= fov_digits s lo hi flo fhi ->
      exists a, at_ areas [k; j] = Fin a /\ Rabs (a - area) <= 36 * eps53 / fov_digits s lo hi flo fhi * area) /\
    ((hi <= energy_min s \/ energy_max s <= lo) \/ overlaps s lo hi /\ (fhi < viewcone_min s \/ viewcone_max s < flo) ->
      at_ areas [k; j] = if Nat.eqb m 0 then NaN else PInf).
Proof.
  intros HP HC US UC Imp Con Ne Le Nf Lf Lr Ev. destruct (c97_showers pow cosine s ebins frad HP HC US UC Con) as (ns & En & Hn).
  destruct (showers_shape _ _ _ _ _ _ HC UC En) as [L1 L2].
  assert (Nf' := inc_nondec fbins Nf). assert (Lf' : (2 <= length (map Fin fbins))%nat) by (rewrite map_length; auto).
  unfold effective_area_per_energy_and_fov_double. cbv zeta. rewrite En. cbn [rbind].
  change [(true_energy, ebins); (true_fov_offset, map Fin fbins)] with (dims2 true_energy true_fov_offset ebins (map Fin fbins)).
  rewrite hist2 by auto. cbn [rbind]. rewrite map_length.
  assert (Hd : length (hd [] ns) = (length fbins - 1)%nat) by (rewrite <- Lr; apply L2, hd_in; intros Z; rewrite Z in L1; cbn in L1; lia).
  match goal with |- context[tbin fdiv ?a ?b] => destruct (tbin_same fdiv a b) as (o & -> & So & Ho) end.
  { cbn [shape of_lists2]. rewrite L1, Hd. auto. }
  cbn [rbind]. eexists. split; [reflexivity|]. split; [exact So|].
  intros k j lo hi flo fhi m H1 H2 Tl Th L F1 F2 Dl Dh Lfh Hm. cbv zeta.
  pose proof (nth_some_lt _ _ _ H2) as K1. pose proof (nth_some_lt _ _ _ F2) as K2. rewrite Lr in K2.
  destruct (weight_number_C2 true_energy true_fov_offset ebins (map Fin fbins) events k j) as (m' & Hm' & Em); auto; [lia|rewrite map_length; lia|].
  assert (m' = m) as -> by (eapply number_of_unique; eauto). assert (Lm : (Z.of_nat m < 2 ^ 53)%Z) by (pose proof (number_of_length _ _ _ Hm); lia).
  assert (EQ : forall row v, nth_error ns k = Some row -> nth_error row j = Some (Fin v) -> at_ o [k; j] = fdiv (Fin (INR m)) (Fin v)).
  { intros row v R1 R2. rewrite Ho by (cbn [shape]; repeat constructor; lia). cbn [at_ of_lists2].
    fold (C2 true_energy true_fov_offset ebins (map Fin fbins) unweighted events k j). rewrite Em, (nth_of _ _ _ _ R1), (nth_of _ _ _ _ R2). reflexivity. }
  cbn [at_ tmap]. split.
  - intros Ov V1 V2 Dg. destruct (Hn k j lo hi flo fhi H1 H2 Tl Th L F1 F2 Dl Dh Lfh Ov V1 V2) as (row & v & R1 & R2 & Kv). rewrite (EQ _ _ R1 R2).
    pose proof (bin_share_bounds s lo hi US L Ov) as B1. pose proof (cone_part_bounds s flo fhi UC Lfh V1 V2) as B2.
    pose proof (contrast_le_1 (spectral_index s) (energy_min s) (energy_max s)) as C1. unfold fov_digits in *.
    destruct US as (_ & _ & _ & _ & _ & Nn). destruct UC as (_ & _ & _ & _ & HD & _).
    set (c := contrast (spectral_index s) (energy_min s) (energy_max s)) in *. set (d := cos (viewcone_min s) - cos (viewcone_max s)) in *.
    pose proof (ten_inv_pos 8) as I8. destruct u_bounds as [U0 U1]. assert (N1 : 1 <= IZR (n_showers s)) by (apply IZR_le; lia).
    assert (N2 : IZR (n_showers s) <= 9007199254740992) by (apply IZR_le; lia). set (N := IZR (n_showers s)) in *.
    set (x := bin_share s lo hi * cone_part s flo fhi) in *. set (l := / c + / d) in *.
    assert (Ic : 1 <= / c) by (rewrite <- Rinv_1; apply Rinv_le_contravar; lra). assert (Idd : 0 < / d) by (apply Rinv_0_lt_compat; lra).
    assert (l1 : 1 <= l) by (unfold l; lra).
    assert (X1 : x <= 1) by (unfold x; rewrite <- (Rmult_1_r 1); apply Rmult_le_compat; lra).
    assert (Xl : x = x / l * l) by (field; lra).
    assert (X8 : / 10 ^ 8 <= x). { rewrite Xl. rewrite <- (Rmult_1_r (/ 10 ^ 8)). apply Rmult_le_compat; lra. }
    assert (G1 : x / l <= 1). { apply Rmult_le_reg_r with l; [lra|]. rewrite <- Xl. lra. }
    set (g := x / l) in *. destruct (u_contrast g Dg) as [T6 _].
    assert (Id : 1 <= / g) by (rewrite <- Rinv_1; apply Rinv_le_contravar; lra).
    assert (TU : u <= u / g) by (unfold Rdiv; rewrite <- (Rmult_1_r u) at 1; apply Rmult_le_compat_l; lra).
    assert (T6' : u / g <= / 10 ^ 6) by (replace (62 / 10 * u / g) with (62 / 10 * (u / g)) in T6 by (unfold Rdiv; ring); lra).
    assert (Big : 9007199254740992 <= 10 ^ 16) by lra. assert (NS : 0 < N * x) by (apply Rmult_lt_0_compat; lra).
    assert (Av : apx (u / g) 25 16 v (N * x)).
    { split.
      - apply mag_pos. split.
        + apply Rle_trans with (/ 10 ^ 8); [apply ten_inv; lia|]. rewrite <- (Rmult_1_l (/ 10 ^ 8)). apply Rmult_le_compat; lra.
        + apply Rle_trans with (N * 1); [apply Rmult_le_compat_l; lra|lra].
      - eapply Rle_trans; [exact Kv|]. rewrite (Rabs_pos_eq (N * x)) by lra. right. fold l. unfold g. field. split; lra. }
    destruct (area_quotient (u / g) (max_impact s) TU T6' Imp m v (N * x) Lm Av NS) as (a & Fa & Ka). exists a. split; auto.
    replace (36 * u / g) with (36 * (u / g)) by (unfold Rdiv; ring). exact Ka.
  - intros O. destruct (showers_outside pow cosine s ebins frad ns k j lo hi flo fhi) as (row & R1 & R2); auto. rewrite (EQ _ _ R1 R2). apply area_of_zero; auto.
Qed.
