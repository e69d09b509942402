(** * AreaPolarDoubleProofs: showers and effective areas in energy, field of view and position angle in double precision *)
From Coq Require Import Reals List Bool ZArith String Lia Lra Psatz.
From Flocq Require Import Core.
From Verif Require Import Num Numpy Lists Table Binning SpecBinning HistProofs SpecSimulations Simulations Tensor TensorProofs SpecIRF IRF IRFProofs IRFProofs3 IRFProofs4 Double SpecDouble DoubleProofs NearProofs WeightsDoubleProofs
  ShowersDouble SpecShowers ShowersDoubleProofs SpecEventWeights EventWeightsDoubleProofs AreaDouble SpecArea AreaDoubleProofs AreaFovDouble AreaFovDoubleProofs AreaPolarDouble.
Import ListNotations.
Notation length := List.length.
Open Scope R_scope.
Notation u := eps53.

Lemma fov_value s lo hi flo fhi v : usable_simulation s -> usable_cone s -> / 10 ^ 8 <= contrast (spectral_index s) (energy_min s) (energy_max s) ->
  lo < hi -> flo < fhi -> overlaps s lo hi -> viewcone_min s <= fhi -> flo <= viewcone_max s -> / 10 ^ 8 <= fov_digits s lo hi flo fhi ->
  Rabs (v - IZR (n_showers s) * (bin_share s lo hi * cone_part s flo fhi)) <=
      25 * u * IZR (n_showers s) * (/ contrast (spectral_index s) (energy_min s) (energy_max s) + / (cos (viewcone_min s) - cos (viewcone_max s))) ->
  let t := u / fov_digits s lo hi flo fhi in
  let x := bin_share s lo hi * cone_part s flo fhi in
  u <= t /\ t <= / 10 ^ 6 /\ apx t 25 16 v (IZR (n_showers s) * x) /\ 0 < x /\ u * / (cos (viewcone_min s) - cos (viewcone_max s)) <= t.
Proof.
  intros US UC Con L Lfh Ov V1 V2 Dg Kv. cbv zeta.
  pose proof (bin_share_bounds s lo hi US L Ov) as B1. pose proof (cone_part_bounds s flo fhi UC Lfh V1 V2) as B2.
  pose proof (contrast_le_1 (spectral_index s) (energy_min s) (energy_max s)) as C1. unfold fov_digits in *.
  destruct US as (_ & _ & _ & _ & _ & Nn). destruct UC as (_ & _ & _ & _ & HD & _).
  set (c := contrast (spectral_index s) (energy_min s) (energy_max s)) in *. set (d := cos (viewcone_min s) - cos (viewcone_max s)) in *.
  pose proof (ten_inv_pos 8) as I8. destruct u_bounds as [U0 U1]. assert (N1 : 1 <= IZR (n_showers s)) by (apply IZR_le; lia).
  assert (N2 : IZR (n_showers s) <= 9007199254740992) by (apply IZR_le; lia). set (N := IZR (n_showers s)) in *.
  set (x := bin_share s lo hi * cone_part s flo fhi) in *. set (l := / c + / d) in *.
  assert (Ic : 1 <= / c) by (rewrite <- Rinv_1; apply Rinv_le_contravar; lra). assert (Idd : 0 < / d) by (apply Rinv_0_lt_compat; lra).
  assert (l1 : 1 <= l) by (unfold l; lra).
  assert (X1 : x <= 1) by (unfold x; rewrite <- (Rmult_1_r 1); apply Rmult_le_compat; lra).
  assert (Xl : x = x / l * l) by (field; lra).
  assert (X8 : / 10 ^ 8 <= x). { rewrite Xl. rewrite <- (Rmult_1_r (/ 10 ^ 8)). apply Rmult_le_compat; lra. }
  assert (G1 : x / l <= 1). { apply Rmult_le_reg_r with l; [lra|]. rewrite <- Xl. lra. }
  assert (Gi : / (x / l) = l * / x) by (field; lra). assert (Ix : 1 <= / x) by (rewrite <- Rinv_1; apply Rinv_le_contravar; lra).
  assert (Gl : l <= / (x / l)) by (rewrite Gi; rewrite <- (Rmult_1_r l) at 1; apply Rmult_le_compat_l; lra).
  set (g := x / l) in *. destruct (u_contrast g Dg) as [T6 _].
  assert (Id : 1 <= / g) by (rewrite <- Rinv_1; apply Rinv_le_contravar; lra).
  assert (Big : 9007199254740992 <= 10 ^ 16) by lra.
  split; [unfold Rdiv; rewrite <- (Rmult_1_r u) at 1; apply Rmult_le_compat_l; lra|].
  split; [replace (62 / 10 * u / g) with (62 / 10 * (u / g)) in T6 by (unfold Rdiv; ring); lra|].
  split; [|split; [lra|unfold Rdiv; apply Rmult_le_compat_l; [lra|]; unfold l in Gl; lra]].
  assert (NS : 0 < N * x) by (apply Rmult_lt_0_compat; lra). split.
  - apply mag_pos. split.
    + apply Rle_trans with (/ 10 ^ 8); [apply ten_inv; lia|]. rewrite <- (Rmult_1_l (/ 10 ^ 8)). apply Rmult_le_compat; lra.
    + apply Rle_trans with (N * 1); [apply Rmult_le_compat_l; lra|lra].
  - eapply Rle_trans; [exact Kv|]. rewrite (Rabs_pos_eq (N * x)) by lra. right. fold l. unfold g. field. split; lra.
Qed.
Lemma whole_cone s : usable_cone s -> cone_part s (viewcone_min s) (viewcone_max s) = 1.
Proof.
  intros (_ & _ & _ & _ & HD & L & _). pose proof (ten_inv_pos 8). unfold cone_part, cone_share. rewrite Rmax_left, Rmin_left by lra. field. lra.
Qed.
(** the showers in the whole viewcone *)
Lemma whole_showers cosine s : accurate_cos cosine -> usable_cone s -> exists v, calculate_n_showers_per_fov_double cosine s [viewcone_min s; viewcone_max s] = Ok [Fin v] /\
  Rabs (v - IZR (n_showers s)) <= 20 * u * IZR (n_showers s) / (cos (viewcone_min s) - cos (viewcone_max s)).
Proof.
  intros HC UC. destruct (c95_fov cosine s [viewcone_min s; viewcone_max s] HC UC) as (fs & Ef & Lf & Hf). pose proof (whole_cone s UC) as W.
  destruct UC as (D1 & D2 & _ & _ & _ & L & _). destruct (Hf 0%nat (viewcone_min s) (viewcone_max s) eq_refl eq_refl D1 D2 L) as [_ H].
  destruct H as (v & Ev & Kv); try lra. destruct fs as [|a [|b fs]]; cbn in Lf; try discriminate. cbn in Ev. injection Ev as ->. exists v. split; auto.
  fold (cone_part s (viewcone_min s) (viewcone_max s)) in Kv. rewrite W, Rmult_1_r in Kv. auto.
Qed.
Lemma int_mag x : 1 <= x <= 9007199254740992 -> mag 16 x.
Proof. intros H. apply mag_pos. assert (/ 10 ^ 16 <= / 10 ^ 0) by (apply ten_inv; lia). assert (9007199254740992 <= 10 ^ 16) by lra. cbn [pow] in *. lra. Qed.
Section Polar.
Variables (power : num -> num -> num) (cosine : num -> num) (s : sim_info) (ebins : list num) (frad pbins : list R).
Hypotheses (HP : accurate_power power) (HC : accurate_cos cosine) (US : usable_simulation s) (UC : usable_cone s)
  (Con : / 10 ^ 8 <= contrast (spectral_index s) (energy_min s) (energy_max s)) (Lp : (2 <= length pbins)%nat) (Mp : (Z.of_nat (length pbins) < 2 ^ 53)%Z).
Let N := IZR (n_showers s).
Let P := INR (length pbins - 1).
Lemma parts_range : 1 <= P <= 9007199254740992.
Proof. unfold P. rewrite INR_IZR_INZ. split; apply IZR_le; lia. Qed.
Lemma showers_range : 1 <= N <= 9007199254740992.
Proof. destruct US as (_ & _ & _ & _ & _ & Nn). unfold N. split; apply IZR_le; lia. Qed.
Lemma int_num_pos (n : nat) : (0 < n)%nat -> nz (Z.of_nat n) = Fin (INR n) /\ INR n <> 0.
Proof. intros H. unfold nz. rewrite <- INR_IZR_INZ. split; auto. apply not_0_INR. lia. Qed.
(** the showers per position angle *)
Lemma angle_part t : u <= t -> t <= / 10 ^ 6 -> u * / (cos (viewcone_min s) - cos (viewcone_max s)) <= t ->
  exists v p, calculate_n_showers_per_fov_double cosine s [viewcone_min s; viewcone_max s] = Ok [Fin v] /\
    fdiv (Fin v) (nz (Z.of_nat (length pbins - 1))) = Fin p /\ apx t (223 / 10) 32 p (N / P).
Proof.
  intros TU T6 TD. destruct (whole_showers cosine s HC UC) as (v & Ev & Kv). pose proof parts_range as PR. pose proof showers_range as NR. fold N in Kv.
  assert (Av : apx t 20 16 v N).
  { split; [apply int_mag; auto|]. rewrite (Rabs_pos_eq N) by lra. eapply Rle_trans; [exact Kv|].
    replace (20 * u * N / (cos (viewcone_min s) - cos (viewcone_max s))) with (20 * (u * / (cos (viewcone_min s) - cos (viewcone_max s))) * N) by (unfold Rdiv; ring).
    apply Rmult_le_compat_r; lra. }
  destruct (apx_div t TU T6 20 0 (223 / 10) 16 16 _ _ _ _ Av (apx_exact t _ _ (int_mag P PR))) as (p & Fp & Ap); try lra; try lia.
  exists v, p. split; auto. split; auto. destruct (int_num_pos (length pbins - 1)) as [-> _]; [lia|]. exact Fp.
Qed.
Theorem c99_showers : exists ns, calculate_n_showers_3d_polar_double power cosine s ebins frad pbins = Ok ns /\
  shape3 ns (length ebins - 1) (length frad - 1) (length pbins - 1) /\
  forall k j i lo hi flo fhi, nth_error ebins k = Some (Fin lo) -> nth_error ebins (S k) = Some (Fin hi) -> tev lo -> tev hi -> lo < hi ->
    nth_error frad j = Some flo -> nth_error frad (S j) = Some fhi -> double flo -> double fhi -> flo < fhi -> (i < length pbins - 1)%nat ->
    let n := N * (bin_share s lo hi * cone_part s flo fhi) / P in
    (overlaps s lo hi -> viewcone_min s <= fhi -> flo <= viewcone_max s -> / 10 ^ 8 <= fov_digits s lo hi flo fhi ->
      exists v, entry3 ns k j i (Fin v) /\ apx (u / fov_digits s lo hi flo fhi) 53 64 v n) /\
    ((hi <= energy_min s \/ energy_max s <= lo) \/ overlaps s lo hi /\ (fhi < viewcone_min s \/ viewcone_max s < flo) -> entry3 ns k j i (Fin 0)).
Proof.
  destruct (c97_showers power cosine s ebins frad HP HC US UC Con) as (es & Ee & He). destruct (showers_shape _ _ _ _ _ _ HC UC Ee) as [L1 L2].
  destruct (whole_showers cosine s HC UC) as (w & Ew & Kw). pose proof showers_range as NR. pose proof parts_range as PR.
  unfold calculate_n_showers_3d_polar_double. rewrite Ee. cbn [rbind]. rewrite Ew. cbn [rbind]. cbv zeta. eexists. split; [reflexivity|]. split.
  { split; [rewrite map_length; auto|]. intros m Hm. apply in_map_iff in Hm as (r & <- & Hr). rewrite map_length. split; [auto|].
    intros x Hx. apply in_map_iff in Hx as (y & <- & _). rewrite map_length, repeat_length. auto. }
  intros k j i lo hi flo fhi H1 H2 Tl Th L F1 F2 Dl Dh Lfh Hi.
  assert (EN : forall row e z, nth_error es k = Some row -> nth_error row j = Some e ->
    fdiv (fmul e (fdiv (Fin w) (nz (Z.of_nat (length pbins - 1))))) (nz (n_showers s)) = z ->
    entry3 (map (fun row => map (fun x => map (fun p => fdiv (fmul x p) (nz (n_showers s))) (repeat (fdiv (Fin w) (nz (Z.of_nat (length pbins - 1)))) (length pbins - 1))) row) es) k j i z).
  { intros row e z R1 R2 <-. eexists _, _. split; [apply map_nth_some; exact R1|]. split; [apply map_nth_some; exact R2|].
    apply (map_nth_some (fun p => fdiv (fmul e p) (nz (n_showers s)))). apply repeat_nth. auto. }
  split.
  - intros Ov V1 V2 Dg. destruct (He k j lo hi flo fhi H1 H2 Tl Th L F1 F2 Dl Dh Lfh Ov V1 V2) as (row & v & R1 & R2 & Kv).
    destruct (fov_value s lo hi flo fhi v US UC Con L Lfh Ov V1 V2 Dg Kv) as (TU & T6 & Av & Xp & TD).
    destruct (angle_part _ TU T6 TD) as (w' & p & Ew' & Ep & Ap). rewrite Ew in Ew'. injection Ew' as <-.
    set (t := u / fov_digits s lo hi flo fhi) in *. fold N in Av. set (x := bin_share s lo hi * cone_part s flo fhi) in *.
    destruct (apx_mul t TU T6 25 (223 / 10) (498 / 10) 16 32 _ _ _ _ Av Ap) as (q & Fq & Aq); try lra; try lia.
    destruct (apx_div t TU T6 (498 / 10) 0 53 48 16 _ _ _ _ Aq (apx_exact t _ _ (int_mag N NR))) as (z & Fz & Az); try lra; try lia.
    exists z. split; [|replace (N * x / P) with (N * x * (N / P) / N) by (field; lra); exact Az].
    apply (EN row (Fin v)); auto. rewrite Ep, Fq. exact Fz.
  - intros O. destruct (showers_outside power cosine s ebins frad es k j lo hi flo fhi) as (row & R1 & R2); auto. apply (EN row (Fin 0)); auto.
    destruct u_bounds as [U0 U1]. destruct UC as (_ & _ & _ & _ & HD & _). destruct (u_contrast _ HD) as [T6 _].
    pose proof (ten_inv_pos 8). set (d := cos (viewcone_min s) - cos (viewcone_max s)) in *. assert (Dd : d <= 2) by (unfold d; pose proof (COS_bound (viewcone_min s)); pose proof (COS_bound (viewcone_max s)); lra).
    assert (Idd : / 2 <= / d) by (apply Rinv_le_contravar; lra).
    assert (T6' : 62 / 10 * (u * / d) <= / 10 ^ 6) by (replace (62 / 10 * (u * / d)) with (62 / 10 * u / d) by (unfold Rdiv; ring); auto).
    assert (T1 : u * / 2 <= u * / d) by (apply Rmult_le_compat_l; lra). 
    destruct (angle_part (2 * (u * / d))) as (w' & p & Ew' & Ep & _); try (fold d; lra). rewrite Ew in Ew'. injection Ew' as <-. rewrite Ep, fmul_zero'. unfold nz. apply fdiv_zero. fold N. lra.
Qed.
Theorem c99_area events fbins : usual (max_impact s) -> nondecreasing ebins -> (2 <= length ebins)%nat -> increasing fbins -> (2 <= length fbins)%nat -> increasing pbins ->
  length frad = length fbins -> (Z.of_nat (length events) < 2 ^ 53)%Z ->
  exists areas, effective_area_3d_polar_double power cosine events s ebins fbins frad pbins = Ok areas /\ shape areas = [(length ebins - 1)%nat; (length fbins - 1)%nat; (length pbins - 1)%nat] /\
  forall k j i lo hi flo fhi m, nth_error ebins k = Some (Fin lo) -> nth_error ebins (S k) = Some (Fin hi) -> tev lo -> tev hi -> lo < hi ->
    nth_error frad j = Some flo -> nth_error frad (S j) = Some fhi -> double flo -> double fhi -> flo < fhi -> (i < length pbins - 1)%nat ->
    number_of (fun e => in_hist_bin ebins k (true_energy e) /\ in_hist_bin (map Fin fbins) j (true_fov_offset e) /\ in_hist_bin (map Fin pbins) i (true_fov_pa e)) events m ->
    let area := INR m / (N * (bin_share s lo hi * cone_part s flo fhi) / P) * (PI * max_impact s ^ 2) in
    (overlaps s lo hi -> viewcone_min s <= fhi -> flo <= viewcone_max s -> / 10 ^ 8 <= fov_digits s lo hi flo fhi ->
      exists a, at_ areas [k; j; i] = Fin a /\ Rabs (a - area) <= 64 * u / fov_digits s lo hi flo fhi * area) /\
    ((hi <= energy_min s \/ energy_max s <= lo) \/ overlaps s lo hi /\ (fhi < viewcone_min s \/ viewcone_max s < flo) ->
      at_ areas [k; j; i] = if Nat.eqb m 0 then NaN else PInf).
Proof.
  intros Imp Ne Le Nf Lf Np Lr Ev. destruct c99_showers as (ns & En & Sn & Hn). pose proof parts_range as PR. pose proof showers_range as NR.
  assert (Nf' := inc_nondec fbins Nf). assert (Lf' : (2 <= length (map Fin fbins))%nat) by (rewrite map_length; auto).
  assert (Np' := inc_nondec pbins Np). assert (Lp' : (2 <= length (map Fin pbins))%nat) by (rewrite map_length; auto).
  unfold effective_area_3d_polar_double. cbv zeta. rewrite En. cbn [rbind].
  change [(true_energy, ebins); (true_fov_offset, map Fin fbins); (true_fov_pa, map Fin pbins)] with (dims3 true_energy true_fov_offset true_fov_pa ebins (map Fin fbins) (map Fin pbins)).
  rewrite hist3 by auto. cbn [rbind]. rewrite !map_length. rewrite Lr in Sn.
  match goal with |- context[tbin fdiv ?a ?b] => destruct (tbin_same fdiv a b) as (o & -> & So & Ho) end.
  { rewrite (of_lists3_shape _ _ _ _ Sn) by lia. auto. }
  cbn [rbind]. eexists. split; [reflexivity|]. split; [exact So|].
  intros k j i lo hi flo fhi m H1 H2 Tl Th L F1 F2 Dl Dh Lfh Hi Hm. cbv zeta.
  pose proof (nth_some_lt _ _ _ H2) as K1. pose proof (nth_some_lt _ _ _ F2) as K2. rewrite Lr in K2.
  destruct (C3_number true_energy true_fov_offset true_fov_pa ebins (map Fin fbins) (map Fin pbins) events k j i) as (m' & Hm' & Em); auto; try (rewrite map_length; lia); try lia.
  assert (m' = m) as -> by (eapply number_of_unique; eauto). assert (Lm : (Z.of_nat m < 2 ^ 53)%Z) by (pose proof (number_of_length _ _ _ Hm); lia).
  assert (EQ : forall v, entry3 ns k j i (Fin v) -> at_ o [k; j; i] = fdiv (Fin (INR m)) (Fin v)).
  { intros v R1. rewrite Ho by (cbn [shape]; repeat constructor; lia). rewrite (of_lists3_at _ _ _ _ _ R1). cbn [at_].
    fold (C3 true_energy true_fov_offset true_fov_pa ebins (map Fin fbins) (map Fin pbins) unweighted events k j i). rewrite Em. reflexivity. }
  destruct (Hn k j i lo hi flo fhi H1 H2 Tl Th L F1 F2 Dl Dh Lfh Hi) as [Hin Hout]. cbv zeta in Hin. cbn [at_ tmap]. split.
  - intros Ov V1 V2 Dg. destruct (Hin Ov V1 V2 Dg) as (v & R1 & Av). rewrite (EQ _ R1).
    assert (X : 0 < N * (bin_share s lo hi * cone_part s flo fhi) / P).
    { destruct (c97_showers power cosine s ebins frad HP HC US UC Con) as (es & _ & He). destruct (He k j lo hi flo fhi H1 H2 Tl Th L F1 F2 Dl Dh Lfh Ov V1 V2) as (_ & v' & _ & _ & Kv).
      destruct (fov_value s lo hi flo fhi v' US UC Con L Lfh Ov V1 V2 Dg Kv) as (_ & _ & _ & Xp & _).
      apply Rmult_lt_0_compat; [apply Rmult_lt_0_compat; lra|apply Rinv_0_lt_compat; lra]. }
    destruct (c97_showers power cosine s ebins frad HP HC US UC Con) as (es & _ & He). destruct (He k j lo hi flo fhi H1 H2 Tl Th L F1 F2 Dl Dh Lfh Ov V1 V2) as (_ & v' & _ & _ & Kv).
    destruct (fov_value s lo hi flo fhi v' US UC Con L Lfh Ov V1 V2 Dg Kv) as (TU & T6 & _ & _ & _).
    set (t := u / fov_digits s lo hi flo fhi) in *. set (y := N * (bin_share s lo hi * cone_part s flo fhi) / P) in *.
    replace (64 * u / fov_digits s lo hi flo fhi) with (64 * t) by (unfold t, Rdiv; ring).
    destruct (impact_apx t (max_impact s) TU T6 Imp) as (A & FA & AA). rewrite FA. replace (max_impact s ^ 2) with (max_impact s * max_impact s) by ring.
    destruct (Nat.eq_dec m 0) as [->|M0].
    + cbn [INR]. assert (0 < v) by (apply (apx_positive t TU T6 _ _ _ _ Av); lra).
      rewrite fdiv_zero by lra. rewrite fmul_zero'. exists 0. split; auto. unfold Rdiv. rewrite !Rmult_0_l, Rminus_0_r, Rabs_R0, Rmult_0_r. lra.
    + assert (M1 : 1 <= INR m <= 9007199254740992) by (rewrite INR_IZR_INZ; split; apply IZR_le; lia).
      destruct (apx_div t TU T6 0 53 (556 / 10) 16 64 _ _ _ _ (apx_exact t _ _ (int_mag _ M1)) Av) as (q & Fq & Aq); try lra; try lia.
      destruct (apx_mul t TU T6 (556 / 10) (53 / 10) 64 80 13 _ _ _ _ Aq AA) as (a & Fa & [_ Ka]); try lra; try lia.
      rewrite Fq, Fa. exists a. split; auto. eapply Rle_trans; [exact Ka|].
      rewrite Rabs_pos_eq; [right; reflexivity|]. apply Rmult_le_pos; [apply Rmult_le_pos; [lra|left; apply Rinv_0_lt_compat; lra]|].
      pose proof PI_RGT_0. pose proof (usual_pos _ Imp). apply Rmult_le_pos; [lra|]. apply Rmult_le_pos; lra.
  - intros O. rewrite (EQ _ (Hout O)). apply area_of_zero; auto.
Qed.
End Polar.
Theorem c99_numbers power cosine s ebins frad pbins : accurate_power power -> accurate_cos cosine -> usable_simulation s -> usable_cone s ->
  / 10 ^ 8 <= contrast (spectral_index s) (energy_min s) (energy_max s) -> (2 <= length pbins)%nat -> (Z.of_nat (length pbins) < 2 ^ 53)%Z ->
  exists ns, calculate_n_showers_3d_polar_double power cosine s ebins frad pbins = Ok ns /\
  shape3 ns (length ebins - 1) (length frad - 1) (length pbins - 1) /\
  forall k j i lo hi flo fhi, nth_error ebins k = Some (Fin lo) -> nth_error ebins (S k) = Some (Fin hi) -> tev lo -> tev hi -> lo < hi ->
    nth_error frad j = Some flo -> nth_error frad (S j) = Some fhi -> double flo -> double fhi -> flo < fhi -> (i < length pbins - 1)%nat ->
    let n := IZR (n_showers s) * (bin_share s lo hi * cone_part s flo fhi) / INR (length pbins - 1) in
    (overlaps s lo hi -> viewcone_min s <= fhi -> flo <= viewcone_max s -> / 10 ^ 8 <= fov_digits s lo hi flo fhi ->
      exists v, entry3 ns k j i (Fin v) /\ Rabs (v - n) <= 53 * u / fov_digits s lo hi flo fhi * n) /\
    ((hi <= energy_min s \/ energy_max s <= lo) \/ overlaps s lo hi /\ (fhi < viewcone_min s \/ viewcone_max s < flo) -> entry3 ns k j i (Fin 0)).
Proof.
  intros HP HC US UC Con Lp Mp. destruct (c99_showers power cosine s ebins frad pbins HP HC US UC Con Lp Mp) as (ns & En & Sn & Hn).
  exists ns. split; [exact En|]. split; [exact Sn|]. intros k j i lo hi flo fhi H1 H2 Tl Th L F1 F2 Dl Dh Lfh Hi. cbv zeta.
  destruct (Hn k j i lo hi flo fhi H1 H2 Tl Th L F1 F2 Dl Dh Lfh Hi) as [A B]. cbv zeta in A. split; [|exact B].
  intros Ov V1 V2 Dg. destruct (A Ov V1 V2 Dg) as (v & R1 & [_ K]). exists v. split; auto.
  pose proof (bin_share_bounds s lo hi US L Ov) as B1. pose proof (cone_part_bounds s flo fhi UC Lfh V1 V2) as B2.
  assert (0 <= IZR (n_showers s)) by (destruct US as (_ & _ & _ & _ & _ & Nn); apply IZR_le; lia).
  assert (0 < INR (length pbins - 1)) by (apply lt_0_INR; lia).
  rewrite (Rabs_pos_eq (IZR (n_showers s) * (bin_share s lo hi * cone_part s flo fhi) / INR (length pbins - 1))) in K.
  - eapply Rle_trans; [exact K|]. right. unfold Rdiv. ring.
  - unfold Rdiv. apply Rmult_le_pos; [apply Rmult_le_pos; [lra|apply Rmult_le_pos; lra]|left; apply Rinv_0_lt_compat; auto].
Qed.
