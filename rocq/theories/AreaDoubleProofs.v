(** * AreaDoubleProofs: numbers of showers in two dimensions and effective areas in double precision *)
From Coq Require Import Reals List Bool ZArith String Lia Lra Psatz.
From Flocq Require Import Core.
From Verif Require Import Num Numpy Lists Table Binning SpecBinning HistProofs Simulations Double SpecDouble DoubleProofs NearProofs WeightsDoubleProofs
  ShowersDouble SpecShowers ShowersDoubleProofs SpecEventWeights EventWeightsDoubleProofs AreaDouble SpecArea.
Import ListNotations.
Notation length := List.length.
Open Scope R_scope.
Notation u := eps53.
Notation et := (bpow radix2 (-1075)).

Lemma contrast_le_1 i a b : contrast i a b <= 1.
Proof. unfold contrast, Rpower. pose proof (exp_pos ((i + 1) * ln (b / a))). lra. Qed.
Lemma bin_share_bounds s lo hi : usable_simulation s -> lo < hi -> overlaps s lo hi -> 0 <= bin_share s lo hi <= 1.
Proof.
  intros (T1 & T2 & L & Di & Bi & Nn) LH (A & B & N). unfold bin_share, spectrum_share. pose proof (tev_pos _ T1).
  destruct (shares (spectral_index s + 1) (energy_min s) (energy_max s) (Rmax lo (energy_min s)) (Rmin hi (energy_max s))) as [[S1 S2] S3]; auto; try lra.
  - apply Rmax_r.
  - apply Rmax_lub; apply Rmin_glb; lra.
  - apply Rmin_r.
  - split; [apply Rmult_le_pos; [lra|left; apply Rinv_0_lt_compat; lra]|]. apply Rmult_le_reg_r with (Rpower (energy_min s) (spectral_index s + 1) - Rpower (energy_max s) (spectral_index s + 1)); [lra|].
    unfold Rdiv. rewrite Rmult_assoc, Rinv_l, Rmult_1_r by lra. lra.
Qed.
Lemma cone_part_bounds s lo hi : usable_cone s -> lo < hi -> viewcone_min s <= hi -> lo <= viewcone_max s -> 0 <= cone_part s lo hi <= 1.
Proof.
  intros (D1 & D2 & B1 & B2 & HD & L & Nn) LH A B. unfold cone_part, cone_share. pose proof (ten_inv_pos 8).
  assert (M1 : viewcone_min s <= Rmax lo (viewcone_min s)) by apply Rmax_r. assert (M2 : Rmin hi (viewcone_max s) <= viewcone_max s) by apply Rmin_r.
  assert (M3 : Rmax lo (viewcone_min s) <= Rmin hi (viewcone_max s)) by (apply Rmax_lub; apply Rmin_glb; lra).
  pose proof (cos_decreases (viewcone_min s) (Rmax lo (viewcone_min s)) B1 M1 ltac:(lra)). pose proof (cos_decreases (Rmax lo (viewcone_min s)) (Rmin hi (viewcone_max s)) ltac:(lra) M3 ltac:(lra)).
  pose proof (cos_decreases (Rmin hi (viewcone_max s)) (viewcone_max s) ltac:(lra) M2 ltac:(lra)).
  split; [apply Rmult_le_pos; [lra|left; apply Rinv_0_lt_compat; lra]|]. apply Rmult_le_reg_r with (cos (viewcone_min s) - cos (viewcone_max s)); [lra|].
  unfold Rdiv. rewrite Rmult_assoc, Rinv_l, Rmult_1_r by lra. lra.
Qed.
(** ** Energy and field of view *)
Lemma product_of_counts n a b x y p q : (1 <= n < 2 ^ 53)%Z -> 0 <= x <= 1 -> 0 <= y <= 1 -> 1 <= p -> / 2 <= q -> u * p <= / 2000 -> u * q <= / 2000 ->
  Rabs (a - IZR n * x) <= 20 * (u * p) * IZR n -> Rabs (b - IZR n * y) <= 20 * (u * q) * IZR n ->
  exists v, fdiv (fmul (Fin a) (Fin b)) (nz n) = Fin v /\ Rabs (v - IZR n * (x * y)) <= 25 * eps53 * IZR n * (p + q).
Proof.
  intros Hn X Y P Q UP UQ A B. destruct u_bounds as [U0 U1]. destruct et_bounds as [E0 E1].
  assert (N1 : 1 <= IZR n) by (apply IZR_le; lia). assert (N2 : IZR n <= 9007199254740992) by (apply IZR_le; lia). set (N := IZR n) in *.
  assert (Up0 : 0 < u * p) by (apply Rmult_lt_0_compat; lra). assert (Uq0 : 0 < u * q) by (apply Rmult_lt_0_compat; lra).
  assert (Uu : u <= u * p) by (rewrite <- (Rmult_1_r u) at 1; apply Rmult_le_compat_l; lra).
  set (da := (a - N * x) / N). set (db := (b - N * y) / N). assert (In : 0 < / N) by (apply Rinv_0_lt_compat; lra).
  assert (Da : Rabs da <= 20 * (u * p)).
  { unfold da, Rdiv. rewrite Rabs_mult, Rabs_inv, (Rabs_pos_eq N) by lra. apply Rle_trans with (20 * (u * p) * N * / N); [apply Rmult_le_compat_r; lra|right; field; lra]. }
  assert (Db : Rabs db <= 20 * (u * q)).
  { unfold db, Rdiv. rewrite Rabs_mult, Rabs_inv, (Rabs_pos_eq N) by lra. apply Rle_trans with (20 * (u * q) * N * / N); [apply Rmult_le_compat_r; lra|right; field; lra]. }
  assert (Ea : a = N * (x + da)) by (unfold da; field; lra). assert (Eb : b = N * (y + db)) by (unfold db; field; lra).
  set (e := x + da) in *. set (f := y + db) in *.
  assert (EF : Rabs (e * f - x * y) <= 202 / 10 * (u * p + u * q)).
  { replace (e * f - x * y) with (da * y + x * db + da * db) by (unfold e, f; ring). eapply Rle_trans; [apply Rabs_triang|]. eapply Rle_trans; [apply Rplus_le_compat_r, Rabs_triang|].
    rewrite !Rabs_mult, (Rabs_pos_eq x), (Rabs_pos_eq y) by lra.
    assert (Rabs da * y <= 20 * (u * p) * 1) by (apply Rmult_le_compat; auto using Rabs_pos; lra).
    assert (x * Rabs db <= 1 * (20 * (u * q))) by (apply Rmult_le_compat; auto using Rabs_pos; lra).
    assert (Rabs da * Rabs db <= / 100 * (20 * (u * q))) by (apply Rmult_le_compat; auto using Rabs_pos; lra). lra. }
  assert (XY : 0 <= x * y <= 1) by (split; [apply Rmult_le_pos; lra|apply Rle_trans with (1 * 1); [apply Rmult_le_compat; lra|lra]]).
  assert (EFb : Rabs (e * f) <= 103 / 100) by (pose proof (close_abs _ _ _ EF) as C; rewrite (Rabs_pos_eq (x * y)) in C by lra; lra).
  assert (NN : N * N <= 9007199254740992 * 9007199254740992) by (apply Rmult_le_compat; lra). assert (NN0 : 1 <= N * N) by (replace 1 with (1 * 1) by ring; apply Rmult_le_compat; lra).
  assert (big : 2 * (9007199254740992 * 9007199254740992) <= 10 ^ 300) by (apply Rle_trans with (10 ^ 33); [lra|apply Rle_pow; [lra|lia]]).
  assert (AB : a * b = N * N * (e * f)) by (rewrite Ea, Eb; ring).
  assert (ABb : Rabs (a * b) <= N * N * (103 / 100)) by (rewrite AB, Rabs_mult, (Rabs_pos_eq (N * N)) by lra; apply Rmult_le_compat_l; lra).
  destruct (rnd (a * b)) as [F1 K1]; [lra|]. set (m := round64 (a * b)) in *.
  assert (ET : et <= u * / 100).
  { apply Rle_trans with (/ 10 ^ 18); [eapply Rle_trans; [exact E1|apply ten_inv; lia]|]. pose proof u_low.
    apply Rle_trans with (/ 10 ^ 16 * / 100); [|apply Rmult_le_compat_r; lra]. rewrite <- Rinv_mult. right. f_equal. ring. }
  assert (K1' : Rabs (m - a * b) <= 104 / 100 * u * (N * N)).
  { eapply Rle_trans; [exact K1|]. assert (u * Rabs (a * b) <= u * (N * N * (103 / 100))) by (apply Rmult_le_compat_l; lra).
    assert (u * / 100 * 1 <= u * / 100 * (N * N)) by (apply Rmult_le_compat_l; lra). lra. }
  assert (Mq : Rabs (m / N - N * (e * f)) <= 104 / 100 * u * N).
  { replace (m / N - N * (e * f)) with ((m - a * b) * / N) by (rewrite AB; field; lra). rewrite Rabs_mult, (Rabs_pos_eq (/ N)) by lra.
    apply Rle_trans with (104 / 100 * u * (N * N) * / N); [apply Rmult_le_compat_r; lra|right; field; lra]. }
  assert (NE : Rabs (N * (e * f)) <= N * (103 / 100)) by (rewrite Rabs_mult, (Rabs_pos_eq N) by lra; apply Rmult_le_compat_l; lra).
  assert (U3 : u * N <= / 100 * N) by (apply Rmult_le_compat_r; lra).
  assert (Mb : Rabs (m / N) <= N * (105 / 100)) by (pose proof (close_abs _ _ _ Mq); lra).
  destruct (rnd (m / N)) as [F2 K2]; [apply Rle_trans with (2 * (9007199254740992 * 9007199254740992)); lra|].
  exists (round64 (m / N)). split.
  - unfold fmul. cbn [nmul fl_num]. rewrite F1. unfold nz, fdiv. cbn [ndiv]. fold N. destruct (Reqb_spec N 0); [lra|]. cbn [fl_num]. exact F2.
  - replace (round64 (m / N) - N * (x * y)) with ((round64 (m / N) - m / N) + ((m / N - N * (e * f)) + N * (e * f - x * y))) by ring.
    eapply Rle_trans; [apply Rabs_triang|]. eapply Rle_trans; [apply Rplus_le_compat_l, Rabs_triang|]. rewrite (Rabs_mult N), (Rabs_pos_eq N) by lra.
    assert (W1 : u * Rabs (m / N) <= u * (N * (105 / 100))) by (apply Rmult_le_compat_l; lra).
    assert (W2 : N * Rabs (e * f - x * y) <= N * (202 / 10 * (u * p + u * q))) by (apply Rmult_le_compat_l; lra).
    assert (W3 : u * / 100 * 1 <= u * / 100 * N) by (apply Rmult_le_compat_l; lra).
    assert (W4 : u * N <= u * p * N) by (apply Rmult_le_compat_r; lra). assert (W5 : 0 <= u * q * N) by (apply Rmult_le_pos; lra).
    replace (25 * eps53 * N * (p + q)) with (25 * (u * p * N) + 25 * (u * q * N)) by ring. lra.
Qed.
Theorem c97_showers pow cosine s ebins fbins : accurate_power pow -> accurate_cos cosine -> usable_simulation s -> usable_cone s ->
  / 10 ^ 8 <= contrast (spectral_index s) (energy_min s) (energy_max s) ->
  exists ns, calculate_n_showers_per_energy_and_fov_double pow cosine s ebins fbins = Ok ns /\
  forall k j lo hi flo fhi, nth_error ebins k = Some (Fin lo) -> nth_error ebins (S k) = Some (Fin hi) -> tev lo -> tev hi -> lo < hi ->
    nth_error fbins j = Some flo -> nth_error fbins (S j) = Some fhi -> double flo -> double fhi -> flo < fhi ->
    overlaps s lo hi -> viewcone_min s <= fhi -> flo <= viewcone_max s ->
    exists row v, nth_error ns k = Some row /\ nth_error row j = Some (Fin v) /\
      Rabs (v - IZR (n_showers s) * (bin_share s lo hi * cone_part s flo fhi)) <=
      25 * eps53 * IZR (n_showers s) * (/ contrast (spectral_index s) (energy_min s) (energy_max s) + / (cos (viewcone_min s) - cos (viewcone_max s))).
Proof.
  intros HP HC US UC Con. destruct (c95_fov cosine s fbins HC UC) as (fs & Ef & _ & Hf).
  unfold calculate_n_showers_per_energy_and_fov_double. cbv zeta. rewrite Ef. cbn [rbind]. eexists. split; [reflexivity|].
  intros k j lo hi flo fhi H1 H2 Tl Th L F1 F2 Dl Dh Lf Ov V1 V2.
  destruct (c95_energy pow s ebins k lo hi HP US Con H1 H2 Tl Th L) as [_ He]. destruct Ov as (O1 & O2 & O3). destruct (He O1 O2 O3) as (a & Ea & Ka).
  destruct (Hf j flo fhi F1 F2 Dl Dh Lf) as [_ Hf']. destruct (Hf' V1 V2) as (b & Eb & Kb).
  pose proof (bin_share_bounds s lo hi US L (conj O1 (conj O2 O3))) as B1. pose proof (cone_part_bounds s flo fhi UC Lf V1 V2) as B2.
  pose proof (contrast_le_1 (spectral_index s) (energy_min s) (energy_max s)) as C1.
  destruct US as (_ & _ & _ & _ & _ & Nn). destruct UC as (_ & _ & _ & _ & HD & _). fold (bin_share s lo hi) in Ka. fold (cone_part s flo fhi) in Kb.
  set (c := contrast (spectral_index s) (energy_min s) (energy_max s)) in *. set (d := cos (viewcone_min s) - cos (viewcone_max s)) in *.
  destruct (u_contrast c Con) as [_ UC]. destruct (u_contrast d HD) as [_ UD]. pose proof (ten_inv_pos 8).
  assert (D2 : d <= 2) by (unfold d; pose proof (COS_bound (viewcone_min s)); pose proof (COS_bound (viewcone_max s)); lra).
  destruct (product_of_counts (n_showers s) a b (bin_share s lo hi) (cone_part s flo fhi) (/ c) (/ d)) as (v & Ev & Kv); auto.
  - rewrite <- Rinv_1. apply Rinv_le_contravar; lra.
  - apply Rinv_le_contravar; lra.
  - replace (20 * (u * / c) * IZR (n_showers s)) with (20 * u * IZR (n_showers s) / c) by (unfold Rdiv; ring). auto.
  - replace (20 * (u * / d) * IZR (n_showers s)) with (20 * u * IZR (n_showers s) / d) by (unfold Rdiv; ring). auto.
  - eexists _, v. split; [rewrite nth_error_map, Ea; reflexivity|]. split; [|exact Kv]. rewrite nth_error_map, Eb. cbn [option_map]. now rewrite Ev.
Qed.
(** ** Effective areas *)
Lemma number_of_length {A} (P : A -> Prop) l n : number_of P l n -> (n <= length l)%nat.
Proof. induction 1; cbn; lia. Qed.

Theorem c97_area pow s events bins : accurate_power pow -> usable_simulation s -> usual (max_impact s) ->
  / 10 ^ 8 <= contrast (spectral_index s) (energy_min s) (energy_max s) -> nondecreasing bins -> (2 <= length bins)%nat -> (Z.of_nat (length (et_rows events)) < 2 ^ 53)%Z ->
  exists areas, effective_area_per_energy_double pow events s bins = Ok areas /\ length areas = (length bins - 1)%nat /\
  forall k lo hi m, nth_error bins k = Some (Fin lo) -> nth_error bins (S k) = Some (Fin hi) -> tev lo -> tev hi -> lo < hi ->
    number_of (fun e => in_hist_bin bins k (ev_x e)) (et_rows events) m ->
    (overlaps s lo hi -> / 10 ^ 8 <= digits s lo hi -> exists a, nth_error areas k = Some (Fin a) /\
      Rabs (a - INR m / (IZR (n_showers s) * bin_share s lo hi) * (PI * max_impact s ^ 2)) <=
      32 * eps53 / digits s lo hi * (INR m / (IZR (n_showers s) * bin_share s lo hi) * (PI * max_impact s ^ 2))) /\
    (hi <= energy_min s \/ energy_max s <= lo -> nth_error areas k = Some (if Nat.eqb m 0 then NaN else PInf)).
Proof.
  intros HP US Imp Con Nd Lb Ev. destruct (c04 events bins "true_energy" Nd Lb) as (t & n & E & G & (Ln & Hn) & _).
  unfold effective_area_per_energy_double. cbv zeta. rewrite E. cbn [rbind]. rewrite G. eexists. split; [reflexivity|].
  split; [rewrite zipwith_length, map_length; unfold calculate_n_showers_per_energy_double; rewrite adj_length; lia|].
  intros k lo hi m H1 H2 Tl Th L Hm.
  assert (Lk : (k < length n)%nat) by (pose proof (nth_some_lt _ _ _ H2); lia). destruct (nth_some_ex n k Lk) as [ck Hk].
  destruct (Hn k ck Hk) as (m' & -> & Hm'). assert (m' = m) as -> by (eapply number_of_unique; eauto).
  assert (Lm : (Z.of_nat m < 2 ^ 53)%Z) by (pose proof (number_of_length _ _ _ Hm); lia).
  destruct (c95_energy pow s bins k lo hi HP US Con H1 H2 Tl Th L) as [He0 He].
  assert (EQ : forall v, nth_error (calculate_n_showers_per_energy_double pow s bins) k = Some v ->
    nth_error (zipwith (fun a b => fmul (fdiv a b) (fmul (fl PI) (fmul (Fin (max_impact s)) (Fin (max_impact s))))) (map nz n) (calculate_n_showers_per_energy_double pow s bins)) k =
    Some (fmul (fdiv (nz (Z.of_nat m)) v) (fmul (fl PI) (fmul (Fin (max_impact s)) (Fin (max_impact s)))))).
  { intros v Hv. apply (zipwith_nth (fun a b => fmul (fdiv a b) (fmul (fl PI) (fmul (Fin (max_impact s)) (Fin (max_impact s)))))); auto. now rewrite nth_error_map, Hk. }
  assert (Area : forall t, u <= t -> t <= / 10 ^ 6 -> exists A, fmul (fl PI) (fmul (Fin (max_impact s)) (Fin (max_impact s))) = Fin A /\ apx t (53 / 10) 13 A (PI * (max_impact s * max_impact s))).
  { clear t E G. intros t TU T6. destruct (pi_apx t TU T6) as (q & Fq & Aq).
    destruct (apx_mul t TU T6 0 0 (21 / 10) 6 6 _ _ _ _ (apx_exact t _ _ (usual_mag _ Imp)) (apx_exact t _ _ (usual_mag _ Imp))) as (r2 & Fr & Ar); try lra; try lia.
    destruct (apx_mul t TU T6 (11 / 10) (21 / 10) (53 / 10) 1 12 _ _ _ _ Aq Ar) as (A & FA & AA); try lra; try lia.
    exists A. rewrite Fq, Fr. auto. }
  destruct u_bounds as [U0 U1]. assert (U6 : u <= / 10 ^ 6) by (eapply Rle_trans; [exact U1|apply ten_inv; lia]).
  pose proof US as US0. destruct US0 as (_ & _ & _ & _ & _ & Nn). assert (N1 : 1 <= IZR (n_showers s)) by (apply IZR_le; lia).
  split.
  - intros Ov Dg. destruct Ov as (O1 & O2 & O3). destruct (He O1 O2 O3) as (v & Hv & Kv). rewrite (EQ _ Hv). fold (bin_share s lo hi) in Kv.
    pose proof (bin_share_bounds s lo hi US L (conj O1 (conj O2 O3))) as B1. pose proof (contrast_le_1 (spectral_index s) (energy_min s) (energy_max s)) as C1.
    assert (G0 : digits s lo hi <= 1).
    { unfold digits. rewrite <- (Rmult_1_r 1). pose proof (ten_inv_pos 8). apply Rmult_le_compat; lra. }
    set (d := digits s lo hi) in *. pose proof (ten_inv_pos 8) as I8.
    assert (Cs : contrast (spectral_index s) (energy_min s) (energy_max s) * bin_share s lo hi = d) by reflexivity.
    set (c := contrast (spectral_index s) (energy_min s) (energy_max s)) in *. set (sh := bin_share s lo hi) in *. set (N := IZR (n_showers s)) in *.
    assert (S8 : / 10 ^ 8 <= sh). { assert (c * sh <= 1 * sh) by (apply Rmult_le_compat_r; lra). lra. }
    destruct (u_contrast d Dg) as [T6 _].
    assert (Id : 1 <= / d) by (rewrite <- Rinv_1; apply Rinv_le_contravar; lra).
    assert (TU : u <= u / d) by (unfold Rdiv; rewrite <- (Rmult_1_r u) at 1; apply Rmult_le_compat_l; lra).
    assert (T6' : u / d <= / 10 ^ 6) by (replace (62 / 10 * u / d) with (62 / 10 * (u / d)) in T6 by (unfold Rdiv; ring); lra).
    assert (N2 : N <= 9007199254740992) by (apply IZR_le; lia).
    assert (Big : 9007199254740992 <= 10 ^ 16) by lra.
    assert (MN : mag 16 (N * sh)).
    { apply mag_pos. split.
      - apply Rle_trans with (/ 10 ^ 8); [apply ten_inv; lia|]. rewrite <- (Rmult_1_l (/ 10 ^ 8)). apply Rmult_le_compat; lra.
      - apply Rle_trans with (N * 1); [apply Rmult_le_compat_l; lra|lra]. }
    assert (NS : 0 < N * sh) by (apply Rmult_lt_0_compat; lra).
    assert (Av : apx (u / d) 20 16 v (N * sh)).
    { split; auto. eapply Rle_trans; [exact Kv|]. rewrite (Rabs_pos_eq (N * sh)) by lra. rewrite <- Cs. right. field. split; lra. }
    destruct (Area (u / d) TU T6') as (A & FA & AA). rewrite FA. replace (max_impact s ^ 2) with (max_impact s * max_impact s) by ring.
    destruct (Nat.eq_dec m 0) as [->|M0].
    + cbn [Z.of_nat]. unfold nz.
      assert (V0 : v <> 0).
      { intros ->. destruct Av as [_ Av]. rewrite (Rabs_pos_eq (N * sh)) in Av by lra. rewrite Rminus_0_l, Rabs_Ropp, (Rabs_pos_eq (N * sh)) in Av by lra.
        assert (u / d <= / 100) by (eapply Rle_trans; [exact T6'|]; replace (/ 100) with (/ 10 ^ 2) by (f_equal; ring); apply ten_inv; lia).
        assert (20 * (u / d) * (N * sh) <= / 5 * (N * sh)) by (apply Rmult_le_compat_r; lra). lra. }
      rewrite fdiv_zero by auto. rewrite fmul_zero'. exists 0. split; auto. cbn [INR]. unfold Rdiv. rewrite !Rmult_0_l, Rminus_0_r, Rabs_R0, Rmult_0_r. lra.
    + assert (M1 : 1 <= INR m) by (rewrite INR_IZR_INZ; apply IZR_le; lia). assert (M2 : INR m <= 9007199254740992) by (rewrite INR_IZR_INZ; apply IZR_le; lia).
      assert (Mm : mag 16 (INR m)).
      { apply mag_pos. split; [|lra]. assert (/ 10 ^ 16 <= / 10 ^ 0) by (apply ten_inv; lia). cbn in *. lra. }
      destruct (apx_div (u / d) TU T6' 0 20 23 16 16 _ _ _ _ (apx_exact (u / d) _ _ Mm) Av) as (q & Fq & Aq); try lra; try lia.
      destruct (apx_mul (u / d) TU T6' 23 (53 / 10) 32 32 13 _ _ _ _ Aq AA) as (a & Fa & [_ Ka]); try lra; try lia.
      unfold nz. rewrite <- INR_IZR_INZ, Fq, Fa. exists a. split; auto. eapply Rle_trans; [exact Ka|]. 
      rewrite Rabs_pos_eq; [right; unfold Rdiv; ring|]. apply Rmult_le_pos; [apply Rmult_le_pos; [lra|left; apply Rinv_0_lt_compat; lra]|].
      pose proof PI_RGT_0. pose proof (usual_pos _ Imp). apply Rmult_le_pos; [lra|]. apply Rmult_le_pos; lra.
  - intros O. rewrite (EQ _ (He0 O)). destruct (Area u (Rle_refl _) U6) as (A & FA & MA & EA). rewrite FA. f_equal.
    assert (Ap : 0 < A).
    { pose proof PI_RGT_0. pose proof (usual_pos _ Imp) as Ip. assert (0 < max_impact s * max_impact s) by (apply Rmult_lt_0_compat; auto).
      assert (Xp : 0 < PI * (max_impact s * max_impact s)) by (apply Rmult_lt_0_compat; auto). rewrite (Rabs_pos_eq (PI * (max_impact s * max_impact s))) in EA by lra.
      assert (53 / 10 * u <= / 2). { assert (/ 10 ^ 6 <= / 10 ^ 2) by (apply ten_inv; lia). replace (/ 10 ^ 2) with (/ 100) in * by (f_equal; ring). lra. }
      assert (53 / 10 * u * (PI * (max_impact s * max_impact s)) <= / 2 * (PI * (max_impact s * max_impact s))) by (apply Rmult_le_compat_r; lra).
      apply Rabs_le_inv in EA. lra. }
    unfold fdiv, nz. cbn [ndiv]. destruct (Reqb_spec 0 0); [|congruence]. destruct (Nat.eqb_spec m 0) as [->|M0].
    + cbn [Z.of_nat]. destruct (Reqb_spec 0 0); [|congruence]. reflexivity.
    + assert (Mp : 0 < IZR (Z.of_nat m)) by (apply IZR_lt; lia). destruct (Reqb_spec (IZR (Z.of_nat m)) 0); [lra|]. destruct (Rltb_spec 0 (IZR (Z.of_nat m))); [|lra].
      unfold fmul. cbn [fl_num nmul]. unfold inf_signed. destruct (Reqb_spec A 0); [lra|]. destruct (Rltb_spec 0 A); [reflexivity|lra].
Qed.
