(** * PSFDoubleProofs: solid angles and the point spread function in double precision *)
From Coq Require Import String Reals List Bool ZArith Arith Lia Lra Psatz.
From Flocq Require Import Core.
From Verif Require Import Num Numpy Lists SpecBinning Table Binning BinningProofs HistProofs Utils SpecUtils SpecSimulations Simulations SimulationsProofs SimulationsProofs2
  Tensor TensorProofs SpecIRF IRF IRFProofs IRFProofs2 IRFProofs4 Double SpecDouble DoubleProofs NearProofs LiMaDoubleProofs LiMaDouble2Proofs IRFDouble IRFDoubleProofs IRFDouble2Proofs.
Import ListNotations.
Open Scope R_scope.

Lemma cos_lip x y : Rabs (cos y - cos x) <= Rabs (y - x).
Proof.
  destruct (MVT_abs cos (fun z => - sin z) x y) as (z & E & _); [intros; apply derivable_pt_lim_cos|]. rewrite E, Rabs_Ropp.
  pose proof (SIN_bound z). pose proof (Rabs_pos (y - x)). assert (Rabs (sin z) <= 1) by (apply Rabs_le; lra). nra.
Qed.
Lemma pi_range : 3 < PI <= 4.
Proof. pose proof PI2_3_2. pose proof PI_4. lra. Qed.
Lemma round_err_le x b : Rabs x <= b -> b <= 1000 -> exists y, fl x = Fin y /\ Rabs (y - x) <= u * b + eta /\ double y.
Proof.
  intros H B. assert (F : Rabs x <= fmax) by (pose proof (bpow_fmax 20 ltac:(lia)) as F; change (bpow radix2 20) with 1048576 in F; lra).
  exists (round64 x). split; [apply fl_fin; auto|]. split; [|apply double_round; auto]. eapply Rle_trans; [apply round64_error|]. fold u eta. pose proof u_pos. apply Rplus_le_compat_r. apply Rmult_le_compat_l; lra.
Qed.
Lemma eta_u : eta <= u / 1000.
Proof.
  unfold eta, u. apply Rle_trans with (bpow radix2 (-53) * bpow radix2 (-10)); [rewrite <- bpow_plus; apply bpow_le; lia|]. change (bpow radix2 (-10)) with (/ 1024). pose proof (bpow_gt_0 radix2 (-53)). lra.
Qed.
Lemma abs_diff_mult a b c d ea eb ma mb : Rabs (a - c) <= ea -> Rabs (b - d) <= eb -> Rabs b <= mb -> Rabs c <= ma -> 0 <= ea -> Rabs (a * b - c * d) <= ea * mb + ma * eb.
Proof.
  intros H1 H2 H3 H4 H5. replace (a * b - c * d) with ((a - c) * b + c * (b - d)) by ring. eapply Rle_trans; [apply Rabs_triang|]. rewrite !Rabs_mult. apply Rplus_le_compat; apply Rmult_le_compat; auto using Rabs_pos.
Qed.
Lemma abs_near a b e m : Rabs (a - b) <= e -> Rabs b <= m -> Rabs a <= m + e.
Proof. intros H1 H2. replace a with (b + (a - b)) by ring. eapply Rle_trans; [apply Rabs_triang|]. lra. Qed.
Lemma cone_value x : cone_solid_angle (deg x) = ring_sr 0 (deg x).
Proof. unfold cone_solid_angle, ring_sr. rewrite cos_0. auto. Qed.
Lemma cone_double cosine x : accurate_cos cosine -> 0 <= x <= 180 ->
  exists s, cone_solid_angle_double cosine x = Fin s /\ Rabs (s - ring_sr 0 (deg x)) <= 256 * u /\ double s.
Proof.
  intros Hc Hx. pose proof u_pos as U0. pose proof u_small as U1. pose proof eta_u as ETA. assert (E0 : 0 < eta) by apply bpow_gt_0. pose proof pi_range as PIr. unfold cone_solid_angle_double. cbv zeta.
  destruct (round_err_le (PI / 180) (4 / 180)) as (f & Ef & Hf & _); [rewrite Rabs_pos_eq by lra; lra|lra|]. rewrite Ef.
  assert (F0 : 0 <= f) by (apply (fl_ge _ _ _ Ef); [exists 0%Z, 0%Z; split; [reflexivity|split; [lia|cbn; ring]]|lra]).
  assert (F1 : f <= 4 / 180 + u) by (apply Rabs_le_inv in Hf; lra).
  rewrite fmul_fin. assert (XF : Rabs (x * f) <= 41 / 10) by (rewrite Rabs_pos_eq by (apply Rmult_le_pos; lra); apply Rle_trans with (180 * (4 / 180 + u)); [apply Rmult_le_compat; lra|lra]).
  destruct (round_err_le (x * f) (41 / 10)) as (r & Er & Hr & Dr); [auto|lra|]. rewrite Er.
  assert (R0 : 0 <= r) by (apply (fl_ge _ _ _ Er); [exists 0%Z, 0%Z; split; [reflexivity|split; [lia|cbn; ring]]|apply Rmult_le_pos; lra]).
  assert (R1 : Rabs (r - deg x) <= 9 * u).
  { unfold deg. replace (r - x * (PI / 180)) with ((r - x * f) + x * (f - PI / 180)) by ring. eapply Rle_trans; [apply Rabs_triang|]. rewrite (Rabs_mult x), (Rabs_pos_eq x) by lra.
    assert (x * Rabs (f - PI / 180) <= 180 * (u * (4 / 180) + eta)) by (apply Rmult_le_compat; try lra; apply Rabs_pos). lra. }
  assert (R2 : r <= 5) by (apply Rabs_le_inv in Hr; apply Rabs_le_inv in XF; lra).
  destruct (Hc r (conj R0 R2) Dr) as (c & Ec & Hcc). rewrite Ec. rewrite eps53_u in Hcc. pose proof (cos_lip (deg x) r) as CL. pose proof (COS_bound (deg x)) as CB.
  assert (Cx : Rabs (c - cos (deg x)) <= 11 * u) by (replace (c - cos (deg x)) with ((c - cos r) + (cos r - cos (deg x))) by ring; eapply Rle_trans; [apply Rabs_triang|lra]).
  unfold fsub. cbn [nsub nadd nneg fl_num]. replace (1 + - c) with (1 - c) by ring.
  assert (OC : Rabs (1 - c) <= 21 / 10) by (apply Rabs_le_inv in Cx; apply Rabs_le; lra).
  destruct (round_err_le (1 - c) (21 / 10)) as (d & Ed & Hd & _); [auto|lra|]. rewrite Ed.
  assert (Dx : Rabs (d - (1 - cos (deg x))) <= 14 * u) by (replace (d - (1 - cos (deg x))) with ((d - (1 - c)) - (c - cos (deg x))) by ring; eapply Rle_trans; [apply Rabs_triang|]; rewrite Rabs_Ropp; lra).
  destruct (round_err_le PI 4) as (p & Ep & Hp & _); [rewrite Rabs_pos_eq by lra; lra|lra|]. rewrite Ep, fmul_fin.
  assert (P1 : Rabs (2 * p) <= 81 / 10) by (apply Rabs_le_inv in Hp; apply Rabs_le; lra).
  destruct (round_err_le (2 * p) (81 / 10)) as (P2 & EP & HP & _); [auto|lra|]. rewrite EP, fmul_fin.
  assert (PX : Rabs (P2 - 2 * PI) <= 17 * u).
  { replace (P2 - 2 * PI) with ((P2 - 2 * p) + 2 * (p - PI)) by ring. eapply Rle_trans; [apply Rabs_triang|]. rewrite (Rabs_mult 2), (Rabs_pos_eq 2) by lra. lra. }
  assert (DB : Rabs d <= 22 / 10) by (apply Rabs_le_inv in Dx; apply Rabs_le; lra).
  assert (PR : Rabs (P2 * d - 2 * PI * (1 - cos (deg x))) <= 150 * u).
  { eapply Rle_trans; [apply (abs_diff_mult P2 d (2 * PI) (1 - cos (deg x)) (17 * u) (14 * u) 8 (22 / 10)); auto; try lra; rewrite Rabs_pos_eq; lra|]. lra. }
  assert (SB : Rabs (2 * PI * (1 - cos (deg x))) <= 16) by (rewrite Rabs_mult, !Rabs_pos_eq by lra; apply Rle_trans with (8 * 2); [apply Rmult_le_compat; lra|lra]).
  destruct (round_err_le (P2 * d) 17) as (s & Es & Hs & Ds); [eapply Rle_trans; [apply (abs_near _ _ _ _ PR SB)|lra]|lra|]. exists s. split; auto. split; auto.
  rewrite <- cone_value. unfold cone_solid_angle. replace (s - 2 * PI * (1 - cos (deg x))) with ((s - P2 * d) + (P2 * d - 2 * PI * (1 - cos (deg x)))) by ring. eapply Rle_trans; [apply Rabs_triang|]. lra.
Qed.
Lemma ring_cone0 a b : ring_deg a b = ring_sr 0 (deg b) - ring_sr 0 (deg a).
Proof. unfold ring_deg, ring_sr. ring. Qed.
Lemma ring_double cosine a b : accurate_cos cosine -> 0 <= a <= 180 -> 0 <= b <= 180 ->
  exists s, fsub (cone_solid_angle_double cosine b) (cone_solid_angle_double cosine a) = Fin s /\ Rabs (s - ring_deg a b) <= 600 * u.
Proof.
  intros Hc Ha Hb. pose proof u_pos as U0. pose proof u_small as U1. pose proof eta_u as ETA. assert (E0 : 0 < eta) by apply bpow_gt_0. pose proof pi_range as PIr.
  destruct (cone_double cosine a Hc Ha) as (x & -> & Ex & _). destruct (cone_double cosine b Hc Hb) as (y & -> & Ey & _). unfold fsub. cbn [nsub nadd nneg fl_num]. replace (y + - x) with (y - x) by ring.
  rewrite ring_cone0. assert (D : Rabs (y - x - (ring_sr 0 (deg b) - ring_sr 0 (deg a))) <= 512 * u).
  { replace (y - x - (ring_sr 0 (deg b) - ring_sr 0 (deg a))) with ((y - ring_sr 0 (deg b)) - (x - ring_sr 0 (deg a))) by ring. eapply Rle_trans; [apply Rabs_triang|]. rewrite Rabs_Ropp. lra. }
  assert (B : Rabs (ring_sr 0 (deg b) - ring_sr 0 (deg a)) <= 16).
  { rewrite <- ring_cone0. unfold ring_deg, ring_sr. pose proof (COS_bound (deg a)). pose proof (COS_bound (deg b)). rewrite Rabs_mult, (Rabs_pos_eq (2 * PI)) by lra. apply Rle_trans with (8 * 2); [apply Rmult_le_compat; try lra; [apply Rabs_pos|apply Rabs_le; lra]|lra]. }
  destruct (round_err_le (y - x) 17) as (s & Es & Hs & _); [eapply Rle_trans; [apply (abs_near _ _ _ _ D B)|lra]|lra|]. exists s. split; auto.
  replace (s - (ring_sr 0 (deg b) - ring_sr 0 (deg a))) with ((s - (y - x)) + (y - x - (ring_sr 0 (deg b) - ring_sr 0 (deg a)))) by ring. eapply Rle_trans; [apply Rabs_triang|]. lra.
Qed.
Lemma psf_entry n m W s : (n <= m)%nat -> (Z.of_nat m <= 2 ^ 53)%Z -> Rabs (s - W) <= 600 * u -> 10000 * u <= W -> W <= 32 ->
  exists v, fdiv (default_nan_to_num (fdiv (Fin (INR n)) (Fin (INR m)))) (Fin s) = Fin v /\ 0 <= v /\ Rabs (v - dratio n m / W) <= 1000 * u / W * (dratio n m / W).
Proof.
  intros H1 H2 Hs W1 W2. pose proof u_pos as U0. pose proof u_small as U1. assert (Sl : 94 / 100 * W <= s <= 2 * W) by (apply Rabs_le_inv in Hs; lra). assert (Sp : 0 < s) by lra.
  assert (Z : dratio n m = 0 -> exists v, Fin 0 = Fin v /\ 0 <= v /\ Rabs (v - dratio n m / W) <= 1000 * u / W * (dratio n m / W)).
  { intros ->. exists 0. split; auto. split; [lra|]. unfold Rdiv. rewrite !Rmult_0_l, Rminus_0_r, Rabs_R0, Rmult_0_r. lra. }
  destruct (share_entry n m H1 H2) as [(-> & E)|(Hm & q & E & Nq & Q0 & Q1)]; rewrite E; unfold default_nan_to_num; cbn [nan_to_num].
  - rewrite fdiv_fin by lra. unfold Rdiv at 1. rewrite Rmult_0_l, fl0. apply Z. reflexivity.
  - rewrite fdiv_fin by lra. destruct (Nat.eq_dec n 0) as [N|N].
    + rewrite (Q0 N). unfold Rdiv at 1. rewrite Rmult_0_l, fl0. apply Z. unfold dratio. rewrite N. destruct (Nat.eqb m 0); cbn [INR]; unfold Rdiv; ring.
    + assert (Ps : pr (-50) 10 s).
      { split; [|change (bpow radix2 10) with 1024; lra]. apply Rle_trans with (8192 * u); [|lra]. unfold u. change 8192 with (bpow radix2 13). rewrite <- bpow_plus. apply bpow_le. lia. }
      destruct (fl_step' (pr_div _ _ _ _ _ _ (Q1 N) Ps) eq_refl) as (v & -> & Nv & Rv & _). exists v. split; auto. pose proof (pr_pos _ _ _ Rv). split; [lra|].
      assert (Nv2 : near 2 (dratio n m / s) v) by (apply (near_trans 1 1 _ (q / s)); auto; apply (near_div 1 0); auto using near_refl; lra).
      pose proof (dratio_nonneg n m) as D0. set (D := dratio n m) in *. apply near_abs in Nv2; [|lia]. replace (INR (2 + 1)) with 3 in Nv2 by (simpl; lra).
      assert (Ip : 0 < / s) by (apply Rinv_0_lt_compat; auto). rewrite (Rabs_pos_eq (D / s)) in Nv2 by (apply Rmult_le_pos; lra).
      replace (v - D / W) with ((v - D / s) + D / W * ((W - s) / s)) by (field; lra). eapply Rle_trans; [apply Rabs_triang|].
      assert (DW : 0 <= D / W) by (apply Rmult_le_pos; [auto|left; apply Rinv_0_lt_compat; lra]).
      rewrite (Rabs_mult (D / W)), (Rabs_pos_eq (D / W)) by auto. rewrite Rabs_minus_sym in Hs.
      assert (QS : Rabs ((W - s) / s) <= 600 * u * / s) by (unfold Rdiv; rewrite (Rabs_mult (W - s)), (Rabs_pos_eq (/ s)) by lra; apply Rmult_le_compat_r; lra).
      apply Rle_trans with (3 * u * (D / s) + D / W * (600 * u * / s)).
      { apply Rplus_le_compat; auto. apply Rmult_le_compat_l; auto. }
      replace (3 * u * (D / s) + D / W * (600 * u * / s)) with (D / W * (u * (3 * W + 600) * / s)) by (field; lra). rewrite Rmult_comm. apply Rmult_le_compat_r; auto.
      replace (1000 * u / W) with (1000 * u * s / W * / s) by (field; lra). apply Rmult_le_compat_r; [lra|].
      apply Rle_trans with (u * 700); [apply Rmult_le_compat_l; lra|]. replace (1000 * u * s / W) with (u * (1000 * s / W)) by (field; lra). apply Rmult_le_compat_l; [lra|].
      apply Rmult_le_reg_r with W; [lra|]. unfold Rdiv. rewrite Rmult_assoc, Rinv_l by lra. lra.
Qed.
Section Psf.
Variables (cosine : num -> num) (evs : list dl2) (ebins fbins : list num) (sbins : list R) (w : R).
Hypotheses (Hcos : accurate_cos cosine) (He : nondecreasing ebins) (Le : (2 <= length ebins)%nat) (Hf : nondecreasing fbins) (Lf : (2 <= length fbins)%nat)
  (Hs : angles sbins) (Ls : (2 <= length sbins)%nat) (N : (Z.of_nat (length evs) <= 2 ^ 53)%Z) (Hw : 10000 * eps53 <= w)
  (Hr : forall k a b, nth_error sbins k = Some a -> nth_error sbins (S k) = Some b -> w <= ring_deg a b).
Let nE := (length ebins - 1)%nat.
Let nS := (length sbins - 1)%nat.
Let nF := (length fbins - 1)%nat.
Let Ls' : (2 <= length (map Fin sbins))%nat.
Proof. rewrite map_length. auto. Qed.
Let Hs' := inc_nondec sbins (proj1 Hs).
Let c i j k := cnt true_energy true_fov_offset theta ebins fbins (map Fin sbins) evs i j k.
Let t i j := tot3 true_energy true_fov_offset theta ebins fbins (map Fin sbins) evs i j.
Let W k := ring_deg (nth k sbins 0) (nth (S k) sbins 0).
Lemma W_range k : (k < nS)%nat -> w <= W k <= 32.
Proof.
  intros Hk. destruct (nth_some_ex sbins k) as [a Ha]; [unfold nS in *; lia|]. destruct (nth_some_ex sbins (S k)) as [b Hb]; [unfold nS in *; lia|].
  unfold W. rewrite (nth_error_nth _ _ _ Ha), (nth_error_nth _ _ _ Hb). split; [eapply Hr; eauto|]. unfold ring_deg, ring_sr. pose proof (COS_bound (deg a)). pose proof (COS_bound (deg b)). pose proof pi_range.
  apply Rle_trans with (8 * 2); [|lra]. apply Rle_trans with (2 * PI * 2); [apply Rmult_le_compat_l; lra|lra].
Qed.
Lemma psf_double_eq : exists out, psf_table_double cosine evs ebins sbins fbins = Ok out /\ shape out = [nE; nF; nS] /\
  forall i j k, (i < nE)%nat -> (j < nF)%nat -> (k < nS)%nat -> exists v, at_ out [i; j; k] = Fin v /\ 0 <= v /\
    Rabs (v - dratio (c i j k) (t i j) / W k) <= 1000 * u / W k * (dratio (c i j k) (t i j) / W k).
Proof.
  unfold psf_table_double. change ([(true_energy, ebins); (true_fov_offset, fbins); (theta, map Fin sbins)]) with (dims3 true_energy true_fov_offset theta ebins fbins (map Fin sbins)).
  rewrite hist3 by auto. cbn [rbind]. rewrite map_length. unfold normalize_psf_double. fold nE nS nF.
  assert (Lw : length (diff_double (map (cone_solid_angle_double cosine) sbins)) = nS) by (rewrite diff_double_length, map_length; auto). unfold tsum_double.
  bnorm. cbn [rbind]. rewrite Lw. bnorm. eexists. split; [reflexivity|]. split; [reflexivity|].
  intros i j k Hi Hj Hk. inorm. cbn [nth].
  pose proof (fsum3 true_energy true_fov_offset theta ebins fbins (map Fin sbins) evs N i j) as F. rewrite map_length in F. fold nS in F. rewrite F.
  change (wsum unweighted _ evs) with (wsum unweighted (hdd_match (dims3 true_energy true_fov_offset theta ebins fbins (map Fin sbins)) [i; j; k]) evs).
  rewrite cnt_wsum. fold (c i j k) (t i j). rewrite (diff_double_nth (cone_solid_angle_double cosine)) by (unfold nS in *; lia).
  destruct (ring_double cosine (nth k sbins 0) (nth (S k) sbins 0) Hcos) as (s & Es & Hs1); [apply (proj2 Hs), nth_In; unfold nS in *; lia|apply (proj2 Hs), nth_In; unfold nS in *; lia|]. rewrite Es. fold (W k) in Hs1.
  pose proof (W_range k Hk) as [W1 W2]. rewrite eps53_u in Hw. apply psf_entry; auto; try lra.
  - apply cnt_tot3. rewrite map_length. auto.
  - apply tot3_le; auto.
Qed.
Theorem psf_double : exists out, psf_table_double cosine evs ebins sbins fbins = Ok out /\
  shape out = [(length ebins - 1)%nat; (length fbins - 1)%nat; (length sbins - 1)%nat] /\
  forall i j, (i < length ebins - 1)%nat -> (j < length fbins - 1)%nat ->
    exists d, length d = (length sbins - 1)%nat /\
      (forall k v, nth_error d k = Some v -> at_ out [i; j; k] = Fin v /\ 0 <= v) /\
      (forall k v n m a b, nth_error d k = Some v -> nth_error sbins k = Some a -> nth_error sbins (S k) = Some b ->
        number_of (fun e => in_hist_bin ebins i (true_energy e) /\ in_hist_bin fbins j (true_fov_offset e) /\ in_hist_bin (map Fin sbins) k (theta e)) evs n ->
        number_of (fun e => in_hist_bin ebins i (true_energy e) /\ in_hist_bin fbins j (true_fov_offset e) /\ in_range (map Fin sbins) (theta e)) evs m ->
        (0 < m)%nat -> Rabs (v - INR n / INR m / ring_deg a b) <= 1000 * eps53 / ring_deg a b * (INR n / INR m / ring_deg a b)) /\
      ((exists e, In e evs /\ in_hist_bin ebins i (true_energy e) /\ in_hist_bin fbins j (true_fov_offset e) /\ in_range (map Fin sbins) (theta e)) ->
       Rabs (integral_over ring_deg sbins d - 1) <= 1000 * eps53 / w) /\
      ((forall e, In e evs -> ~ (in_hist_bin ebins i (true_energy e) /\ in_hist_bin fbins j (true_fov_offset e) /\ in_range (map Fin sbins) (theta e))) ->
       forall v, In v d -> v = 0).
Proof.
  destruct psf_double_eq as (out & Eo & So & Ho). exists out. split; auto. split; auto. intros i j Hi Hj. rewrite eps53_u in *. pose proof u_pos as U0.
  assert (E : forall k, (k < nS)%nat -> exists v, at_ out [i; j; k] = Fin v /\ 0 <= v /\ Rabs (v - dratio (c i j k) (t i j) / W k) <= 1000 * u / W k * (dratio (c i j k) (t i j) / W k)) by (intros; apply Ho; auto).
  set (d := map (fun k => match at_ out [i; j; k] with Fin v => v | _ => 0 end) (seq 0 nS)).
  assert (Hd : forall k v, nth_error d k = Some v -> (k < nS)%nat /\ at_ out [i; j; k] = Fin v /\ 0 <= v /\ Rabs (v - dratio (c i j k) (t i j) / W k) <= 1000 * u / W k * (dratio (c i j k) (t i j) / W k)).
  { intros k v Hk. unfold d in Hk. apply map_nth_inv in Hk as (k' & Hk & ->). apply seq_nth_val in Hk as [-> Hk]. split; auto. destruct (E k Hk) as (v & -> & Nv). auto. }
  assert (T : number_of (fun e => in_hist_bin ebins i (true_energy e) /\ in_hist_bin fbins j (true_fov_offset e) /\ in_range (map Fin sbins) (theta e)) evs (t i j)) by (apply number_of_count; intros e _; apply sel3; auto; exact unweighted).
  assert (W0 : 0 < w) by lra.
  exists d. split; [unfold d; rewrite map_length, seq_length; auto|]. split; [|split; [|split]].
  - intros k v Hk. apply Hd in Hk as (Lk & Ea & V0 & _). auto.
  - intros k v n m a b Hk Ha Hb Hn Hm0 Mp. apply Hd in Hk as (Lk & _ & _ & Nv).
    assert (Ec : c i j k = n).
    { eapply number_of_unique; [|exact Hn]. unfold c, cnt. apply number_of_count. intros e _. unfold dims3. cbn [hdd_match]. rewrite andb_true_r, andb_assoc. apply (cell3 true_energy true_fov_offset theta ebins fbins (map Fin sbins)); auto; try exact unweighted. rewrite map_length. auto. }
    assert (Et : t i j = m) by (eapply number_of_unique; [exact T|exact Hm0]).
    rewrite Ec, Et in Nv. unfold W in Nv. rewrite (nth_error_nth _ _ _ Ha), (nth_error_nth _ _ _ Hb) in Nv. unfold dratio in Nv. destruct (Nat.eqb_spec m 0); [lia|]. auto.
  - intros (e & Hin & Q). assert (Ht : t i j <> 0%nat) by (intros Z; rewrite Z in T; apply (number_of_zero _ _ e) in T; auto).
    unfold d. unfold nS at 1. rewrite integral_over_seq. fold nS. cbn [Nat.add].
    assert (S1 : rsum (map (fun k => dratio (c i j k) (t i j)) (seq 0 nS)) = 1) by (pose proof (dratio_sum3 true_energy true_fov_offset theta ebins fbins (map Fin sbins) evs i j Ht) as S1; rewrite map_length in S1; exact S1).
    pose proof (rsum_close (fun k => match at_ out [i; j; k] with Fin v => v | _ => 0 end * ring_deg (nth k sbins 0) (nth (S k) sbins 0)) (fun k => dratio (c i j k) (t i j)) (seq 0 nS) (1000 * u / w)) as RC.
    rewrite S1 in RC. rewrite Rmult_1_r in RC. apply RC; [apply Rmult_le_pos; [lra|left; apply Rinv_0_lt_compat; lra]|intros; apply dratio_nonneg|]. intros k Hk. apply in_seq in Hk. destruct (E k ltac:(lia)) as (v & -> & _ & Nv).
    change (ring_deg (nth k sbins 0) (nth (S k) sbins 0)) with (W k). pose proof (W_range k ltac:(lia)) as [W1 W2]. pose proof (dratio_nonneg (c i j k) (t i j)) as D0. set (D := dratio (c i j k) (t i j)) in *.
    replace (v * W k - D) with ((v - D / W k) * W k) by (field; lra). rewrite Rabs_mult, (Rabs_pos_eq (W k)) by lra.
    apply Rle_trans with (1000 * u / W k * (D / W k) * W k); [apply Rmult_le_compat_r; lra|]. replace (1000 * u / W k * (D / W k) * W k) with (1000 * u * / W k * D) by (field; lra).
    apply Rmult_le_compat_r; auto. apply Rmult_le_compat_l; [lra|]. apply Rinv_le_contravar; lra.
  - intros Hno v Hv. apply In_nth_error in Hv as (k & Hk). apply Hd in Hk as (Lk & _ & _ & Nv). assert (Z : t i j = 0%nat).
    { eapply number_of_unique; [exact T|]. apply zero_number_of. intros e Hin. apply Hno; auto. }
    rewrite Z in Nv. unfold dratio in Nv. cbn [Nat.eqb] in Nv. unfold Rdiv in Nv. rewrite Rmult_0_l, Rmult_0_r, Rminus_0_r in Nv. pose proof (Rabs_pos v). destruct (Req_dec v 0); auto. pose proof (Rabs_pos_lt v ltac:(auto)). lra.
Qed.
End Psf.
(** ** tiny rings *)
Definition rounded_cos (x : num) : num := match x with Fin r => fl (cos r) | _ => NaN end.
Theorem rounded_cos_accurate : accurate_cos rounded_cos.
Proof.
  intros x Hx _. pose proof (COS_bound x). destruct (round_err_le (cos x) 1) as (c & Ec & Hc & _); [apply Rabs_le; lra|lra|]. exists c. split; auto. rewrite eps53_u. pose proof eta_u. pose proof u_pos. lra.
Qed.
Lemma cos_ge x : 1 - x * x / 2 <= cos x.
Proof.
  replace x with (2 * (x / 2)) at 3 by field. rewrite cos_2a_sin. set (y := x / 2). replace (x * x / 2) with (2 * (y * y)) by (unfold y; field).
  assert (Rabs (sin y) <= Rabs y).
  { replace (sin y) with (sin y - sin 0) by (rewrite sin_0; ring). destruct (MVT_abs sin cos 0 y) as (z & E & _); [intros; apply derivable_pt_lim_sin|]. rewrite E, Rminus_0_r. pose proof (COS_bound z). assert (Rabs (cos z) <= 1) by (apply Rabs_le; lra). pose proof (Rabs_pos y). nra. }
  assert (sin y * sin y <= y * y); [|lra]. apply Rsqr_le_abs_1 in H. exact H.
Qed.
Lemma round_one x : 1 - u / 4 <= x <= 1 -> round64 x = 1.
Proof.
  intros [H1 H2]. pose proof u_pos as U0. pose proof u_small. assert (x <= 1) by lra.
  assert (E : round64 x <= 1) by (rewrite <- (proj1 (double_fix 1 double_1)); apply round64_mono; auto).
  destruct (round_N_pt radix2 fexp (fun n => negb (Z.even n)) x) as [_ M]. specialize (M 1). assert (G : generic_format radix2 fexp 1) by (change 1 with (bpow radix2 0); apply generic_format_bpow; unfold FLT_exp; lia).
  specialize (M G). change (round radix2 fexp (Znearest (fun n => negb (Z.even n))) x) with (round64 x) in M. rewrite (Rabs_pos_eq (1 - x)) in M by lra.
  assert (D : double (round64 x)) by (apply double_round; pose proof (bpow_fmax 10 ltac:(lia)) as F; change (bpow radix2 10) with 1024 in F; apply Rabs_le; lra).
  destruct (Req_dec (round64 x) 1) as [|N]; auto. exfalso. apply Rabs_le_inv in M. destruct (double_near_one (round64 x) D) as [Q|Q]; auto; try lra. fold u in Q. lra. pose proof (bpow_gt_0 radix2 (-52)). lra.
Qed.
Lemma cone_zero x : 0 <= x <= / 10 ^ 7 -> cone_solid_angle_double rounded_cos x = Fin 0.
Proof.
  intros Hx. pose proof u_pos as U0. pose proof u_small as U1. pose proof eta_u as ETA. assert (E0 : 0 < eta) by apply bpow_gt_0. pose proof pi_range as PIr. unfold cone_solid_angle_double. cbv zeta.
  destruct (round_err_le (PI / 180) (4 / 180)) as (f & Ef & Hf & _); [rewrite Rabs_pos_eq by lra; lra|lra|]. rewrite Ef.
  assert (D0 : double 0) by (exists 0%Z, 0%Z; split; [reflexivity|split; [lia|cbn; ring]]).
  assert (F0 : 0 <= f) by (apply (fl_ge _ _ _ Ef D0); lra). assert (F1 : f <= 4 / 180 + u) by (apply Rabs_le_inv in Hf; lra).
  rewrite fmul_fin. assert (XF : 0 <= x * f <= / 10 ^ 7 / 40) by (split; [apply Rmult_le_pos; lra|apply Rmult_le_compat; lra]).
  assert (T7 : / 10 ^ 7 = / 10000000) by (f_equal; simpl; lra). rewrite T7 in *.
  destruct (round_err_le (x * f) (/ 10000000 / 40)) as (r & Er & Hr & Dr); [rewrite Rabs_pos_eq; lra|lra|]. rewrite Er.
  assert (R0 : 0 <= r) by (apply (fl_ge _ _ _ Er D0); lra). assert (R2 : r <= / 10000000 / 30) by (change u with (/ 9007199254740992) in Hr, ETA; apply Rabs_le_inv in Hr; lra).
  cbn [rounded_cos]. assert (C : round64 (cos r) = 1).
  { apply round_one. pose proof (cos_ge r). pose proof (COS_bound r). split; [|lra]. change u with (/ 9007199254740992). assert (r * r <= / 10000000 / 30 * (/ 10000000 / 30)) by (apply Rmult_le_compat; lra). lra. }
  rewrite (fl_of 1 _ C) by (rewrite Rabs_pos_eq by lra; pose proof (bpow_fmax 10 ltac:(lia)) as F; change (bpow radix2 10) with 1024 in F; lra).
  unfold fsub. cbn [nsub nadd nneg fl_num]. rewrite Rplus_opp_r, fl0. destruct (round_err_le PI 4) as (p & -> & Hp & _); [rewrite Rabs_pos_eq by lra; lra|lra|]. rewrite fmul_fin.
  destruct (round_err_le (2 * p) (81 / 10)) as (P2 & -> & _ & _); [apply Rabs_le_inv in Hp; apply Rabs_le; lra|lra|]. rewrite fmul_fin, Rmult_0_r. apply fl0.
Qed.
Theorem psf_tiny evs ebins fbins x i j : nondecreasing ebins -> (2 <= length ebins)%nat -> nondecreasing fbins -> (2 <= length fbins)%nat -> (Z.of_nat (length evs) <= 2 ^ 53)%Z -> 0 < x <= / 10 ^ 7 ->
  (i < length ebins - 1)%nat -> (j < length fbins - 1)%nat ->
  exists out, psf_table_double rounded_cos evs ebins [0; x] fbins = Ok out /\ (at_ out [i; j; 0%nat] = PInf \/ at_ out [i; j; 0%nat] = NaN).
Proof.
  intros He Le Hf Lf N Hx Hi Hj. unfold psf_table_double. change ([(true_energy, ebins); (true_fov_offset, fbins); (theta, map Fin [0; x])]) with (dims3 true_energy true_fov_offset theta ebins fbins (map Fin [0; x])).
  assert (Hs : nondecreasing (map Fin [0; x])) by (apply inc_nondec; intros [|[|k]] a b Ha Hb; cbn in Ha, Hb; inversion Ha; inversion Hb; subst; try lra; destruct k; discriminate).
  rewrite hist3 by (auto; cbn; lia). cbn [rbind]. rewrite map_length. unfold normalize_psf_double.
  assert (Lw : diff_double (map (cone_solid_angle_double rounded_cos) [0; x]) = [Fin 0]).
  { cbn [map]. rewrite !cone_zero by lra. unfold diff_double. cbn. unfold fsub. cbn [nsub nadd nneg fl_num]. rewrite Rplus_opp_r, fl0. auto. }
  unfold tsum_double. cbn [length Nat.sub]. set (nE := (length ebins - 1)%nat) in *. set (nF := (length fbins - 1)%nat) in *. rewrite Lw. bnorm. cbn [rbind]. bnorm. eexists. split; [reflexivity|]. inorm. cbn [nth].
  pose proof (fsum3 true_energy true_fov_offset theta ebins fbins (map Fin [0; x]) evs N i j) as F. rewrite map_length in F. cbn [length Nat.sub] in F. rewrite F.
  change (wsum unweighted _ evs) with (wsum unweighted (hdd_match (dims3 true_energy true_fov_offset theta ebins fbins (map Fin [0; x])) [i; j; 0%nat]) evs).
  rewrite cnt_wsum. set (c := cnt _ _ _ _ _ _ _ _ _ _). set (t := tot3 _ _ _ _ _ _ _ _ _).
  assert (Z : forall q, 0 <= q -> fdiv (Fin q) (Fin 0) = PInf \/ fdiv (Fin q) (Fin 0) = NaN).
  { intros q Hq. unfold fdiv. cbn. destruct (Reqb_spec 0 0); [|lra]. destruct (Reqb_spec q 0); [auto|]. destruct (Rltb_spec 0 q); [auto|lra]. }
  assert (Ct : (c <= t)%nat) by (apply cnt_tot3; cbn; lia).
  destruct (share_entry c t Ct) as [(_ & E)|(_ & q & E & Nq & _)]; [apply tot3_le; auto| |]; rewrite E; unfold default_nan_to_num; cbn [nan_to_num]; apply Z; [lra|].
  apply (near_nonneg 1 (dratio c t)); auto. apply dratio_nonneg.
Qed.
Theorem cone_double' cosine x : accurate_cos cosine -> 0 <= x <= 180 ->
  exists s, cone_solid_angle_double cosine x = Fin s /\ Rabs (s - 2 * PI * (1 - cos (deg x))) <= 256 * eps53.
Proof. intros Hc Hx. destruct (cone_double cosine x Hc Hx) as (s & E & H & _). exists s. split; auto. rewrite eps53_u. rewrite <- cone_value in H. exact H. Qed.
Theorem tiny evs ebins fbins x i j : nondecreasing ebins -> (2 <= length ebins)%nat -> nondecreasing fbins -> (2 <= length fbins)%nat ->
  (Z.of_nat (length evs) <= 2 ^ 53)%Z -> 0 < x <= / 10 ^ 7 -> (i < length ebins - 1)%nat -> (j < length fbins - 1)%nat ->
  cone_solid_angle_double rounded_cos x = Fin 0 /\
  exists out, psf_table_double rounded_cos evs ebins [0; x] fbins = Ok out /\ (at_ out [i; j; 0%nat] = PInf \/ at_ out [i; j; 0%nat] = NaN).
Proof. intros. split; [apply cone_zero; lra|]. apply psf_tiny; auto. Qed.
Theorem rounded_ratio x y q edge : y <> 0 -> double edge -> fdiv (Fin x) (Fin y) = Fin q ->
  (edge <= x / y -> edge <= q) /\ (q < edge -> x / y < edge) /\ (x / y < edge -> q <= edge).
Proof.
  intros Hy D E. rewrite fdiv_fin in E by auto. assert (G : edge <= x / y -> edge <= q) by (apply (fl_ge _ _ _ E D)). split; auto. split.
  - intros H. destruct (Rlt_dec (x / y) edge); auto. assert (edge <= q) by (apply G; lra). lra.
  - intros H. apply (fl_le _ _ _ E D). lra.
Qed.
Theorem double_example : accurate_cos rounded_cos /\ moderate_widths [1 / 5; 1; 5] /\ increasing [1 / 5; 1; 5] /\
  angles [0; 90] /\ 10000 * eps53 <= ring_deg 0 90 /\ moderate 7 /\ double 7.
Proof.
  assert (M : forall x, / 2 <= x <= 100 -> moderate x).
  { intros x Hx. assert (100 <= 10 ^ 60) by (apply Rle_trans with (10 ^ 2); [simpl; lra|apply Rle_pow; [lra|lia]]). split; [|lra]. apply Rle_trans with (/ 2); [apply Rinv_le_contravar; lra|lra]. }
  split; [exact rounded_cos_accurate|]. split; [|split; [|split; [|split; [|split]]]].
  - intros [|[|[|i]]] a b Ha Hb; cbn in Ha, Hb; try (destruct i; discriminate); try discriminate; inversion Ha; inversion Hb; subst; apply M; lra.
  - intros [|[|[|i]]] a b Ha Hb; cbn in Ha, Hb; try (destruct i; discriminate); try discriminate; inversion Ha; inversion Hb; subst; lra.
  - split; [|intros x [<-|[<-|[]]]; lra]. intros [|[|i]] a b Ha Hb; cbn in Ha, Hb; try (destruct i; discriminate); try discriminate; inversion Ha; inversion Hb; subst; lra.
  - unfold ring_deg, ring_sr, deg. rewrite eps53_u. pose proof u_small. pose proof pi_range. replace (0 * (PI / 180)) with 0 by ring. replace (90 * (PI / 180)) with (PI / 2) by field. rewrite cos_0, cos_PI2. lra.
  - apply M. lra.
  - exists 7%Z, 0%Z. split; [reflexivity|split; [lia|cbn; ring]].
Qed.
