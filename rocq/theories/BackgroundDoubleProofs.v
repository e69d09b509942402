(** * BackgroundDoubleProofs: the background rate in double precision *)
From Coq Require Import String Reals List Bool ZArith Arith Lia Lra Psatz Permutation.
From Flocq Require Import Core.
From Verif Require Import Num Numpy Lists SpecBinning Table Binning BinningProofs HistProofs Utils SpecUtils SpecSimulations Simulations SimulationsProofs SimulationsProofs2
  Tensor TensorProofs SpecIRF IRF IRFProofs IRFProofs2 IRFProofs3 IRFProofs4 Double SpecDouble DoubleProofs NearProofs LiMaDoubleProofs LiMaDouble2Proofs IRFDouble IRFDoubleProofs IRFDouble2Proofs PSFDoubleProofs
  HistDouble HistDoubleProofs HistDouble2Proofs.
Import ListNotations.
Open Scope R_scope.

Lemma sum_range l : Forall (fun v => v = 0 \/ moderate v) l -> (Z.of_nat (length l) <= 2 ^ 53)%Z -> rsum l = 0 \/ pr (-200) 253 (rsum l).
Proof.
  intros F N. assert (H : rsum l = 0 \/ bpow radix2 (-200) <= rsum l).
  { clear N. induction F as [|v l Hv F IH]; [left; reflexivity|]. change (rsum (v :: l)) with (v + rsum l). pose proof (bpow_gt_0 radix2 (-200)).
    destruct Hv as [->|Hv]; [rewrite Rplus_0_l; exact IH|]. right. pose proof (moderate_pr v Hv) as [P _]. destruct IH as [->|IH]; lra. }
  destruct H as [H|H]; [auto|right]. split; auto.
  assert (B : rsum l <= INR (length l) * bpow radix2 200).
  { clear N H. induction F as [|v l Hv F IH]; [change (rsum []) with 0; change (INR (length [])) with 0; lra|]. change (rsum (v :: l)) with (v + rsum l). cbn [length]. rewrite S_INR, Rmult_plus_distr_r, Rmult_1_l.
    assert (v <= bpow radix2 200) by (destruct Hv as [->|Hv]; [apply bpow_ge_0|apply moderate_pr; auto]). lra. }
  eapply Rle_trans; [exact B|]. change 253%Z with (53 + 200)%Z. rewrite bpow_plus. apply Rmult_le_compat_r; [apply bpow_ge_0|]. rewrite <- (IZR_Zpower radix2 53) by lia.
  rewrite INR_IZR_INZ. apply IZR_le. exact N.
Qed.
Lemma rate_entry l dw t s W : Forall (fun v => v = 0 \/ moderate v) l -> Forall double l -> (Z.of_nat (length l) <= 2 ^ 50)%Z ->
  moderate dw -> moderate t -> Rabs (s - W) <= 600 * u -> 10000 * u <= W -> W <= 32 ->
  forall dw', near 1 dw dw' -> pr (-200) 200 dw' ->
  let c := rsum l / dw / t / W in
  exists v, fdiv (fdiv (fdiv (fsum (map Fin l)) (Fin dw')) (Fin t)) (Fin s) = Fin v /\ 0 <= v /\ Rabs (v - c) <= (3 * (INR (length l) + 4) * u + 1000 * u / W) * c.
Proof.
  intros F D N Md Mt Hs W1 W2 dw' Nd Pd c. pose proof u_pos as U0. pose proof u_small as U1.
  assert (Sl : 94 / 100 * W <= s <= 2 * W) by (apply Rabs_le_inv in Hs; lra). assert (Sp : 0 < s) by lra.
  pose proof (moderate_pr t Mt) as Pt. pose proof (pr_pos _ _ _ Pt). pose proof (pr_pos _ _ _ Pd). pose proof (pr_pos _ _ _ (moderate_pr dw Md)).
  assert (F0 : Forall (fun v => 0 <= v /\ double v) l).
  { apply Forall_forall. intros v Hv. split; [|apply (proj1 (Forall_forall _ _) D); auto]. destruct (proj1 (Forall_forall _ _) F v Hv) as [->|M]; [lra|]. pose proof (pr_pos _ _ _ (moderate_pr v M)). lra. }
  assert (NU : INR (length l + 4) * u <= / 4).
  { change u with (/ 9007199254740992). rewrite plus_INR. assert (INR (length l) <= IZR (2 ^ 50)) by (rewrite INR_IZR_INZ; apply IZR_le; auto). change (IZR (2 ^ 50)) with 1125899906842624 in *. change (INR 4) with (1 + 1 + 1 + 1). lra. }
  assert (SR := sum_range l F ltac:(lia)).
  assert (S0 : 0 <= rsum l) by (apply rsum_nonneg; intros v Hv; apply (proj1 (Forall_forall _ _) F0); auto).
  assert (SH : rsum l <= huge). { destruct SR as [->|[_ B]]; [apply bpow_ge_0|]. eapply Rle_trans; [exact B|]. apply bpow_le. lia. }
  assert (NU1 : INR (length l) * u <= / 4). { eapply Rle_trans; [|exact NU]. apply Rmult_le_compat_r; [lra|]. apply le_INR. lia. }
  destruct (racc_sum l F0 NU1 SH) as (Nv & Dv & ->). set (v0 := racc 0 l) in *.
  destruct SR as [E0|PS].
  - assert (v0 = 0) as -> by (destruct Nv as (y & _ & Ey); rewrite Ey, E0; ring). rewrite fdiv_fin by lra. replace (0 / dw') with 0 by (unfold Rdiv; ring). rewrite fl0.
    rewrite fdiv_fin by lra. replace (0 / t) with 0 by (unfold Rdiv; ring). rewrite fl0. rewrite fdiv_fin by lra. replace (0 / s) with 0 by (unfold Rdiv; ring). rewrite fl0.
    exists 0. split; auto. split; [lra|]. assert (c = 0) as -> by (unfold c; rewrite E0; unfold Rdiv; ring). rewrite Rminus_0_r, Rabs_R0, Rmult_0_r. lra.
  - assert (P0 : pr (-201) 254 v0).
    { pose proof (near_bound _ _ _ NU1 Nv) as B. destruct PS as [B1 B2]. assert (0 < rsum l) by (pose proof (bpow_gt_0 radix2 (-200)); lra). rewrite (Rabs_pos_eq (rsum l)) in B by lra.
      assert (INR (length l) * u * rsum l <= / 4 * rsum l) by (apply Rmult_le_compat_r; lra). apply Rabs_le_inv in B. split.
      - change (-201)%Z with (-1 + -200)%Z. rewrite bpow_plus. change (bpow radix2 (-1)) with (/ 2). lra.
      - change 254%Z with (1 + 253)%Z. rewrite bpow_plus. change (bpow radix2 1) with 2. lra. }
    assert (Ps : pr (-50) 10 s).
    { split; [|change (bpow radix2 10) with 1024; lra]. apply Rle_trans with (8192 * u); [|lra]. unfold u. change 8192 with (bpow radix2 13). rewrite <- bpow_plus. apply bpow_le. lia. }
    rewrite fdiv_fin by lra. destruct (fl_step' (pr_div _ _ _ _ _ _ P0 Pd) eq_refl) as (a & -> & Na & Pa & _).
    rewrite fdiv_fin by lra. destruct (fl_step' (pr_div _ _ _ _ _ _ Pa Pt) eq_refl) as (b & -> & Nb & Pb & _).
    rewrite fdiv_fin by lra. destruct (fl_step' (pr_div _ _ _ _ _ _ Pb Ps) eq_refl) as (v & -> & Nvv & Pv & _).
    exists v. split; auto. pose proof (pr_pos _ _ _ Pv). split; [lra|].
    assert (NA : near (length l + 1 + 1) (rsum l / dw) a) by (eapply near_trans; [|exact Na]; apply near_div; auto; lra).
    assert (NB : near (length l + 1 + 1 + 0 + 1) (rsum l / dw / t) b) by (eapply near_trans; [|exact Nb]; apply near_div; auto using near_refl; lra).
    assert (NV : near (length l + 1 + 1 + 0 + 1 + 0 + 1) (rsum l / dw / t / s) v) by (eapply near_trans; [|exact Nvv]; apply near_div; auto using near_refl; lra).
    replace (length l + 1 + 1 + 0 + 1 + 0 + 1)%nat with (length l + 4)%nat in NV by lia.
    assert (D0 : 0 <= rsum l / dw / t) by (unfold Rdiv; repeat apply Rmult_le_pos; auto; left; apply Rinv_0_lt_compat; lra). unfold c. set (Q := rsum l / dw / t) in *.
    assert (Ip : 0 < / s) by (apply Rinv_0_lt_compat; auto). assert (QW : 0 <= Q / W) by (apply Rmult_le_pos; [auto|left; apply Rinv_0_lt_compat; lra]).
    pose proof (near_bound _ _ _ NU NV) as B. rewrite (Rabs_pos_eq (Q / s)) in B by (apply Rmult_le_pos; lra). rewrite plus_INR in B, NU. replace (INR 4) with 4 in B, NU by (simpl; lra).
    set (n := INR (length l) + 4) in *.
    replace (v - Q / W) with ((v - Q / s) + Q / W * ((W - s) / s)) by (field; lra). eapply Rle_trans; [apply Rabs_triang|].
    rewrite (Rabs_mult (Q / W)), (Rabs_pos_eq (Q / W)) by auto. rewrite Rabs_minus_sym in Hs.
    assert (QS : Rabs ((W - s) / s) <= 600 * u * / s) by (unfold Rdiv; rewrite (Rabs_mult (W - s)), (Rabs_pos_eq (/ s)) by lra; apply Rmult_le_compat_r; lra).
    apply Rle_trans with (2 * (n * u) * (Q / s) + Q / W * (600 * u * / s)); [apply Rplus_le_compat; auto; apply Rmult_le_compat_l; auto|].
    replace (2 * (n * u) * (Q / s) + Q / W * (600 * u * / s)) with (Q / W * (u * (2 * n * W + 600) * / s)) by (field; lra). rewrite Rmult_comm. apply Rmult_le_compat_r; auto.
    replace (3 * n * u + 1000 * u / W) with (u * ((3 * n * W + 1000) * s / W) * / s) by (field; lra). apply Rmult_le_compat_r; [lra|]. apply Rmult_le_compat_l; [lra|].
    apply Rmult_le_reg_r with W; [lra|]. replace ((3 * n * W + 1000) * s / W * W) with ((3 * n * W + 1000) * s) by (field; lra).
    assert (0 <= n) by (unfold n; pose proof (pos_INR (length l)); lra). assert (0 <= n * W) by (apply Rmult_le_pos; lra).
    apply Rle_trans with ((3 * n * W + 1000) * (94 / 100 * W)); [|apply Rmult_le_compat_l; lra].
    replace ((2 * n * W + 600) * W) with (W * (2 * (n * W) + 600)) by ring. replace ((3 * n * W + 1000) * (94 / 100 * W)) with (W * (94 / 100 * (3 * (n * W) + 1000))) by ring. apply Rmult_le_compat_l; lra.
Qed.
Section B.
Variables (cosine : num -> num) (evs : list dl2) (ebins fbins : list R) (t_obs : R).
Hypotheses (Hcos : accurate_cos cosine) (He : increasing ebins) (Le : (2 <= length ebins)%nat) (Mw : moderate_widths ebins) (Hf : angles fbins) (Lf : (2 <= length fbins)%nat) (Ht : moderate t_obs)
  (HN : (Z.of_nat (length evs) <= 2 ^ 50)%Z) (HW : forall e, In e evs -> double (weight e) /\ (weight e = 0 \/ moderate (weight e)))
  (Hr : forall k a b, nth_error fbins k = Some a -> nth_error fbins (S k) = Some b -> 10000 * eps53 <= ring_deg a b).
Let nE := (length ebins - 1)%nat.
Let nF := (length fbins - 1)%nat.
Let Le' : (2 <= length (map Fin ebins))%nat. Proof. rewrite map_length. auto. Qed.
Let Lf' : (2 <= length (map Fin fbins))%nat. Proof. rewrite map_length. auto. Qed.
Let He' := inc_nondec ebins He.
Let Hf' := inc_nondec fbins (proj1 Hf).
Let sel i j := filter (hdd_match (dims2 reco_energy reco_fov_offset (map Fin ebins) (map Fin fbins)) [i; j]) evs.
Lemma bkg_double_eq : exists out, background_2d_double cosine evs (map Fin ebins) fbins t_obs = Ok out /\ shape out = [nE; nF] /\
  forall i j, (i < nE)%nat -> (j < nF)%nat ->
    at_ out [i; j] = fdiv (fdiv (fdiv (fsum (map Fin (map weight (sel i j)))) (fsub (Fin (nth (S i) ebins 0)) (Fin (nth i ebins 0)))) (Fin t_obs))
       (fsub (cone_solid_angle_double cosine (nth (S j) fbins 0)) (cone_solid_angle_double cosine (nth j fbins 0))).
Proof.
  unfold background_2d_double. change ([(reco_energy, map Fin ebins); (reco_fov_offset, map Fin fbins)]) with (dims2 reco_energy reco_fov_offset (map Fin ebins) (map Fin fbins)).
  unfold histogramdd_double. assert (Hh : exists t, histogramdd (dims2 reco_energy reco_fov_offset (map Fin ebins) (map Fin fbins)) weight evs = Ok t) by (rewrite hist2 by auto; eauto). destruct Hh as (tt & Hh). unfold histogramdd in Hh.
  destruct (existsb _ _); [discriminate Hh|]. destruct (existsb _ _); [discriminate Hh|]. clear Hh. cbn [rbind]. unfold dims2 at 1. cbn [map fst snd]. rewrite !map_length. fold nE nF.
  assert (Lw : length (diff_double (map Fin ebins)) = nE) by (rewrite diff_double_length, map_length; auto).
  assert (Lw' : length (diff_double (map (cone_solid_angle_double cosine) fbins)) = nF) by (rewrite diff_double_length, map_length; auto).
  bnorm. rewrite Lw. bnorm. cbn [rbind]. bnorm. rewrite Lw'. bnorm. eexists. split; [reflexivity|]. split; [reflexivity|].
  intros i j Hi Hj. inorm. rewrite (diff_double_nth Fin) by (unfold nE in *; lia). rewrite (diff_double_nth (cone_solid_angle_double cosine)) by (unfold nF in *; lia). unfold sel. rewrite map_map. reflexivity.
Qed.
Theorem bkg_double : exists out, background_2d_double cosine evs (map Fin ebins) fbins t_obs = Ok out /\ shape out = [(length ebins - 1)%nat; (length fbins - 1)%nat] /\
  forall i j e e' f f' m c, nth_error ebins i = Some e -> nth_error ebins (S i) = Some e' -> nth_error fbins j = Some f -> nth_error fbins (S j) = Some f' ->
    number_of (fun ev => in_hist_bin (map Fin ebins) i (reco_energy ev) /\ in_hist_bin (map Fin fbins) j (reco_fov_offset ev)) evs m ->
    weight_of weight (fun ev => in_hist_bin (map Fin ebins) i (reco_energy ev) /\ in_hist_bin (map Fin fbins) j (reco_fov_offset ev)) evs c ->
    let exact := c / ((e' - e) * t_obs * ring_deg f f') in
    exists rate, at_ out [i; j] = Fin rate /\ 0 <= rate /\ Rabs (rate - exact) <= (3 * (INR m + 4) + 1000 / ring_deg f f') * eps53 * exact.
Proof.
  destruct bkg_double_eq as (out & Eo & So & Ho). exists out. split; auto. split; auto. intros i j e e' f f' m c E1 E2 F1 F2 Hm Hc exact.
  assert (Hi := nth_some_lt _ _ _ E2). assert (Hj := nth_some_lt _ _ _ F2). rewrite Ho by (unfold nE, nF; lia).
  rewrite (nth_error_nth _ _ _ E1), (nth_error_nth _ _ _ E2), (nth_error_nth _ _ _ F1), (nth_error_nth _ _ _ F2).
  assert (CELL : forall ev, In ev evs -> (hdd_match (dims2 reco_energy reco_fov_offset (map Fin ebins) (map Fin fbins)) [i; j] ev = true <->
    in_hist_bin (map Fin ebins) i (reco_energy ev) /\ in_hist_bin (map Fin fbins) j (reco_fov_offset ev))).
  { intros ev _. unfold dims2. cbn [hdd_match]. rewrite andb_true_r, andb_true_iff, !Nat.eqb_eq. rewrite !hdd_spec by (auto; rewrite map_length; lia). reflexivity. }
  assert (Em : m = length (sel i j)) by (eapply number_of_unique; [exact Hm|]; apply (number_of_count _ (hdd_match (dims2 reco_energy reco_fov_offset (map Fin ebins) (map Fin fbins)) [i; j])); auto).
  assert (Ec : c = rsum (map weight (sel i j))) by (eapply weight_of_unique; [exact Hc|]; apply (weight_of_wsum weight _ (hdd_match (dims2 reco_energy reco_fov_offset (map Fin ebins) (map Fin fbins)) [i; j])); auto).
  destruct (width_entry e e' (Mw _ _ _ E1 E2)) as (dw & -> & Nd & Pd).
  destruct (ring_double cosine f f' Hcos) as (s & -> & Hs); [apply (proj2 Hf); eapply nth_error_In; eauto|apply (proj2 Hf); eapply nth_error_In; eauto|].
  assert (RW : ring_deg f f' <= 32).
  { unfold ring_deg, ring_sr. pose proof (COS_bound (deg f)). pose proof (COS_bound (deg f')). pose proof pi_range. apply Rle_trans with (8 * 2); [|lra]. apply Rle_trans with (2 * PI * 2); [apply Rmult_le_compat_l; lra|lra]. }
  pose proof (Hr _ _ _ F1 F2) as HR. rewrite eps53_u in *.
  assert (SUB : forall v, In v (map weight (sel i j)) -> double v /\ (v = 0 \/ moderate v)) by (intros v Hv; apply in_map_iff in Hv as (ev & <- & Hv); apply filter_In in Hv as [Hv _]; auto).
  destruct (rate_entry (map weight (sel i j)) (e' - e) t_obs s (ring_deg f f')) with (dw' := dw) as (v & Ev & V0 & B); auto.
  - apply Forall_forall. intros v Hv. apply SUB; auto.
  - apply Forall_forall. intros v Hv. apply SUB; auto.
  - rewrite map_length. unfold sel. pose proof (count_bound (hdd_match (dims2 reco_energy reco_fov_offset (map Fin ebins) (map Fin fbins)) [i; j]) evs) as CB. unfold count in CB. lia.
  - apply (Mw i); auto.
  - exists v. split; auto. split; auto. rewrite map_length, <- Em, <- Ec in B. pose proof (He _ _ _ E1 E2). pose proof (pr_pos _ _ _ (moderate_pr _ Ht)). pose proof u_pos.
    assert (QQ : c / (e' - e) / t_obs / ring_deg f f' = exact) by (unfold exact; field; repeat split; lra). rewrite QQ in B. eapply Rle_trans; [exact B|]. apply Req_le. field. lra.
Qed.
End B.
