(** * IRFDouble2Proofs: migration matrix, effective area, point spread function in double precision *)
From Coq Require Import String Reals List Bool ZArith Arith Lia Lra Psatz.
From Flocq Require Import Core.
From Verif Require Import Num Numpy Lists SpecBinning Table Binning BinningProofs HistProofs Utils SpecUtils SpecSimulations Simulations SimulationsProofs SimulationsProofs2
  Tensor TensorProofs SpecIRF IRF IRFProofs IRFProofs2 IRFProofs4 Double SpecDouble DoubleProofs NearProofs LiMaDoubleProofs LiMaDouble2Proofs IRFDouble IRFDoubleProofs.
Import ListNotations.
Open Scope R_scope.

Lemma double_1 : double 1.
Proof. exists 1%Z, 0%Z. split; [reflexivity|split; [lia|cbn; ring]]. Qed.
Lemma fl_round a b : fl a = Fin b -> b = round64 a.
Proof. unfold fl. cbv zeta. destruct (Rltb fmax _); [destruct (Rltb 0 _); discriminate|congruence]. Qed.
(** rounding does not cross a double *)
Lemma fl_le a b x : fl a = Fin b -> double x -> a <= x -> b <= x.
Proof. intros E D H. rewrite (fl_round _ _ E), <- (proj1 (double_fix _ D)). apply round64_mono. auto. Qed.
Lemma fl_ge a b x : fl a = Fin b -> double x -> x <= a -> x <= b.
Proof. intros E D H. rewrite (fl_round _ _ E), <- (proj1 (double_fix _ D)). apply round64_mono. auto. Qed.
Section Mig.
Variables (evs : list dl2) (ebins rbins fbins : list num).
Hypotheses (He : nondecreasing ebins) (Le : (2 <= length ebins)%nat) (Hr : nondecreasing rbins) (Lr : (2 <= length rbins)%nat)
  (Hf : nondecreasing fbins) (Lf : (2 <= length fbins)%nat) (N : (Z.of_nat (length evs) <= 2 ^ 53)%Z).
Let nE := (length ebins - 1)%nat.
Let nR := (length rbins - 1)%nat.
Let nF := (length fbins - 1)%nat.
Let c i j k := cnt true_energy reco_energy true_fov_offset ebins rbins fbins evs i j k.
Let t i k := tot2 true_energy reco_energy true_fov_offset ebins rbins fbins evs i k.
Lemma mig_double_eq : exists out, energy_migration_matrix_double evs ebins rbins fbins = Ok out /\ shape out = [nE; nR; nF] /\
  forall i j k, (i < nE)%nat -> (j < nR)%nat -> (k < nF)%nat -> exists v, at_ out [i; j; k] = Fin v /\ near 1 (dratio (c i j k) (t i k)) v /\ v <= 1.
Proof.
  unfold energy_migration_matrix_double. change ([(true_energy, ebins); (reco_energy, rbins); (true_fov_offset, fbins)]) with (dims3 true_energy reco_energy true_fov_offset ebins rbins fbins).
  rewrite hist3 by auto. cbn [rbind]. fold nE nR nF. unfold tsum_double. bnorm. cbn [rbind]. eexists. split; [reflexivity|]. split; [reflexivity|].
  intros i j k Hi Hj Hk. inorm. cbn [nth].
  pose proof (fsum2 true_energy reco_energy true_fov_offset ebins rbins fbins evs N i k) as F. fold nR in F. rewrite F.
  change (wsum unweighted _ evs) with (wsum unweighted (hdd_match (dims3 true_energy reco_energy true_fov_offset ebins rbins fbins) [i; j; k]) evs).
  rewrite cnt_wsum. fold (c i j k) (t i k). assert (Ct : (c i j k <= t i k)%nat) by (apply cnt_tot2; auto).
  destruct (share_entry (c i j k) (t i k)) as [(Z & ->)|(Hm & q & E & Nq & _)]; [auto|apply tot2_le; auto| |].
  - exists 0. cbn [is_nan]. split; auto. unfold dratio. rewrite Z. cbn. split; [|lra]. exists 1. pose proof (pow_u 1). pose proof (inv_u 1). split; [lra|ring].
  - rewrite E. exists q. cbn [is_nan]. split; auto. split; auto. assert (Hm' : INR (t i k) <> 0) by (apply not_0_INR; auto). rewrite fdiv_fin in E by auto. apply (fl_le _ _ _ E double_1).
    assert (0 < INR (t i k)) by (apply lt_0_INR; lia). apply Rmult_le_reg_r with (INR (t i k)); auto. unfold Rdiv. rewrite Rmult_assoc, Rinv_l by auto. apply le_INR in Ct. lra.
Qed.
Theorem mig_double : exists out, energy_migration_matrix_double evs ebins rbins fbins = Ok out /\
  shape out = [(length ebins - 1)%nat; (length rbins - 1)%nat; (length fbins - 1)%nat] /\
  forall i k, (i < length ebins - 1)%nat -> (k < length fbins - 1)%nat ->
    exists d, length d = (length rbins - 1)%nat /\
      (forall j v, nth_error d j = Some v -> at_ out [i; j; k] = Fin v /\ 0 <= v <= 1) /\
      (forall j v n m, nth_error d j = Some v ->
        number_of (fun e => in_hist_bin ebins i (true_energy e) /\ in_hist_bin rbins j (reco_energy e) /\ in_hist_bin fbins k (true_fov_offset e)) evs n ->
        number_of (fun e => in_hist_bin ebins i (true_energy e) /\ in_range rbins (reco_energy e) /\ in_hist_bin fbins k (true_fov_offset e)) evs m ->
        (0 < m)%nat -> Rabs (v - INR n / INR m) <= 2 * eps53 * (INR n / INR m)) /\
      ((exists e, In e evs /\ in_hist_bin ebins i (true_energy e) /\ in_range rbins (reco_energy e) /\ in_hist_bin fbins k (true_fov_offset e)) ->
       Rabs (total d - 1) <= 2 * eps53) /\
      ((forall e, In e evs -> ~ (in_hist_bin ebins i (true_energy e) /\ in_range rbins (reco_energy e) /\ in_hist_bin fbins k (true_fov_offset e))) ->
       forall v, In v d -> v = 0).
Proof.
  destruct mig_double_eq as (out & Eo & So & Ho). exists out. split; auto. split; auto. intros i k Hi Hk. rewrite eps53_u. pose proof u_pos as U0.
  assert (E : forall j, (j < nR)%nat -> exists v, at_ out [i; j; k] = Fin v /\ near 1 (dratio (c i j k) (t i k)) v /\ v <= 1) by (intros; apply Ho; auto).
  set (d := map (fun j => match at_ out [i; j; k] with Fin v => v | _ => 0 end) (seq 0 nR)).
  assert (Hd : forall j v, nth_error d j = Some v -> (j < nR)%nat /\ at_ out [i; j; k] = Fin v /\ near 1 (dratio (c i j k) (t i k)) v /\ v <= 1).
  { intros j v Hj. unfold d in Hj. apply map_nth_inv in Hj as (j' & Hj & ->). apply seq_nth_val in Hj as [-> Hj]. split; auto. destruct (E j Hj) as (v & -> & Nv). auto. }
  assert (T : number_of (fun e => in_hist_bin ebins i (true_energy e) /\ in_range rbins (reco_energy e) /\ in_hist_bin fbins k (true_fov_offset e)) evs (t i k)) by (apply number_of_count; intros e _; apply sel2; auto; exact unweighted).
  exists d. split; [unfold d; rewrite map_length, seq_length; auto|]. split; [|split; [|split]].
  - intros j v Hj. apply Hd in Hj as (Lj & Ea & Nv & V1). split; auto. split; auto. apply (near_nonneg 1 (dratio (c i j k) (t i k))); auto. apply dratio_nonneg.
  - intros j v n m Hj Hn Hm0 Mp. apply Hd in Hj as (Lj & _ & Nv & _).
    assert (Ec : c i j k = n).
    { eapply number_of_unique; [|exact Hn]. unfold c, cnt. apply number_of_count. intros e _. unfold dims3. cbn [hdd_match]. rewrite andb_true_r, andb_assoc. apply (cell3 true_energy reco_energy true_fov_offset ebins rbins fbins); auto; exact unweighted. }
    assert (Et : t i k = m) by (eapply number_of_unique; [exact T|exact Hm0]).
    apply near_abs in Nv; [|lia]. rewrite Ec, Et in Nv. rewrite (Rabs_pos_eq (dratio n m)) in Nv by apply dratio_nonneg. unfold dratio in Nv. destruct (Nat.eqb_spec m 0); [lia|].
    replace (INR (1 + 1)) with 2 in Nv by (simpl; lra). auto.
  - intros (e & Hin & Q). assert (Ht : t i k <> 0%nat) by (intros Z; rewrite Z in T; apply (number_of_zero _ _ e) in T; auto).
    rewrite total_rsum. unfold d. assert (S1 : rsum (map (fun j => dratio (c i j k) (t i k)) (seq 0 nR)) = 1) by (exact (dratio_sum2 true_energy reco_energy true_fov_offset ebins rbins fbins evs i k Ht)).
    pose proof (rsum_close (fun j => match at_ out [i; j; k] with Fin v => v | _ => 0 end) (fun j => dratio (c i j k) (t i k)) (seq 0 nR) (2 * u)) as RC.
    rewrite S1 in RC. rewrite Rmult_1_r in RC. apply RC; [lra|intros; apply dratio_nonneg|]. intros j Hj. apply in_seq in Hj. destruct (E j ltac:(lia)) as (v & -> & Nv & _). apply near_abs in Nv; [|lia].
    replace (INR (1 + 1)) with 2 in Nv by (simpl; lra). rewrite (Rabs_pos_eq (dratio _ _)) in Nv by apply dratio_nonneg. auto.
  - intros Hno v Hv. apply In_nth_error in Hv as (j & Hj). apply Hd in Hj as (Lj & _ & (s & _ & ->) & _). assert (Z : t i k = 0%nat).
    { eapply number_of_unique; [exact T|]. apply zero_number_of. intros e Hin. apply Hno; auto. }
    rewrite Z. unfold dratio. cbn. unfold Rdiv. ring.
Qed.
End Mig.
(** ** effective area *)
Theorem area_double selected simulated area : shape selected = shape simulated -> moderate area -> double area ->
  exists out, effective_area_double selected simulated area = Ok out /\ shape out = shape selected /\
  forall ix k n, index_of (shape selected) ix -> at_ selected ix = Fin k -> at_ simulated ix = Fin n -> k = 0 \/ moderate k -> moderate n ->
    exists v, at_ out ix = Fin v /\ 0 <= v /\ Rabs (v - k / n * area) <= 3 * eps53 * (k / n * area) /\ (k <= n -> v <= area).
Proof.
  intros E Ha Da. unfold effective_area_double. destruct (tbin_same fdiv _ _ E) as (o & -> & So & Ho). cbn [rbind]. eexists. split; [reflexivity|]. split; auto.
  intros ix k n Hi Hk Hn K Nn. cbn [at_ tmap]. rewrite Ho, Hk, Hn by auto. apply moderate_pr in Nn, Ha. pose proof (pr_pos _ _ _ Nn) as Pn. pose proof (pr_pos _ _ _ Ha) as Pa. rewrite fdiv_fin by lra. rewrite eps53_u. destruct K as [->|K].
  - unfold Rdiv. rewrite !Rmult_0_l, fl0. rewrite fmul_fin, Rmult_0_l, fl0. exists 0. split; auto. split; [lra|]. rewrite Rminus_0_r, Rabs_R0. split; [|lra]. lra.
  - apply moderate_pr in K. pose proof (pr_pos _ _ _ K) as Pk. destruct (fl_step' (pr_div _ _ _ _ _ _ K Nn) eq_refl) as (q & Eq & Nq & Rq & _). rewrite Eq, fmul_fin. pose proof (pr_pos _ _ _ Rq) as Pq.
    destruct (fl_step' (pr_mult _ _ _ _ _ _ Rq Ha) eq_refl) as (v & Ev & Nv & Rv & _). rewrite Ev. exists v. pose proof (pr_pos _ _ _ Rv). split; auto. split; [lra|]. split.
    + assert (Q : near 2 (k / n * area) v) by (apply (near_trans 1 1 _ (q * area)); auto; apply (near_mult 1 0); auto using near_refl). apply near_abs in Q; [|lia]. replace (INR (2 + 1)) with 3 in Q by (simpl; lra).
      rewrite (Rabs_pos_eq (k / n * area)) in Q; auto. apply Rmult_le_pos; [|lra]. left. apply Rdiv_lt_0_compat; auto.
    + intros L. apply (fl_le _ _ _ Ev Da). rewrite <- (Rmult_1_l area) at 2. apply Rmult_le_compat_r; [lra|]. apply (fl_le _ _ _ Eq double_1). apply Rmult_le_reg_r with n; auto. unfold Rdiv. rewrite Rmult_assoc, Rinv_l by lra. lra.
Qed.
