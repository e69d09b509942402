(** * IRFProofs2: migration matrix, psf, background (C44-C47) *)
From Coq Require Import String Reals List Bool ZArith Arith Lia Lra.
From Verif Require Import Num Numpy Lists SpecBinning Table Binning BinningProofs HistProofs Utils SpecUtils SpecSimulations Simulations SimulationsProofs SimulationsProofs2
  Tensor TensorProofs SpecIRF IRF IRFProofs.
Import ListNotations.
Open Scope R_scope.

Lemma seq_map_nth {A} (f : nat -> A) n j v : nth_error (map f (seq 0 n)) j = Some v -> (j < n)%nat /\ v = f j.
Proof.
  intros H. apply map_nth_inv in H as (j' & Hj & ->). assert (Lj := nth_some_lt _ _ _ Hj). rewrite seq_length in Lj.
  split; auto. apply (nth_error_nth _ _ 0%nat) in Hj. rewrite seq_nth in Hj by auto. subst. auto.
Qed.
(** ** C44 *)
Section C44.
Variables (evs : list dl2) (ebins rbins fbins : list num).
Hypotheses (He : nondecreasing ebins) (Le : (2 <= length ebins)%nat) (Hr : nondecreasing rbins) (Lr : (2 <= length rbins)%nat)
  (Hf : nondecreasing fbins) (Lf : (2 <= length fbins)%nat).
Let nE := (length ebins - 1)%nat.
Let nM := (length rbins - 1)%nat.
Let nF := (length fbins - 1)%nat.
Let C i j k := C3 true_energy reco_energy true_fov_offset ebins rbins fbins unweighted evs i j k.
Let S_ i k := rsum (map (fun j => C i j k) (seq 0 nM)).
Lemma mig_C_le i j k : (j < nM)%nat -> 0 <= C i j k <= S_ i k.
Proof.
  intros Hj. split; [apply C3_nonneg|]. unfold S_. apply (rsum_le_in (fun j => C i j k)); [intros; apply C3_nonneg|]. apply in_seq. lia.
Qed.
Lemma mig_eq : exists out, energy_migration_matrix evs ebins rbins fbins = Ok out /\ shape out = [nE; nM; nF] /\
  forall i j k, (i < nE)%nat -> (j < nM)%nat -> (k < nF)%nat -> at_ out [i; j; k] = Fin (ratio (C i j k) (S_ i k)).
Proof.
  unfold energy_migration_matrix. change ([(true_energy, ebins); (reco_energy, rbins); (true_fov_offset, fbins)]) with (dims3 true_energy reco_energy true_fov_offset ebins rbins fbins).
  rewrite hist3 by auto. cbn [rbind]. fold nE nM nF. bnorm. cbn [rbind]. eexists. split; [reflexivity|]. split; [reflexivity|].
  intros i j k Hi Hj Hk. inorm. cbn [nth].
  rewrite (nsum_fin_map (fun j0 => wsum unweighted (hdd_match _ [i; j0; k]) evs)).
  change (rsum _) with (S_ i k). change (wsum _ _ _) with (C i j k).
  pose proof (mig_C_le i j k Hj). unfold ratio. destruct (Reqb_spec (S_ i k) 0) as [E|E].
  - replace (C i j k) with 0 by lra. rewrite E, ndiv_00. reflexivity.
  - rewrite ndiv_fin by auto. reflexivity.
Qed.
Lemma c44 : exists out, energy_migration_matrix evs ebins rbins fbins = Ok out /\
  shape out = [(length ebins - 1)%nat; (length rbins - 1)%nat; (length fbins - 1)%nat] /\
  forall i k, (i < length ebins - 1)%nat -> (k < length fbins - 1)%nat ->
    exists d, length d = (length rbins - 1)%nat /\
      (forall j v, nth_error d j = Some v -> at_ out [i; j; k] = Fin v /\ 0 <= v <= 1) /\
      ((exists e, In e evs /\ in_hist_bin ebins i (true_energy e) /\ in_range rbins (reco_energy e) /\ in_hist_bin fbins k (true_fov_offset e)) ->
       total d = 1) /\
      ((forall e, In e evs -> ~ (in_hist_bin ebins i (true_energy e) /\ in_range rbins (reco_energy e) /\ in_hist_bin fbins k (true_fov_offset e))) ->
       forall v, In v d -> v = 0).
Proof.
  destruct mig_eq as (out & Eo & So & Ho). exists out. split; auto. split; auto. intros i k Hi Hk.
  exists (map (fun j => ratio (C i j k) (S_ i k)) (seq 0 nM)).
  assert (Esum : S_ i k = wsum unweighted (fun e => m1 true_energy ebins i e && m3 true_fov_offset fbins k e && r2 reco_energy rbins e) evs).
  { unfold S_, C. unfold nM. apply sum_axis2; auto. }
  split; [rewrite map_length, seq_length; auto|]. split; [|split].
  - intros j v Hj. apply seq_map_nth in Hj as [Lj ->]. split; [apply Ho; auto|]. apply ratio_nonneg, mig_C_le; auto.
  - intros (e & Hin & E1 & E2 & E3). rewrite total_rsum. apply (ratio_sum (fun j => C i j k)); auto.
    assert (0 < S_ i k); [|lra]. rewrite Esum. apply wsum1_pos. exists e. split; auto. apply sel2; auto; exact unweighted.
  - intros Hno v Hv. apply in_map_iff in Hv as (j & <- & Hj).
    assert (Z : S_ i k = 0). { rewrite Esum. apply wsum1_zero. intros e Hin. apply not_true_is_false. intros Ht. apply (Hno e Hin). revert Ht. apply sel2; auto; exact unweighted. }
    unfold ratio. rewrite Z. rsolve. auto.
Qed.
Lemma c44_value i j k : (i < nE)%nat -> (j < nM)%nat -> (k < nF)%nat ->
  exists out n m, energy_migration_matrix evs ebins rbins fbins = Ok out /\
    number_of (fun e => in_hist_bin ebins i (true_energy e) /\ in_hist_bin rbins j (reco_energy e) /\ in_hist_bin fbins k (true_fov_offset e)) evs n /\
    number_of (fun e => in_hist_bin ebins i (true_energy e) /\ in_range rbins (reco_energy e) /\ in_hist_bin fbins k (true_fov_offset e)) evs m /\
    ((0 < m)%nat -> at_ out [i; j; k] = Fin (INR n / INR m)).
Proof.
  intros Hi Hj Hk. destruct mig_eq as (out & Eo & So & Ho).
  destruct (C3_number true_energy reco_energy true_fov_offset ebins rbins fbins evs i j k) as (n & Hn & En); auto.
  exists out, n, (count (fun e => m1 true_energy ebins i e && m3 true_fov_offset fbins k e && r2 reco_energy rbins e) evs).
  split; auto. split; auto. split. { apply number_of_count. intros e _. apply sel2; auto; exact unweighted. }
  intros Hpos. rewrite Ho by auto. fold (C i j k) in En. rewrite En. f_equal.
  assert (Es : S_ i k = INR (count (fun e => m1 true_energy ebins i e && m3 true_fov_offset fbins k e && r2 reco_energy rbins e) evs)).
  { unfold S_, C, nM. rewrite sum_axis2 by auto. apply wsum_one. }
  rewrite Es. unfold ratio. replace (Reqb _ 0) with false; auto. symmetry. apply Reqb_false. apply not_0_INR. lia.
Qed.
End C44.

(** ** C45 *)
Lemma ring_cone a b : cone_solid_angle (b * degree) - cone_solid_angle (a * degree) = ring_deg a b.
Proof. unfold cone_solid_angle, ring_deg, ring_sr, deg, degree. ring. Qed.
Lemma ring_deg_pos a b : 0 <= a -> a < b -> b <= 180 -> 0 < ring_deg a b.
Proof.
  intros A B D. pose proof PI_RGT_0. unfold ring_deg, ring_sr, deg.
  pose proof (cone_pos (a * (PI / 180)) (b * (PI / 180)) ltac:(nra) ltac:(nra) ltac:(nra)). apply Rmult_lt_0_compat; lra.
Qed.
Lemma angles_ring l j : angles l -> (S j < length l)%nat -> 0 < ring_deg (nth j l 0) (nth (S j) l 0).
Proof.
  intros [Hi Hr] Hj. apply ring_deg_pos; [apply Hr, nth_In; lia|apply inc_nth; auto|apply Hr, nth_In; lia].
Qed.
Section C45.
Variables (evs : list dl2) (ebins fbins : list num) (sbins : list R).
Hypotheses (He : nondecreasing ebins) (Le : (2 <= length ebins)%nat) (Hf : nondecreasing fbins) (Lf : (2 <= length fbins)%nat)
  (Hs : angles sbins) (Ls : (2 <= length sbins)%nat).
Let nE := (length ebins - 1)%nat.
Let nS := (length sbins - 1)%nat.
Let nF := (length fbins - 1)%nat.
Let Ls' : (2 <= length (map Fin sbins))%nat.
Proof. rewrite map_length. auto. Qed.
Let Hs' := inc_nondec sbins (proj1 Hs).
Let C i j k := C3 true_energy true_fov_offset theta ebins fbins (map Fin sbins) unweighted evs i j k.
Let S_ i j := rsum (map (fun k => C i j k) (seq 0 nS)).
Lemma psf_C_le i j k : (k < nS)%nat -> 0 <= C i j k <= S_ i j.
Proof.
  intros Hj. split; [apply C3_nonneg|]. unfold S_. apply (rsum_le_in (fun k => C i j k)); [intros; apply C3_nonneg|]. apply in_seq. lia.
Qed.
Lemma psf_eq : exists out, psf_table evs ebins sbins fbins = Ok out /\ shape out = [nE; nF; nS] /\
  forall i j k, (i < nE)%nat -> (j < nF)%nat -> (k < nS)%nat ->
    at_ out [i; j; k] = Fin (ratio (C i j k) (S_ i j) / ring_deg (nth k sbins 0) (nth (S k) sbins 0)).
Proof.
  unfold psf_table. change ([(true_energy, ebins); (true_fov_offset, fbins); (theta, map Fin sbins)]) with (dims3 true_energy true_fov_offset theta ebins fbins (map Fin sbins)).
  rewrite hist3 by auto. cbn [rbind]. rewrite map_length. unfold normalize_psf. fold nE nS nF.
  assert (Lw : length (ndiff (map (fun d => Fin (cone_solid_angle (d * degree))) sbins)) = nS) by (rewrite ndiff_length, map_length; auto).
  bnorm. cbn [rbind]. rewrite Lw. bnorm. eexists. split; [reflexivity|]. split; [reflexivity|].
  intros i j k Hi Hj Hk. inorm. cbn [nth].
  rewrite (nsum_fin_map (fun j0 => wsum unweighted (hdd_match _ [i; j; j0]) evs)).
  change (rsum _) with (S_ i j). change (wsum _ _ _) with (C i j k).
  rewrite (ndiff_fin_nth (fun d => cone_solid_angle (d * degree))) by (unfold nS in *; lia). rewrite ring_cone.
  pose proof (angles_ring sbins k Hs ltac:(unfold nS in *; lia)) as HR. pose proof (psf_C_le i j k Hk).
  unfold ratio. destruct (Reqb_spec (S_ i j) 0) as [E|E].
  - replace (C i j k) with 0 by lra. rewrite E, ndiv_00. cbn [default_nan_to_num nan_to_num]. unfold default_nan_to_num. cbn [nan_to_num]. rewrite ndiv_fin by lra. auto.
  - rewrite (ndiv_fin (C i j k)) by auto. unfold default_nan_to_num. cbn [nan_to_num]. rewrite ndiv_fin by lra. auto.
Qed.
Lemma psf_sum i j : integral_over ring_deg sbins (map (fun k => ratio (C i j k) (S_ i j) / ring_deg (nth k sbins 0) (nth (S k) sbins 0)) (seq 0 nS)) = rsum (map (fun k => ratio (C i j k) (S_ i j)) (seq 0 nS)).
Proof.
  unfold nS at 1. rewrite integral_over_seq. fold nS. apply rsum_map_ext. intros k Hk. apply in_seq in Hk. cbn [Nat.add].
  pose proof (angles_ring sbins k Hs ltac:(unfold nS in *; lia)). field. lra.
Qed.
Lemma c45 : exists out, psf_table evs ebins sbins fbins = Ok out /\
  shape out = [(length ebins - 1)%nat; (length fbins - 1)%nat; (length sbins - 1)%nat] /\
  forall i j, (i < length ebins - 1)%nat -> (j < length fbins - 1)%nat ->
    exists d, length d = (length sbins - 1)%nat /\
      (forall k v, nth_error d k = Some v -> at_ out [i; j; k] = Fin v /\ 0 <= v) /\
      ((exists e, In e evs /\ in_hist_bin ebins i (true_energy e) /\ in_hist_bin fbins j (true_fov_offset e) /\ in_range (map Fin sbins) (theta e)) ->
       integral_over ring_deg sbins d = 1) /\
      ((forall e, In e evs -> ~ (in_hist_bin ebins i (true_energy e) /\ in_hist_bin fbins j (true_fov_offset e) /\ in_range (map Fin sbins) (theta e))) ->
       forall v, In v d -> v = 0).
Proof.
  destruct psf_eq as (out & Eo & So & Ho). exists out. split; auto. split; auto. intros i j Hi Hj.
  exists (map (fun k => ratio (C i j k) (S_ i j) / ring_deg (nth k sbins 0) (nth (S k) sbins 0)) (seq 0 nS)).
  assert (Esum : S_ i j = wsum unweighted (fun e => m1 true_energy ebins i e && m2 true_fov_offset fbins j e && r3 theta (map Fin sbins) e) evs).
  { unfold S_, C. unfold nS. rewrite <- (map_length Fin sbins). apply sum_axis3; auto. }
  split; [rewrite map_length, seq_length; auto|]. split; [|split].
  - intros k v Hk. apply seq_map_nth in Hk as [Lk ->]. split; [apply Ho; auto|]. apply Rmult_le_pos; [apply ratio_nonneg, psf_C_le; auto|].
    left. apply Rinv_0_lt_compat. apply angles_ring; auto. unfold nS in *; lia.
  - intros (e & Hin & E1 & E2 & E3). rewrite psf_sum. apply (ratio_sum (fun k => C i j k)); auto.
    assert (0 < S_ i j); [|lra]. rewrite Esum. apply wsum1_pos. exists e. split; auto. apply sel3; auto; exact unweighted.
  - intros Hno v Hv. apply in_map_iff in Hv as (k & <- & Hk).
    assert (Z : S_ i j = 0). { rewrite Esum. apply wsum1_zero. intros e Hin. apply not_true_is_false. intros Ht. apply (Hno e Hin). revert Ht. apply sel3; auto; exact unweighted. }
    unfold ratio. rewrite Z. rsolve. unfold Rdiv. ring.
Qed.
Lemma c45_value i j k : (i < nE)%nat -> (j < nF)%nat -> (k < nS)%nat ->
  exists out n m a b, psf_table evs ebins sbins fbins = Ok out /\
    number_of (fun e => in_hist_bin ebins i (true_energy e) /\ in_hist_bin fbins j (true_fov_offset e) /\ in_hist_bin (map Fin sbins) k (theta e)) evs n /\
    number_of (fun e => in_hist_bin ebins i (true_energy e) /\ in_hist_bin fbins j (true_fov_offset e) /\ in_range (map Fin sbins) (theta e)) evs m /\
    nth_error sbins k = Some a /\ nth_error sbins (S k) = Some b /\
    ((0 < m)%nat -> at_ out [i; j; k] = Fin (INR n / INR m / ring_deg a b)).
Proof.
  intros Hi Hj Hk. destruct psf_eq as (out & Eo & So & Ho).
  destruct (C3_number true_energy true_fov_offset theta ebins fbins (map Fin sbins) evs i j k) as (n & Hn & En); auto; try (rewrite map_length; auto).
  destruct (nth_some_ex sbins k) as [a Ha]; [unfold nS in *; lia|]. destruct (nth_some_ex sbins (S k)) as [b Hb]; [unfold nS in *; lia|].
  exists out, n, (count (fun e => m1 true_energy ebins i e && m2 true_fov_offset fbins j e && r3 theta (map Fin sbins) e) evs), a, b.
  split; auto. split; auto. split. { apply number_of_count. intros e _. apply sel3; auto; exact unweighted. }
  split; auto. split; auto. intros Hpos. rewrite Ho by auto. fold (C i j k) in En. rewrite En.
  rewrite (nth_error_nth _ _ _ Ha), (nth_error_nth _ _ _ Hb). f_equal. f_equal.
  assert (Es : S_ i j = INR (count (fun e => m1 true_energy ebins i e && m2 true_fov_offset fbins j e && r3 theta (map Fin sbins) e) evs)).
  { unfold S_, C, nS. rewrite <- (map_length Fin sbins). rewrite sum_axis3 by auto. apply wsum_one. }
  rewrite Es. unfold ratio. replace (Reqb _ 0) with false; auto. symmetry. apply Reqb_false. apply not_0_INR. lia.
Qed.
End C45.
