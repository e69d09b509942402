(** * RebinProofs2: coarser bins (C84) *)
From Coq Require Import String Reals List Bool ZArith Arith Lia Lra.
From Verif Require Import Num Numpy Table Binning Utils Simulations Tensor IRF SpecBinning SpecIRF SpecRebin
  BinningProofs HistProofs TensorProofs SpecUtils SpecSimulations SimulationsProofs SimulationsProofs2 IRFProofs IRFProofs2 IRFProofs3 IRFProofs4 HistDouble2Proofs Lists LocalProofs RebinProofs.
Import ListNotations.
Open Scope R_scope.

Lemma weight_true {A} (w : A -> R) (P : A -> Prop) l W : weight_of w P l W -> weight_of w (fun e => P e /\ True) l W.
Proof. induction 1; [constructor|apply wo_yes; auto|apply wo_no; auto; tauto]. Qed.
Lemma weight_ext {A} (w : A -> R) (P P' : A -> Prop) l W : (forall e, P e <-> P' e) -> weight_of w P l W -> weight_of w P' l W.
Proof. intros H. induction 1; [constructor|apply wo_yes; auto; apply H; auto|apply wo_no; auto; rewrite <- H; auto]. Qed.
Lemma weight_joined1 {A} (w : A -> R) (x : A -> num) fine coarse k a b l W (f : nat -> R) :
  nondecreasing fine -> nondecreasing coarse -> joins fine coarse k a b ->
  weight_of w (fun e => in_hist_bin coarse k (x e)) l W -> (forall j, (a <= j < b)%nat -> weight_of w (fun e => in_hist_bin fine j (x e)) l (f j)) -> W = sum_between a b f.
Proof.
  intros Hf Hc J HW Hw. apply (weight_joined w x (fun _ => True) (fun _ => true) fine coarse k a b l W f); auto; [tauto|apply weight_true, HW|]. intros j Hj. apply weight_true; auto.
Qed.
Lemma joins_lt {A} (fine coarse : list A) k a b : joins fine coarse k a b -> (a < b)%nat /\ (b < List.length fine)%nat /\ (S k < List.length coarse)%nat.
Proof. intros (H & _ & (hi & C & F) & _). split; auto. split; eapply nth_some_lt; eauto. Qed.

(** ** tables of counts *)
Lemma rebin_counts ev fine coarse key : nondecreasing fine -> nondecreasing coarse -> (2 <= List.length fine)%nat -> (2 <= List.length coarse)%nat ->
  exists t t' n n', create_histogram_table ev fine key = Ok t /\ create_histogram_table ev coarse key = Ok t' /\ getitem t "n" = Some (CZ n) /\ getitem t' "n" = Some (CZ n') /\
  List.length n = (List.length fine - 1)%nat /\ List.length n' = (List.length coarse - 1)%nat /\
  forall k a b, joins fine coarse k a b -> IZR (nth k n' 0%Z) = sum_between a b (fun j => IZR (nth j n 0%Z)).
Proof.
  intros Hf Hc Lf Lc. destruct (c04 ev fine key Hf Lf) as (t & n & E & G & (Ln & N) & _). destruct (c04 ev coarse key Hc Lc) as (t' & n' & E' & G' & (Ln' & N') & _).
  exists t, t', n, n'. repeat (split; [assumption|]). intros k a b J. destruct (joins_lt _ _ _ _ _ J) as (Hab & Lb & Lk).
  apply (weight_joined1 (fun _ => 1) ev_x fine coarse k a b (et_rows ev)); auto.
  - destruct (nth_some_ex n' k) as [c Hc']; [lia|]. rewrite (nth_error_nth _ _ _ Hc'). destruct (N' _ _ Hc') as (m & -> & M). rewrite <- INR_IZR_INZ. apply weight_of_number, M.
  - intros j Hj. destruct (nth_some_ex n j) as [c Hc']; [lia|]. rewrite (nth_error_nth _ _ _ Hc'). destruct (N _ _ Hc') as (m & -> & M). rewrite <- INR_IZR_INZ. apply weight_of_number, M.
Qed.
Lemma rebin_weights ev fine coarse key : nondecreasing fine -> nondecreasing coarse -> (2 <= List.length fine)%nat -> (2 <= List.length coarse)%nat ->
  et_has_weight ev = true -> (et_has_ptype ev = true -> forall e, In e (et_rows ev) -> ev_p e <> "weighted"%string) ->
  exists t t' n n', create_histogram_table ev fine key = Ok t /\ create_histogram_table ev coarse key = Ok t' /\
  getitem t "n_weighted" = Some (CN (map Fin n)) /\ getitem t' "n_weighted" = Some (CN (map Fin n')) /\
  List.length n = (List.length fine - 1)%nat /\ List.length n' = (List.length coarse - 1)%nat /\
  forall k a b, joins fine coarse k a b -> nth k n' 0 = sum_between a b (fun j => nth j n 0).
Proof.
  intros Hf Hc Lf Lc Hw Hp. destruct (c04_weighted ev fine key Hf Lf Hw Hp) as (t & n & E & G & (Ln & N) & _). destruct (c04_weighted ev coarse key Hc Lc Hw Hp) as (t' & n' & E' & G' & (Ln' & N') & _).
  exists t, t', n, n'. repeat (split; [assumption|]). intros k a b J. destruct (joins_lt _ _ _ _ _ J) as (Hab & Lb & Lk).
  apply (weight_joined1 ev_w ev_x fine coarse k a b (et_rows ev)); auto.
  - destruct (nth_some_ex n' k) as [c Hc']; [lia|]. rewrite (nth_error_nth _ _ _ Hc'). apply (N' _ _ Hc').
  - intros j Hj. destruct (nth_some_ex n j) as [c Hc']; [lia|]. rewrite (nth_error_nth _ _ _ Hc'). apply (N _ _ Hc').
Qed.

(** ** simulated showers *)
Lemma share_joined (dom : R -> Prop) dens A B (edges : list num) a b lo hi v (f : nat -> R) : A <= B -> (forall x, A <= x <= B -> dom x) -> (a <= b)%nat ->
  nth_error edges a = Some lo -> nth_error edges b = Some hi -> share dom dens A B lo hi v ->
  (forall j l h, (a <= j < b)%nat -> nth_error edges j = Some l -> nth_error edges (S j) = Some h -> share dom dens A B l h (f j)) -> v = sum_between a b f.
Proof.
  intros HAB Hd Hab Hlo Hhi (P & HP & Hne & Ev) Hf. pose proof (nth_some_lt _ _ _ Hhi) as Lb.
  assert (E : forall j, (a <= j < b)%nat -> f j = P (into A B (nth (S j) edges NaN)) / (P B - P A) - P (into A B (nth j edges NaN)) / (P B - P A)).
  { intros j Hj. destruct (nth_some_ex edges j) as [l Hl]; [lia|]. destruct (nth_some_ex edges (S j)) as [h Hh]; [lia|].
    rewrite (nth_error_nth _ _ _ Hl), (nth_error_nth _ _ _ Hh). eapply share_unique; [exact HAB|exact Hd|apply (Hf j l h Hj Hl Hh)|].
    exists P. split; [exact HP|]. split; [exact Hne|]. field. lra. }
  rewrite (sum_between_ext _ _ _ _ E). rewrite (sum_telescope (fun j => P (into A B (nth j edges NaN)) / (P B - P A))) by auto.
  rewrite (nth_error_nth _ _ _ Hlo), (nth_error_nth _ _ _ Hhi). apply (Rmult_eq_reg_r (P B - P A)); [|lra]. rewrite Ev. field. lra.
Qed.
Section Showers.
Variable s : sim_info.
Hypotheses (E0 : 0 < energy_min s) (E1 : energy_min s < energy_max s) (E2 : spectral_index s < -1).
Lemma fine_bin fine coarse k a b j l h lo hi : nondecreasing fine -> joins fine coarse k a b -> (a <= j < b)%nat -> nth_error fine j = Some l -> nth_error fine (S j) = Some h ->
  nth_error coarse k = Some lo -> nth_error coarse (S k) = Some hi -> energy_bin lo hi -> ~ overhangs (energy_min s) (energy_max s) lo hi ->
  energy_bin l h /\ ~ overhangs (energy_min s) (energy_max s) l h.
Proof.
  intros Hf (Hab & (lo' & Clo & Flo) & (hi' & Chi & Fhi) & _) Hj Hl Hh Clo' Chi' (B1 & B2) O. rewrite Clo in Clo'. injection Clo' as ->. rewrite Chi in Chi'. injection Chi' as ->.
  assert (L1 : nle lo l = true) by (eapply nondec_le; [exact Hf| |exact Flo|exact Hl]; lia). assert (L2 : nle h hi = true) by (eapply nondec_le; [exact Hf| |exact Hh|exact Fhi]; lia).
  split; [split; [eapply nle_trans; eauto|eapply Hf; eauto]|]. intros (O1 & O2). apply O. split.
  - destruct lo, l; cbn in *; try discriminate; auto; try (apply Rltb_true in O1; apply Rleb_true in L1; apply Rltb_true; lra).
  - destruct hi, h; cbn in *; try discriminate; auto; try (apply Rltb_true in O2; apply Rleb_true in L2; apply Rltb_true; lra).
Qed.
Lemma rebin_showers fine coarse k a b lo hi : nondecreasing fine -> joins fine coarse k a b -> nth_error coarse k = Some lo -> nth_error coarse (S k) = Some hi ->
  energy_bin lo hi -> ~ overhangs (energy_min s) (energy_max s) lo hi ->
  exists N n, nth_error (calculate_n_showers_per_energy s coarse) k = Some (Fin N) /\
    (forall j, (a <= j < b)%nat -> nth_error (calculate_n_showers_per_energy s fine) j = Some (Fin (n j))) /\ N = sum_between a b n.
Proof.
  intros Hf J Clo Chi B O. destruct (c30_bin s coarse k lo hi E0 E1 E2 Clo Chi B O) as (v & Ev & Sv & _). destruct (joins_lt _ _ _ _ _ J) as (Hab & Lb & Lk).
  set (f := fun j => match nth_error (calculate_n_showers_per_energy s fine) j with Some (Fin x) => x | _ => 0 end).
  assert (F : forall j l h, (a <= j < b)%nat -> nth_error fine j = Some l -> nth_error fine (S j) = Some h ->
    exists w, nth_error (calculate_n_showers_per_energy s fine) j = Some (Fin (IZR (n_showers s) * w)) /\ share positive (power_law (spectral_index s)) (energy_min s) (energy_max s) l h w).
  { intros j l h Hj Hl Hh. destruct (fine_bin fine coarse k a b j l h lo hi Hf J Hj Hl Hh Clo Chi B O) as (B' & O').
    destruct (c30_bin s fine j l h E0 E1 E2 Hl Hh B' O') as (w & Ew & Sw & _). eauto. }
  exists (IZR (n_showers s) * v), f. split; [exact Ev|]. split.
  - intros j Hj. destruct (nth_some_ex fine j) as [l Hl]; [lia|]. destruct (nth_some_ex fine (S j)) as [h Hh]; [lia|].
    destruct (F j l h Hj Hl Hh) as (w & Ew & _). unfold f. rewrite Ew. auto.
  - destruct (Z.eq_dec (n_showers s) 0) as [Z0|Z0].
    + rewrite Z0, Rmult_0_l. replace (sum_between a b f) with (sum_between a b (fun j => 0 * f j)); [rewrite sum_scale; ring|].
      apply sum_between_ext. intros j Hj. destruct (nth_some_ex fine j) as [l Hl]; [lia|]. destruct (nth_some_ex fine (S j)) as [h Hh]; [lia|].
      destruct (F j l h Hj Hl Hh) as (w & Ew & _). unfold f. rewrite Ew, Z0. ring.
    + assert (N0 : IZR (n_showers s) <> 0) by (apply not_0_IZR; auto).
      rewrite (share_joined positive (power_law (spectral_index s)) (energy_min s) (energy_max s) fine a b lo hi v (fun j => / IZR (n_showers s) * f j)); try lra.
      * rewrite sum_scale. field. auto.
      * intros x Hx. unfold positive. lra.
      * lia.
      * destruct J as (_ & (lo' & C & Fl) & _). congruence.
      * destruct J as (_ & _ & (hi' & C & Fl) & _). congruence.
      * exact Sv.
      * intros j l h Hj Hl Hh. destruct (F j l h Hj Hl Hh) as (w & Ew & Sw). unfold f. rewrite Ew. replace (/ IZR (n_showers s) * (IZR (n_showers s) * w)) with w by (field; auto). exact Sw.
Qed.
End Showers.
