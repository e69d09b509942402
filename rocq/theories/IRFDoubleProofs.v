(** * IRFDoubleProofs: instrument responses in double precision *)
From Coq Require Import String Reals List Bool ZArith Arith Lia Lra Psatz.
From Flocq Require Import Core.
From Verif Require Import Num Numpy Lists SpecBinning Table Binning BinningProofs HistProofs Utils SpecUtils SpecSimulations Simulations SimulationsProofs SimulationsProofs2
  Tensor TensorProofs SpecIRF IRF IRFProofs IRFProofs2 Double SpecDouble DoubleProofs NearProofs LiMaDoubleProofs LiMaDouble2Proofs IRFDouble.
Import ListNotations.
Open Scope R_scope.

Lemma near_abs k x y : (k <= 100)%nat -> near k x y -> Rabs (y - x) <= INR (k + 1) * u * Rabs x.
Proof.
  intros K (t & [T1 T2] & ->). replace (x * t - x) with (x * (t - 1)) by ring. rewrite Rabs_mult, (Rmult_comm _ (Rabs x)). apply Rmult_le_compat_l; [apply Rabs_pos|].
  pose proof u_pos as U0. pose proof u_small as U1. pose proof (pow_u k) as [P1 P2].
  assert (L : 1 - INR k * u <= (1 - u) ^ k).
  { clear. pose proof u_pos. pose proof u_small. induction k as [|k IH]; [simpl; lra|]. rewrite S_INR, <- tech_pow_Rmult. pose proof (pos_INR k). assert (0 <= INR k * u * u) by (apply Rmult_le_pos; [apply Rmult_le_pos|]; lra).
    apply Rle_trans with ((1 - u) * (1 - INR k * u)); [lra|]. apply Rmult_le_compat_l; lra. }
  assert (K' : INR k <= 100) by (apply le_INR in K; replace (INR 100) with 100 in K by (simpl; lra); auto). pose proof (pos_INR k) as K0.
  rewrite plus_INR. change (INR 1) with 1. assert (KU : 0 <= INR k * u <= / 10000) by (split; [apply Rmult_le_pos; lra|]; apply Rle_trans with (100 * / 1000000); [apply Rmult_le_compat; lra|lra]).
  apply Rabs_le. split; [lra|].
  assert (/ (1 - u) ^ k <= 1 + (INR k + 1) * u); [|lra].
  apply Rle_trans with (/ (1 - INR k * u)); [apply Rinv_le_contravar; lra|]. apply Rmult_le_reg_r with (1 - INR k * u); [lra|]. rewrite Rinv_l by lra.
  assert (INR k * u * (INR k + 1) <= 1); nra.
Qed.
Lemma fl_int (n : nat) : (Z.of_nat n <= 2 ^ 53)%Z -> fl (INR n) = Fin (INR n).
Proof.
  intros H. apply fl_of; [rewrite INR_IZR_INZ; apply round64_int; rewrite Z.abs_eq by lia; auto|].
  rewrite Rabs_pos_eq by apply pos_INR. pose proof (bpow_fmax 53 ltac:(lia)) as F. rewrite <- (IZR_Zpower radix2 53) in F by lia. rewrite INR_IZR_INZ. apply IZR_le in H. change (radix_val radix2 ^ 53)%Z with (2 ^ 53)%Z in F. lra.
Qed.
(** sums of event numbers are exact *)
Lemma fsum_acc (l : list nat) : forall a, (Z.of_nat (a + list_sum l) <= 2 ^ 53)%Z -> fold_left fadd (map (fun n => Fin (INR n)) l) (Fin (INR a)) = Fin (INR (a + list_sum l)).
Proof.
  induction l as [|n l IH]; intros a H; [cbn [map fold_left list_sum fold_right]; f_equal; f_equal; cbn; lia|].
  assert (E : list_sum (n :: l) = (n + list_sum l)%nat) by reflexivity. rewrite E in *. cbn [map fold_left]. rewrite fadd_fin, <- plus_INR, fl_int by lia. rewrite IH by lia. do 2 f_equal. lia.
Qed.
Lemma fsum_counts (l : list nat) : (Z.of_nat (list_sum l) <= 2 ^ 53)%Z -> fsum (map (fun n => Fin (INR n)) l) = Fin (INR (list_sum l)).
Proof. intros H. unfold fsum. change (Fin 0) with (Fin (INR 0)). rewrite fsum_acc; auto. Qed.
Lemma pr_count n : (1 <= n)%nat -> (Z.of_nat n <= 2 ^ 53)%Z -> pr 0 53 (INR n).
Proof.
  intros H1 H2. split; [change (bpow radix2 0) with (INR 1); apply le_INR; auto|]. rewrite <- (IZR_Zpower radix2 53) by lia. rewrite INR_IZR_INZ. apply IZR_le. exact H2.
Qed.
(** ** one entry *)
Definition dratio (n m : nat) : R := if Nat.eqb m 0 then 0 else INR n / INR m.
Lemma share_entry n m : (n <= m)%nat -> (Z.of_nat m <= 2 ^ 53)%Z ->
  (m = 0%nat /\ fdiv (Fin (INR n)) (Fin (INR m)) = NaN) \/ (m <> 0%nat /\ exists q, fdiv (Fin (INR n)) (Fin (INR m)) = Fin q /\ near 1 (dratio n m) q /\ (n = 0%nat -> q = 0) /\ (n <> 0%nat -> pr (-53) 53 q)).
Proof.
  intros H1 H2. unfold dratio. destruct (Nat.eqb_spec m 0) as [E|E].
  - left. split; auto. replace n with 0%nat by lia. rewrite E. unfold fdiv. cbn. rsolve. auto.
  - right. split; auto. assert (Hm : INR m <> 0) by (apply not_0_INR; auto). rewrite fdiv_fin by auto. destruct (Nat.eq_dec n 0) as [->|N].
    + exists 0. cbn [INR]. unfold Rdiv. rewrite Rmult_0_l, fl0. split; auto. split; [|split; [auto|tauto]]. exists 1. pose proof (pow_u 1). pose proof (inv_u 1). split; [lra|ring].
    + pose proof (pr_div _ _ _ _ _ _ (pr_count n ltac:(lia) ltac:(lia)) (pr_count m ltac:(lia) H2)) as P. destruct (fl_step' P eq_refl) as (q & -> & Nq & Rq & _). exists q. split; auto. split; auto. split; [contradiction|]. intros _.
      eapply pr_weaken; [| |exact Rq]; lia.
Qed.
Lemma density_entry n m w w' : (n <= m)%nat -> (Z.of_nat m <= 2 ^ 53)%Z -> pr (-200) 200 w' -> 0 < w -> near 1 w w' ->
  exists v, default_nan_to_num (fdiv (fdiv (Fin (INR n)) (Fin (INR m))) (Fin w')) = Fin v /\ near 3 (dratio n m / w) v.
Proof.
  intros H1 H2 Pw Hw Nw. pose proof (pr_pos _ _ _ Pw) as Pw'. destruct (share_entry n m H1 H2) as [(-> & E)|(Hm & q & E & Nq & Q0 & Q1)]; rewrite E.
  - exists 0. split; [reflexivity|]. unfold dratio. rewrite Nat.eqb_refl. unfold Rdiv. rewrite Rmult_0_l. exists 1. pose proof (pow_u 3). pose proof (inv_u 3). split; [lra|ring].
  - rewrite fdiv_fin by lra. destruct (Nat.eq_dec n 0) as [N|N].
    + rewrite (Q0 N). unfold Rdiv at 1. rewrite Rmult_0_l, fl0. exists 0. split; [reflexivity|]. unfold dratio. rewrite N. destruct (Nat.eqb m 0); cbn [INR]; unfold Rdiv; rewrite ?Rmult_0_l; exists 1; pose proof (pow_u 3); pose proof (inv_u 3); (split; [lra|ring]).
    + destruct (fl_step' (pr_div _ _ _ _ _ _ (Q1 N) Pw) eq_refl) as (v & -> & Nv & Rv & _). exists v. split; [reflexivity|]. apply (near_trans 2 1 _ (q / w')); auto. apply (near_div 1 1); auto. lra.
Qed.
Lemma diff_double_nth (f : R -> num) l j : (S j < length l)%nat -> nth j (diff_double (map f l)) NaN = fsub (f (nth (S j) l 0)) (f (nth j l 0)).
Proof.
  intros Hj. destruct (nth_some_ex l j ltac:(lia)) as [a Ha]. destruct (nth_some_ex l (S j) Hj) as [b Hb].
  rewrite (nth_error_nth _ _ _ Ha), (nth_error_nth _ _ _ Hb). apply nth_error_nth. unfold diff_double.
  rewrite (adj_nth _ (map f l) j (f a) (f b)); [reflexivity| |]; apply (map_nth_some f); auto.
Qed.
Lemma diff_double_length l : length (diff_double l) = (length l - 1)%nat.
Proof. apply adj_length. Qed.
Lemma width_entry a b : moderate (b - a) -> exists w, fsub (Fin b) (Fin a) = Fin w /\ near 1 (b - a) w /\ pr (-200) 200 w.
Proof. intros H. apply moderate_pr in H. unfold fsub. cbn [nsub nadd nneg fl_num]. destruct (fl_step' H eq_refl) as (w & E & N & R' & _). exists w. unfold Rminus in *. auto. Qed.
(** ** histograms of numbers of events *)
Lemma rsum_INR l : rsum (map INR l) = INR (list_sum l).
Proof. induction l as [|a l IH]; [cbn [map]; rewrite rsum_nil; reflexivity|]. cbn [map]. rewrite rsum_cons, IH. change (list_sum (a :: l)) with (a + list_sum l)%nat. rewrite plus_INR. auto. Qed.
Section Counts.
Variables (x1 x2 x3 : dl2 -> num) (e1 e2 e3 : list num) (evs : list dl2).
Hypothesis (N : (Z.of_nat (length evs) <= 2 ^ 53)%Z).
Definition cnt i j k : nat := count (hdd_match (dims3 x1 x2 x3 e1 e2 e3) [i; j; k]) evs.
Lemma cnt_wsum i j k : wsum unweighted (hdd_match (dims3 x1 x2 x3 e1 e2 e3) [i; j; k]) evs = INR (cnt i j k).
Proof. apply wsum_one. Qed.
Definition tot2 i k := count (fun e => m1 x1 e1 i e && m3 x3 e3 k e && r2 x2 e2 e)%bool evs.
Definition tot3 i j := count (fun e => m1 x1 e1 i e && m2 x2 e2 j e && r3 x3 e3 e)%bool evs.
Lemma tot2_sum i k : list_sum (map (fun j => cnt i j k) (seq 0 (length e2 - 1))) = tot2 i k.
Proof.
  apply INR_eq. rewrite <- rsum_INR, map_map. unfold tot2. rewrite <- wsum_one. change (fun _ : dl2 => 1) with unweighted. rewrite <- sum_axis2. apply rsum_map_ext. intros j _. symmetry. apply cnt_wsum.
Qed.
Lemma tot3_sum i j : list_sum (map (fun k => cnt i j k) (seq 0 (length e3 - 1))) = tot3 i j.
Proof.
  apply INR_eq. rewrite <- rsum_INR, map_map. unfold tot3. rewrite <- wsum_one. change (fun _ : dl2 => 1) with unweighted. rewrite <- sum_axis3. apply rsum_map_ext. intros k _. symmetry. apply cnt_wsum.
Qed.
Lemma count_le {A} (p : A -> bool) l : (count p l <= length l)%nat.
Proof. unfold count. induction l as [|a l IH]; cbn; [lia|]. destruct (p a); cbn; lia. Qed.
Lemma tot2_le i k : (Z.of_nat (tot2 i k) <= 2 ^ 53)%Z.
Proof. unfold tot2. pose proof (count_le (fun e => m1 x1 e1 i e && m3 x3 e3 k e && r2 x2 e2 e)%bool evs). lia. Qed.
Lemma tot3_le i k : (Z.of_nat (tot3 i k) <= 2 ^ 53)%Z.
Proof. unfold tot3. pose proof (count_le (fun e => m1 x1 e1 i e && m2 x2 e2 k e && r3 x3 e3 e)%bool evs). lia. Qed.
Lemma list_sum_in l n : In n l -> (n <= list_sum l)%nat.
Proof. induction l as [|a l IH]; [intros []|]. change (list_sum (a :: l)) with (a + list_sum l)%nat. intros [->|H]; [lia|]. specialize (IH H). lia. Qed.
Lemma cnt_tot2 i j k : (j < length e2 - 1)%nat -> (cnt i j k <= tot2 i k)%nat.
Proof. intros H. rewrite <- tot2_sum. apply list_sum_in. apply in_map_iff. exists j. split; auto. apply in_seq. lia. Qed.
Lemma cnt_tot3 i j k : (k < length e3 - 1)%nat -> (cnt i j k <= tot3 i j)%nat.
Proof. intros H. rewrite <- tot3_sum. apply list_sum_in. apply in_map_iff. exists k. split; auto. apply in_seq. lia. Qed.
Lemma fsum2 i k : fsum (map (fun j => Fin (wsum unweighted (hdd_match (dims3 x1 x2 x3 e1 e2 e3) [i; j; k]) evs)) (seq 0 (length e2 - 1))) = Fin (INR (tot2 i k)).
Proof.
  rewrite (map_ext _ (fun j => Fin (INR (cnt i j k)))) by (intros j; rewrite cnt_wsum; auto). rewrite <- (map_map (fun j => cnt i j k) (fun n => Fin (INR n))).
  rewrite fsum_counts; rewrite tot2_sum; auto using tot2_le.
Qed.
Lemma fsum3 i j : fsum (map (fun k => Fin (wsum unweighted (hdd_match (dims3 x1 x2 x3 e1 e2 e3) [i; j; k]) evs)) (seq 0 (length e3 - 1))) = Fin (INR (tot3 i j)).
Proof.
  rewrite (map_ext _ (fun k => Fin (INR (cnt i j k)))) by (intros k; rewrite cnt_wsum; auto). rewrite <- (map_map (fun k => cnt i j k) (fun n => Fin (INR n))).
  rewrite fsum_counts; rewrite tot3_sum; auto using tot3_le.
Qed.
Lemma dratio_sum2 i k : tot2 i k <> 0%nat -> rsum (map (fun j => dratio (cnt i j k) (tot2 i k)) (seq 0 (length e2 - 1))) = 1.
Proof.
  intros H. unfold dratio. apply Nat.eqb_neq in H as H'. rewrite H'. rewrite (rsum_map_ext _ (fun j => / INR (tot2 i k) * INR (cnt i j k))) by (intros; unfold Rdiv; ring).
  rewrite <- (map_map (fun j => cnt i j k) (fun n => / INR (tot2 i k) * INR n)), <- (map_map INR (fun x => / INR (tot2 i k) * x)), rsum_scale, rsum_INR, tot2_sum. apply Rinv_l. apply not_0_INR. auto.
Qed.
Lemma dratio_sum3 i j : tot3 i j <> 0%nat -> rsum (map (fun k => dratio (cnt i j k) (tot3 i j)) (seq 0 (length e3 - 1))) = 1.
Proof.
  intros H. unfold dratio. apply Nat.eqb_neq in H as H'. rewrite H'. rewrite (rsum_map_ext _ (fun k => / INR (tot3 i j) * INR (cnt i j k))) by (intros; unfold Rdiv; ring).
  rewrite <- (map_map (fun k => cnt i j k) (fun n => / INR (tot3 i j) * INR n)), <- (map_map INR (fun x => / INR (tot3 i j) * x)), rsum_scale, rsum_INR, tot3_sum. apply Rinv_l. apply not_0_INR. auto.
Qed.
End Counts.
Lemma dratio_nonneg n m : 0 <= dratio n m.
Proof. unfold dratio. destruct (Nat.eqb_spec m 0); [lra|]. apply Rmult_le_pos; [apply pos_INR|]. left. apply Rinv_0_lt_compat. apply lt_0_INR. lia. Qed.
Lemma rsum_close (f g : nat -> R) l c : 0 <= c -> (forall j, In j l -> 0 <= g j) -> (forall j, In j l -> Rabs (f j - g j) <= c * g j) -> Rabs (rsum (map f l) - rsum (map g l)) <= c * rsum (map g l).
Proof.
  intros Hc G H. induction l as [|a l IH]; [cbn [map]; rewrite !rsum_nil, Rminus_0_r, Rabs_R0; lra|]. cbn [map]. rewrite !rsum_cons.
  replace (f a + rsum (map f l) - (g a + rsum (map g l))) with ((f a - g a) + (rsum (map f l) - rsum (map g l))) by ring. eapply Rle_trans; [apply Rabs_triang|].
  specialize (IH (fun j Hj => G j (or_intror Hj)) (fun j Hj => H j (or_intror Hj))). pose proof (H a (or_introl eq_refl)). lra.
Qed.
(** ** energy dispersion *)
Definition mu_d e := fdiv (reco_energy e) (true_energy e).
Lemma seq_nth_val n j j' : nth_error (seq 0 n) j = Some j' -> j' = j /\ (j < n)%nat.
Proof. intros H. pose proof (nth_some_lt _ _ _ H) as L. rewrite seq_length in L. apply (nth_error_nth _ _ 0%nat) in H. rewrite seq_nth in H by auto. lia. Qed.
Lemma zero_number_of {A} (P : A -> Prop) l : (forall a, In a l -> ~ P a) -> number_of P l 0.
Proof. induction l as [|a l IH]; intros H; [constructor|]. constructor; [apply H; left; auto|]. apply IH. intros b Hb. apply H. right. auto. Qed.
Lemma number_of_zero {A} (P : A -> Prop) l a : number_of P l 0 -> In a l -> ~ P a.
Proof. intros H. remember 0%nat as n eqn:En. induction H; intros Ha; [destruct Ha|discriminate|]. destruct Ha as [<-|Ha]; auto. Qed.
Section Disp.
Variables (evs : list dl2) (ebins fbins : list num) (mig : list R).
Hypotheses (He : nondecreasing ebins) (Le : (2 <= length ebins)%nat) (Hf : nondecreasing fbins) (Lf : (2 <= length fbins)%nat)
  (Hm : increasing mig) (Lm : (2 <= length mig)%nat) (Hw : moderate_widths mig) (N : (Z.of_nat (length evs) <= 2 ^ 53)%Z).
Let nE := (length ebins - 1)%nat.
Let nM := (length mig - 1)%nat.
Let nF := (length fbins - 1)%nat.
Let Lm' : (2 <= length (map Fin mig))%nat.
Proof. rewrite map_length. auto. Qed.
Let Hm' := inc_nondec mig Hm.
Let c i j k := cnt true_energy mu_d true_fov_offset ebins (map Fin mig) fbins evs i j k.
Let t i k := tot2 true_energy mu_d true_fov_offset ebins (map Fin mig) fbins evs i k.
Let w j := nth (S j) mig 0 - nth j mig 0.
Lemma w_mod j : (j < nM)%nat -> moderate (w j).
Proof.
  intros Hj. destruct (nth_some_ex mig j) as [a Ha]; [unfold nM in *; lia|]. destruct (nth_some_ex mig (S j)) as [b Hb]; [unfold nM in *; lia|].
  unfold w. rewrite (nth_error_nth _ _ _ Ha), (nth_error_nth _ _ _ Hb). eapply Hw; eauto.
Qed.
Lemma disp_double_eq : exists out, energy_dispersion_double evs ebins fbins (map Fin mig) = Ok out /\ shape out = [nE; nM; nF] /\
  forall i j k, (i < nE)%nat -> (j < nM)%nat -> (k < nF)%nat -> exists v, at_ out [i; j; k] = Fin v /\ near 3 (dratio (c i j k) (t i k) / w j) v.
Proof.
  unfold energy_dispersion_double. fold mu_d. change ([(true_energy, ebins); (mu_d, map Fin mig); (true_fov_offset, fbins)]) with (dims3 true_energy mu_d true_fov_offset ebins (map Fin mig) fbins).
  rewrite hist3 by auto. cbn [rbind]. rewrite map_length. unfold normalize_hist_double. fold nE nM nF.
  assert (Lw : length (diff_double (map Fin mig)) = nM) by (rewrite diff_double_length, map_length; auto). unfold tsum_double.
  bnorm. cbn [rbind]. rewrite Lw. bnorm. cbn [rbind]. eexists. split; [reflexivity|]. split; [reflexivity|].
  intros i j k Hi Hj Hk. inorm. cbn [nth].
  pose proof (fsum2 true_energy mu_d true_fov_offset ebins (map Fin mig) fbins evs N i k) as F. rewrite map_length in F. fold nM in F. rewrite F.
  change (wsum unweighted _ evs) with (wsum unweighted (hdd_match (dims3 true_energy mu_d true_fov_offset ebins (map Fin mig) fbins) [i; j; k]) evs).
  rewrite cnt_wsum. fold (c i j k) (t i k). rewrite (diff_double_nth Fin) by (unfold nM in *; lia).
  destruct (width_entry _ _ (w_mod j Hj)) as (w' & Ew & Nw & Pw). rewrite Ew. fold (w j) in Nw. apply density_entry; auto.
  - apply cnt_tot2. rewrite map_length. auto.
  - apply tot2_le; auto.
  - pose proof (pr_pos _ _ _ (moderate_pr _ (w_mod j Hj))). auto.
Qed.
Definition values (out : tensor) i k := map (fun j => match at_ out [i; j; k] with Fin v => v | _ => 0 end) (seq 0 nM).
Theorem disp_double : exists out, energy_dispersion_double evs ebins fbins (map Fin mig) = Ok out /\
  shape out = [(length ebins - 1)%nat; (length mig - 1)%nat; (length fbins - 1)%nat] /\
  forall i k, (i < length ebins - 1)%nat -> (k < length fbins - 1)%nat ->
    exists d, length d = (length mig - 1)%nat /\
      (forall j v, nth_error d j = Some v -> at_ out [i; j; k] = Fin v /\ 0 <= v) /\
      (forall j v n m a b, nth_error d j = Some v -> nth_error mig j = Some a -> nth_error mig (S j) = Some b ->
        number_of (fun e => in_hist_bin ebins i (true_energy e) /\ in_hist_bin (map Fin mig) j (fdiv (reco_energy e) (true_energy e)) /\ in_hist_bin fbins k (true_fov_offset e)) evs n ->
        number_of (fun e => in_hist_bin ebins i (true_energy e) /\ in_range (map Fin mig) (fdiv (reco_energy e) (true_energy e)) /\ in_hist_bin fbins k (true_fov_offset e)) evs m ->
        (0 < m)%nat -> Rabs (v - INR n / INR m / (b - a)) <= 4 * eps53 * (INR n / INR m / (b - a))) /\
      ((exists e, In e evs /\ in_hist_bin ebins i (true_energy e) /\
          in_range (map Fin mig) (fdiv (reco_energy e) (true_energy e)) /\ in_hist_bin fbins k (true_fov_offset e)) ->
       Rabs (integral_over width mig d - 1) <= 4 * eps53) /\
      ((forall e, In e evs -> ~ (in_hist_bin ebins i (true_energy e) /\
          in_range (map Fin mig) (fdiv (reco_energy e) (true_energy e)) /\ in_hist_bin fbins k (true_fov_offset e))) ->
       forall v, In v d -> v = 0).
Proof.
  destruct disp_double_eq as (out & Eo & So & Ho). exists out. split; auto. split; auto. intros i k Hi Hk. rewrite eps53_u. pose proof u_pos as U0.
  assert (E : forall j, (j < nM)%nat -> exists v, at_ out [i; j; k] = Fin v /\ near 3 (dratio (c i j k) (t i k) / w j) v) by (intros; apply Ho; auto).
  set (d := values out i k). assert (Hd : forall j v, nth_error d j = Some v -> (j < nM)%nat /\ at_ out [i; j; k] = Fin v /\ near 3 (dratio (c i j k) (t i k) / w j) v).
  { intros j v Hj. unfold d, values in Hj. apply map_nth_inv in Hj as (j' & Hj & ->). apply seq_nth_val in Hj as [-> Hj]. split; auto. destruct (E j Hj) as (v & -> & Nv). auto. }
  assert (Wp : forall j, (j < nM)%nat -> 0 < w j) by (intros j Hj; exact (pr_pos _ _ _ (moderate_pr _ (w_mod j Hj)))).
  assert (Dp : forall j, (j < nM)%nat -> 0 <= dratio (c i j k) (t i k) / w j) by (intros j Hj; apply Rmult_le_pos; [apply dratio_nonneg|left; apply Rinv_0_lt_compat; auto]).
  assert (T : number_of (fun e => in_hist_bin ebins i (true_energy e) /\ in_range (map Fin mig) (mu_d e) /\ in_hist_bin fbins k (true_fov_offset e)) evs (t i k)) by (apply number_of_count; intros e _; apply sel2; auto; exact unweighted).
  exists d. split; [unfold d, values; rewrite map_length, seq_length; auto|]. split; [|split; [|split]].
  - intros j v Hj. apply Hd in Hj as (Lj & Ea & Nv). split; auto. apply (near_nonneg 3 (dratio (c i j k) (t i k) / w j)); auto.
  - intros j v n m a b Hj Ha Hb Hn Hm0 Mp. apply Hd in Hj as (Lj & _ & Nv).
    assert (Ec : c i j k = n).
    { eapply number_of_unique; [|exact Hn]. unfold c, cnt. apply number_of_count. intros e _. unfold dims3. cbn [hdd_match]. rewrite andb_true_r, andb_assoc. apply (cell3 true_energy mu_d true_fov_offset ebins (map Fin mig) fbins); auto; try exact unweighted. rewrite map_length. auto. }
    assert (Et : t i k = m) by (eapply number_of_unique; [exact T|exact Hm0]).
    apply near_abs in Nv; [|lia]. rewrite Ec, Et in Nv. unfold w in Nv. rewrite (nth_error_nth _ _ _ Ha), (nth_error_nth _ _ _ Hb) in Nv. unfold dratio in Nv. destruct (Nat.eqb_spec m 0); [lia|].
    rewrite (Rabs_pos_eq (INR n / INR m / (b - a))) in Nv; [replace (INR (3 + 1)) with 4 in Nv by (simpl; lra); auto|].
    pose proof (Dp j Lj) as Q. rewrite Ec, Et in Q. unfold w, dratio in Q. rewrite (nth_error_nth _ _ _ Ha), (nth_error_nth _ _ _ Hb) in Q. destruct (Nat.eqb_spec m 0); [lia|auto].
  - intros (e & Hin & Q). assert (Ht : t i k <> 0%nat) by (intros Z; rewrite Z in T; apply (number_of_zero _ _ e) in T; auto).
    unfold d, values. unfold nM at 1. rewrite integral_over_seq. fold nM. cbn [Nat.add].
    assert (S1 : rsum (map (fun j => dratio (c i j k) (t i k)) (seq 0 nM)) = 1) by (pose proof (dratio_sum2 true_energy mu_d true_fov_offset ebins (map Fin mig) fbins evs i k Ht) as S1; rewrite map_length in S1; exact S1).
    pose proof (rsum_close (fun j => match at_ out [i; j; k] with Fin v => v | _ => 0 end * width (nth j mig 0) (nth (S j) mig 0)) (fun j => dratio (c i j k) (t i k)) (seq 0 nM) (4 * u)) as RC.
    rewrite S1 in RC. rewrite Rmult_1_r in RC. apply RC; [lra|intros; apply dratio_nonneg|]. intros j Hj. apply in_seq in Hj. destruct (E j ltac:(lia)) as (v & -> & Nv). apply near_abs in Nv; [|lia].
    replace (INR (3 + 1)) with 4 in Nv by (simpl; lra). specialize (Wp j ltac:(lia)). specialize (Dp j ltac:(lia)). rewrite (Rabs_pos_eq (_ / _)) in Nv by auto. change (width (nth j mig 0) (nth (S j) mig 0)) with (w j).
    replace (v * w j - dratio (c i j k) (t i k)) with ((v - dratio (c i j k) (t i k) / w j) * w j) by (field; lra). rewrite Rabs_mult, (Rabs_pos_eq (w j)) by lra.
    replace (4 * u * dratio (c i j k) (t i k)) with (4 * u * (dratio (c i j k) (t i k) / w j) * w j) by (field; lra). apply Rmult_le_compat_r; lra.
  - intros Hno v Hv. apply In_nth_error in Hv as (j & Hj). apply Hd in Hj as (Lj & _ & (s & _ & ->)). assert (Z : t i k = 0%nat).
    { eapply number_of_unique; [exact T|]. apply zero_number_of. intros e Hin. apply Hno; auto. }
    rewrite Z. unfold dratio. cbn. unfold Rdiv. ring.
Qed.
End Disp.
