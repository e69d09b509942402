(** * IRFProofs: normalisation (C43-C45) *)
From Coq Require Import String Reals List Bool ZArith Arith Lia Lra.
From Verif Require Import Num Numpy Lists SpecBinning Table Binning BinningProofs HistProofs Utils SpecUtils SpecSimulations Simulations SimulationsProofs SimulationsProofs2
  Tensor TensorProofs SpecIRF IRF.
Import ListNotations.
Open Scope R_scope.

Lemma total_rsum l : total l = rsum l.
Proof. induction l as [|a l IH]; cbn [total]; [rewrite rsum_nil|rewrite rsum_cons, IH]; auto. Qed.
Lemma integral_over_seq (m : R -> R -> R) (f : nat -> R) edges : forall s,
  integral_over m edges (map f (seq s (length edges - 1))) =
  rsum (map (fun j => f (s + j)%nat * m (nth j edges 0) (nth (S j) edges 0)) (seq 0 (length edges - 1))).
Proof.
  induction edges as [|a edges IH]; intros s; [cbn; rewrite rsum_nil; auto|]. destruct edges as [|b edges]; [cbn; rewrite rsum_nil; auto|].
  replace (length (a :: b :: edges) - 1)%nat with (S (length (b :: edges) - 1)) by (cbn [length]; lia).
  cbn [seq map]. rewrite rsum_cons, Nat.add_0_r. cbn [nth].
  change (f s * m a b + integral_over m (b :: edges) (map f (seq (S s) (length (b :: edges) - 1))) = f s * m a b + rsum (map (fun j => f (s + j)%nat * m (nth j (a :: b :: edges) 0) (nth (S j) (a :: b :: edges) 0)) (seq 1 (length (b :: edges) - 1)))).
  f_equal. rewrite (IH (S s)). rewrite <- seq_shift, map_map. apply rsum_map_ext. intros j _. cbn [nth]. replace (S s + j)%nat with (s + S j)%nat by lia. auto.
Qed.
Lemma in_hist_bin_lt edges k x : in_hist_bin edges k x -> (S k < length edges)%nat.
Proof. intros [(lo & hi & _ & H & _)|[H _]]; [apply nth_some_lt in H; auto|lia]. Qed.

(** ** three-dimensional counts *)
Section Hist3.
Variables (x1 x2 x3 : dl2 -> num) (e1 e2 e3 : list num) (w : dl2 -> R) (evs : list dl2).
Definition dims3 := [(x1, e1); (x2, e2); (x3, e3)].
Hypotheses (H1 : nondecreasing e1) (L1 : (2 <= length e1)%nat) (H2 : nondecreasing e2) (L2 : (2 <= length e2)%nat)
  (H3 : nondecreasing e3) (L3 : (2 <= length e3)%nat).
Definition C3 i j k := wsum w (hdd_match dims3 [i; j; k]) evs.
Definition m1 i e := Nat.eqb (hdd_index e1 (x1 e)) (S i).
Definition m2 j e := Nat.eqb (hdd_index e2 (x2 e)) (S j).
Definition m3 k e := Nat.eqb (hdd_index e3 (x3 e)) (S k).
Lemma hist3 : histogramdd dims3 w evs = Ok (mkT [(length e1 - 1)%nat; (length e2 - 1)%nat; (length e3 - 1)%nat]
   (fun ix => Fin (wsum w (hdd_match dims3 ix) evs))).
Proof. rewrite histogramdd_ok; [reflexivity|]. intros d [<-|[<-|[<-|[]]]]; auto. Qed.
Lemma C3_eq i j k : C3 i j k = wsum w (fun e => m1 i e && m2 j e && m3 k e) evs.
Proof. unfold C3. apply wsum_ext. intros e _. cbn [hdd_match dims3]. unfold dims3. cbn. rewrite andb_true_r, andb_assoc. reflexivity. Qed.
Lemma cell3 i j k e : (i < length e1 - 1)%nat -> (j < length e2 - 1)%nat -> (k < length e3 - 1)%nat ->
  (m1 i e && m2 j e && m3 k e = true <-> in_hist_bin e1 i (x1 e) /\ in_hist_bin e2 j (x2 e) /\ in_hist_bin e3 k (x3 e)).
Proof.
  intros Hi Hj Hk. rewrite !andb_true_iff. unfold m1, m2, m3. rewrite !Nat.eqb_eq.
  rewrite (hdd_spec e1 (x1 e) H1 L1 i Hi), (hdd_spec e2 (x2 e) H2 L2 j Hj), (hdd_spec e3 (x3 e) H3 L3 k Hk). tauto.
Qed.
Lemma C3_weight i j k : (i < length e1 - 1)%nat -> (j < length e2 - 1)%nat -> (k < length e3 - 1)%nat ->
  weight_of w (fun e => in_hist_bin e1 i (x1 e) /\ in_hist_bin e2 j (x2 e) /\ in_hist_bin e3 k (x3 e)) evs (C3 i j k).
Proof. intros. rewrite C3_eq. apply weight_of_wsum. intros e _. apply cell3; auto. Qed.
(** sums over the middle and over the last axis *)
Definition r2 e := (Nat.leb 1 (hdd_index e2 (x2 e)) && Nat.leb (hdd_index e2 (x2 e)) (length e2 - 1))%bool.
Definition r3 e := (Nat.leb 1 (hdd_index e3 (x3 e)) && Nat.leb (hdd_index e3 (x3 e)) (length e3 - 1))%bool.
Lemma r2_spec e : r2 e = true <-> in_range e2 (x2 e).
Proof. unfold r2. rewrite andb_true_iff, !Nat.leb_le. apply hdd_range; auto. Qed.
Lemma r3_spec e : r3 e = true <-> in_range e3 (x3 e).
Proof. unfold r3. rewrite andb_true_iff, !Nat.leb_le. apply hdd_range; auto. Qed.
Lemma sum_axis2 i k : rsum (map (fun j => C3 i j k) (seq 0 (length e2 - 1))) = wsum w (fun e => m1 i e && m3 k e && r2 e) evs.
Proof.
  unfold r2. rewrite <- wsum_axis. apply rsum_map_ext. intros j _. rewrite C3_eq. apply wsum_ext. intros e _. unfold m2.
  destruct (m1 i e), (m3 k e); cbn; rewrite ?andb_true_r, ?andb_false_r; auto.
Qed.
Lemma sum_axis3 i j : rsum (map (fun k => C3 i j k) (seq 0 (length e3 - 1))) = wsum w (fun e => m1 i e && m2 j e && r3 e) evs.
Proof.
  unfold r3. rewrite <- wsum_axis. apply rsum_map_ext. intros k _. rewrite C3_eq. reflexivity.
Qed.
Lemma sel2 i k e : (i < length e1 - 1)%nat -> (k < length e3 - 1)%nat ->
  (m1 i e && m3 k e && r2 e = true <-> in_hist_bin e1 i (x1 e) /\ in_range e2 (x2 e) /\ in_hist_bin e3 k (x3 e)).
Proof.
  intros Hi Hk. rewrite !andb_true_iff, r2_spec. unfold m1, m3. rewrite !Nat.eqb_eq.
  rewrite (hdd_spec e1 (x1 e) H1 L1 i Hi), (hdd_spec e3 (x3 e) H3 L3 k Hk). tauto.
Qed.
Lemma sel3 i j e : (i < length e1 - 1)%nat -> (j < length e2 - 1)%nat ->
  (m1 i e && m2 j e && r3 e = true <-> in_hist_bin e1 i (x1 e) /\ in_hist_bin e2 j (x2 e) /\ in_range e3 (x3 e)).
Proof.
  intros Hi Hj. rewrite !andb_true_iff, r3_spec. unfold m1, m2. rewrite !Nat.eqb_eq.
  rewrite (hdd_spec e1 (x1 e) H1 L1 i Hi), (hdd_spec e2 (x2 e) H2 L2 j Hj). tauto.
Qed.
End Hist3.
Arguments C3 : simpl never.
(** unweighted: zero iff nobody is selected *)
Lemma wsum1_zero (p : dl2 -> bool) evs : wsum unweighted p evs = 0 <-> forall e, In e evs -> p e = false.
Proof.
  unfold unweighted. rewrite (wsum_one p evs). split.
  - intros H e He. assert (H0 : (count p evs = 0)%nat) by (apply INR_eq; auto). destruct (p e) eqn:E; auto. exfalso.
    assert (Hf : In e (filter p evs)) by (apply filter_In; auto). unfold count in H0. destruct (filter p evs); [destruct Hf|discriminate].
  - intros H. replace (count p evs) with 0%nat; auto. symmetry. induction evs as [|a l IH]; auto. rewrite count_cons, IH, (H a); auto; [left; auto|]. intros; apply H; right; auto.
Qed.
Lemma wsum1_nonneg (p : dl2 -> bool) evs : 0 <= wsum unweighted p evs.
Proof. apply wsum_nonneg. intros. unfold unweighted. lra. Qed.
Lemma wsum1_pos (p : dl2 -> bool) evs : (exists e, In e evs /\ p e = true) -> 0 < wsum unweighted p evs.
Proof.
  intros (e & He & Hp). destruct (wsum1_nonneg p evs) as [H|H]; auto. symmetry in H. rewrite wsum1_zero in H. rewrite (H e He) in Hp. discriminate.
Qed.
(** numbers of events as integers *)
Lemma weight_of_number {A} (P : A -> Prop) l m : number_of P l m -> weight_of (fun _ => 1) P l (INR m).
Proof. induction 1; [constructor| |apply wo_no; auto]. rewrite S_INR, Rplus_comm. apply (wo_yes (fun _ => 1)); auto. Qed.
Lemma C3_number x1 x2 x3 e1 e2 e3 evs i j k : nondecreasing e1 -> (2 <= length e1)%nat -> nondecreasing e2 -> (2 <= length e2)%nat -> nondecreasing e3 -> (2 <= length e3)%nat ->
  (i < length e1 - 1)%nat -> (j < length e2 - 1)%nat -> (k < length e3 - 1)%nat ->
  exists m, number_of (fun e => in_hist_bin e1 i (x1 e) /\ in_hist_bin e2 j (x2 e) /\ in_hist_bin e3 k (x3 e)) evs m /\ C3 x1 x2 x3 e1 e2 e3 unweighted evs i j k = INR m.
Proof.
  intros. exists (count (fun e => m1 x1 e1 i e && m2 x2 e2 j e && m3 x3 e3 k e) evs). split.
  - apply number_of_count. intros e _. apply cell3; auto; exact unweighted.
  - rewrite C3_eq. apply wsum_one.
Qed.
Lemma inc_nondec l : increasing l -> nondecreasing (map Fin l).
Proof.
  intros H. split.
  - intros e He. apply in_map_iff in He as (x & <- & _). auto.
  - intros i a b Ha Hb. apply map_nth_inv in Ha as (x & Hx & ->). apply map_nth_inv in Hb as (y & Hy & ->). cbn. apply Rleb_true. left. eapply H; eauto.
Qed.
Lemma ndiv_fin a b : b <> 0 -> ndiv (Fin a) (Fin b) = Fin (a / b).
Proof. intros H. cbn. apply Reqb_false in H. rewrite H. auto. Qed.
Lemma ndiv_00 : ndiv (Fin 0) (Fin 0) = NaN.
Proof. cbn. rsolve. auto. Qed.
Definition ratio (C S : R) : R := if Reqb S 0 then 0 else C / S.
Lemma norm_entry C S w : 0 <= C <= S -> 0 < w -> default_nan_to_num (ndiv (ndiv (Fin C) (Fin S)) (Fin w)) = Fin (ratio C S / w).
Proof.
  intros HC Hw. unfold ratio. destruct (Reqb_spec S 0) as [E|E].
  - replace C with 0 by lra. rewrite E, ndiv_00. cbn. unfold Rdiv. rewrite Rmult_0_l. auto.
  - rewrite !ndiv_fin by lra. auto.
Qed.
Lemma ratio_nonneg C S : 0 <= C <= S -> 0 <= ratio C S <= 1.
Proof.
  intros H. unfold ratio. destruct (Reqb_spec S 0) as [E|E]; [lra|]. assert (0 < S) by lra. split.
  - apply Rmult_le_pos; [lra|left; apply Rinv_0_lt_compat; auto].
  - apply (Rmult_le_reg_r S); auto. unfold Rdiv. rewrite Rmult_assoc, Rinv_l by lra. lra.
Qed.
Lemma ratio_sum (C : nat -> R) S l : S <> 0 -> rsum (map C l) = S -> rsum (map (fun j => ratio (C j) S) l) = 1.
Proof.
  intros HS E. unfold ratio. apply Reqb_false in HS as HS'. rewrite HS'.
  rewrite (rsum_map_ext _ (fun j => / S * C j)) by (intros; unfold Rdiv; ring). rewrite <- (map_map C (fun x => / S * x)), rsum_scale, E. apply Rinv_l. auto.
Qed.
Lemma rsum_le_in (f : nat -> R) l j : (forall i, In i l -> 0 <= f i) -> In j l -> f j <= rsum (map f l).
Proof.
  intros H Hj. induction l as [|a l IH]; [destruct Hj|]. cbn [map]. rewrite rsum_cons.
  assert (0 <= rsum (map f l)) by (apply rsum_nonneg; intros x Hx; apply in_map_iff in Hx as (i & <- & Hi); apply H; right; auto).
  destruct Hj as [->|Hj]; [lra|]. specialize (IH (fun i Hi => H i (or_intror Hi)) Hj). pose proof (H a (or_introl eq_refl)). lra.
Qed.
Lemma C3_nonneg x1 x2 x3 e1 e2 e3 evs i j k : 0 <= C3 x1 x2 x3 e1 e2 e3 unweighted evs i j k.
Proof. apply wsum1_nonneg. Qed.
Lemma inc_nth l j : increasing l -> (S j < length l)%nat -> nth j l 0 < nth (S j) l 0.
Proof.
  intros H Hj. destruct (nth_some_ex l j ltac:(lia)) as [a Ha]. destruct (nth_some_ex l (S j) Hj) as [b Hb].
  rewrite (nth_error_nth _ _ _ Ha), (nth_error_nth _ _ _ Hb). eapply H; eauto.
Qed.
Lemma ndiff_fin_nth (f : R -> R) l j : (S j < length l)%nat -> nth j (ndiff (map (fun x => Fin (f x)) l)) NaN = Fin (f (nth (S j) l 0) - f (nth j l 0)).
Proof.
  intros Hj. destruct (nth_some_ex l j ltac:(lia)) as [a Ha]. destruct (nth_some_ex l (S j) Hj) as [b Hb].
  rewrite (nth_error_nth _ _ _ Ha), (nth_error_nth _ _ _ Hb). apply nth_error_nth. unfold ndiff.
  rewrite (adj_nth _ (map (fun x => Fin (f x)) l) j (Fin (f a)) (Fin (f b))); [reflexivity| |]; apply (map_nth_some (fun x => Fin (f x))); auto.
Qed.
Lemma ndiff_length l : length (ndiff l) = (length l - 1)%nat.
Proof. apply adj_length. Qed.

(** ** C43 *)
Definition mu e := ndiv (reco_energy e) (true_energy e).
Section C43.
Variables (evs : list dl2) (ebins fbins : list num) (mig : list R).
Hypotheses (He : nondecreasing ebins) (Le : (2 <= length ebins)%nat) (Hf : nondecreasing fbins) (Lf : (2 <= length fbins)%nat)
  (Hm : increasing mig) (Lm : (2 <= length mig)%nat).
Let nE := (length ebins - 1)%nat.
Let nM := (length mig - 1)%nat.
Let nF := (length fbins - 1)%nat.
Let Lm' : (2 <= length (map Fin mig))%nat.
Proof. rewrite map_length. auto. Qed.
Let Hm' := inc_nondec mig Hm.
Let C i j k := C3 true_energy mu true_fov_offset ebins (map Fin mig) fbins unweighted evs i j k.
Let S_ i k := rsum (map (fun j => C i j k) (seq 0 nM)).
Lemma C_le i j k : (j < nM)%nat -> 0 <= C i j k <= S_ i k.
Proof.
  intros Hj. split; [apply C3_nonneg|]. unfold S_. apply (rsum_le_in (fun j => C i j k)); [intros; apply C3_nonneg|]. apply in_seq. lia.
Qed.
Lemma disp_eq : exists out, energy_dispersion evs ebins fbins (map Fin mig) = Ok out /\ shape out = [nE; nM; nF] /\
  forall i j k, (i < nE)%nat -> (j < nM)%nat -> (k < nF)%nat ->
    at_ out [i; j; k] = Fin (ratio (C i j k) (S_ i k) / (nth (Datatypes.S j) mig 0 - nth j mig 0)).
Proof.
  unfold energy_dispersion. fold mu. change ([(true_energy, ebins); (mu, map Fin mig); (true_fov_offset, fbins)]) with (dims3 true_energy mu true_fov_offset ebins (map Fin mig) fbins).
  rewrite hist3 by auto. cbn [rbind]. rewrite map_length. unfold normalize_hist. fold nE nM nF.
  assert (Lw : length (ndiff (map Fin mig)) = nM) by (rewrite ndiff_length, map_length; auto).
  bnorm. cbn [rbind]. rewrite Lw. bnorm. cbn [rbind]. eexists. split; [reflexivity|]. split; [reflexivity|].
  intros i j k Hi Hj Hk. inorm. cbn [nth].
  rewrite (nsum_fin_map (fun j0 => wsum unweighted (hdd_match _ [i; j0; k]) evs)).
  change (rsum _) with (S_ i k). change (wsum _ _ _) with (C i j k).
  rewrite (ndiff_fin_nth (fun x => x)) by (unfold nM in *; lia).
  apply norm_entry; [apply C_le; auto|]. pose proof (inc_nth mig j Hm ltac:(unfold nM in *; lia)). lra.
Qed.
Lemma c43_sum i k : integral_over width mig (map (fun j => ratio (C i j k) (S_ i k) / (nth (Datatypes.S j) mig 0 - nth j mig 0)) (seq 0 nM)) = rsum (map (fun j => ratio (C i j k) (S_ i k)) (seq 0 nM)).
Proof.
  unfold nM at 1. rewrite integral_over_seq. fold nM. apply rsum_map_ext. intros j Hj. apply in_seq in Hj. cbn [Nat.add]. unfold width.
  pose proof (inc_nth mig j Hm ltac:(unfold nM in *; lia)). field. lra.
Qed.
Lemma c43 : exists out, energy_dispersion evs ebins fbins (map Fin mig) = Ok out /\
  shape out = [(length ebins - 1)%nat; (length mig - 1)%nat; (length fbins - 1)%nat] /\
  forall i k, (i < length ebins - 1)%nat -> (k < length fbins - 1)%nat ->
    exists d, length d = (length mig - 1)%nat /\
      (forall j v, nth_error d j = Some v -> at_ out [i; j; k] = Fin v /\ 0 <= v) /\
      ((exists e, In e evs /\ in_hist_bin ebins i (true_energy e) /\
          in_range (map Fin mig) (ndiv (reco_energy e) (true_energy e)) /\ in_hist_bin fbins k (true_fov_offset e)) ->
       integral_over width mig d = 1) /\
      ((forall e, In e evs -> ~ (in_hist_bin ebins i (true_energy e) /\
          in_range (map Fin mig) (ndiv (reco_energy e) (true_energy e)) /\ in_hist_bin fbins k (true_fov_offset e))) ->
       forall v, In v d -> v = 0).
Proof.
  destruct disp_eq as (out & Eo & So & Ho). exists out. split; auto. split; auto. intros i k Hi Hk.
  exists (map (fun j => ratio (C i j k) (S_ i k) / (nth (Datatypes.S j) mig 0 - nth j mig 0)) (seq 0 nM)).
  assert (Esum : S_ i k = wsum unweighted (fun e => m1 true_energy ebins i e && m3 true_fov_offset fbins k e && r2 mu (map Fin mig) e) evs).
  { unfold S_, C. unfold nM. rewrite <- (map_length Fin mig). apply sum_axis2; auto. }
  split; [rewrite map_length, seq_length; auto|]. split; [|split].
  - intros j v Hj. apply map_nth_inv in Hj as (j' & Hj & ->). assert (Lj := nth_some_lt _ _ _ Hj). rewrite seq_length in Lj.
    assert (j' = j). { apply (nth_error_nth _ _ 0%nat) in Hj. rewrite seq_nth in Hj by auto. lia. } subst j'.
    split; [apply Ho; auto|]. apply Rmult_le_pos; [apply ratio_nonneg, C_le; auto|]. left. apply Rinv_0_lt_compat.
    pose proof (inc_nth mig j Hm ltac:(unfold nM in *; lia)). lra.
  - intros (e & Hin & E1 & E2 & E3). rewrite c43_sum. apply (ratio_sum (fun j => C i j k)); auto.
    assert (0 < S_ i k); [|lra]. rewrite Esum. apply wsum1_pos. exists e. split; auto. apply sel2; auto; exact unweighted.
  - intros Hno v Hv. apply in_map_iff in Hv as (j & <- & Hj).
    assert (Z : S_ i k = 0). { rewrite Esum. apply wsum1_zero. intros e Hin. apply not_true_is_false. intros Ht. apply (Hno e Hin). revert Ht. apply sel2; auto; exact unweighted. }
    unfold ratio. rewrite Z. rsolve. unfold Rdiv. ring.
Qed.
Lemma c43_value i j k : (i < nE)%nat -> (j < nM)%nat -> (k < nF)%nat ->
  exists out n m a b, energy_dispersion evs ebins fbins (map Fin mig) = Ok out /\
    number_of (fun e => in_hist_bin ebins i (true_energy e) /\ in_hist_bin (map Fin mig) j (ndiv (reco_energy e) (true_energy e)) /\ in_hist_bin fbins k (true_fov_offset e)) evs n /\
    number_of (fun e => in_hist_bin ebins i (true_energy e) /\ in_range (map Fin mig) (ndiv (reco_energy e) (true_energy e)) /\ in_hist_bin fbins k (true_fov_offset e)) evs m /\
    nth_error mig j = Some a /\ nth_error mig (Datatypes.S j) = Some b /\
    ((0 < m)%nat -> at_ out [i; j; k] = Fin (INR n / INR m / (b - a))).
Proof.
  intros Hi Hj Hk. destruct disp_eq as (out & Eo & So & Ho).
  destruct (C3_number true_energy mu true_fov_offset ebins (map Fin mig) fbins evs i j k) as (n & Hn & En); auto; try (rewrite map_length; auto).
  destruct (nth_some_ex mig j) as [a Ha]; [unfold nM in *; lia|]. destruct (nth_some_ex mig (Datatypes.S j)) as [b Hb]; [unfold nM in *; lia|].
  exists out, n, (count (fun e => m1 true_energy ebins i e && m3 true_fov_offset fbins k e && r2 mu (map Fin mig) e) evs), a, b.
  split; auto. split; auto. split. { apply number_of_count. intros e _. apply sel2; auto; exact unweighted. }
  split; auto. split; auto. intros Hpos. rewrite Ho by auto. fold (C i j k) in En. rewrite En.
  rewrite (nth_error_nth _ _ _ Ha), (nth_error_nth _ _ _ Hb). f_equal. f_equal.
  assert (Es : S_ i k = INR (count (fun e => m1 true_energy ebins i e && m3 true_fov_offset fbins k e && r2 mu (map Fin mig) e) evs)).
  { unfold S_, C, nM. rewrite <- (map_length Fin mig). rewrite sum_axis2 by auto. apply wsum_one. }
  rewrite Es. unfold ratio. replace (Reqb _ 0) with false; auto. symmetry. apply Reqb_false. apply not_0_INR. lia.
Qed.
End C43.
