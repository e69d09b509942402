(** * PipelineProofs: from the event lists to the sensitivity *)
From Coq Require Import String Reals List Bool ZArith Lia Lra.
From Verif Require Import Num Numpy Table Binning Utils Statistics SpecStatistics SpecBinning BinningProofs HistProofs BinningProofs2 Percentile Cuts SpecCuts
  CutsProofs CutsProofs2 SpecSensitivity Sensitivity SensitivityProofs SensitivityProofs2 SensitivityProofs3 SensitivityProofs4 SensitivityProofs5
  CutOptimization SpecCutOptimization
  CutOptimizationProofs CutOptimizationProofs2 CutOptimizationProofs3 CutOptimizationProofs4 CutOptimizationProofs5 CutOptimizationProofs6 SpecPipeline.
Import ListNotations.
Open Scope R_scope.

Lemma weight_of_one {A} (w : A -> R) (P : A -> Prop) (p : A -> bool) l : (forall a, p a = true <-> P a) ->
  weight_of w P l (wsum w p l).
Proof.
  intros Hp. unfold wsum. induction l as [|a l IH]; cbn [filter]. { constructor. }
  destruct (p a) eqn:E.
  - cbn [map]. rewrite rsum_cons. apply wo_yes; auto. apply Hp; auto.
  - apply wo_no; auto. rewrite <- Hp. congruence.
Qed.
Lemma count_as_weight {A} (p : A -> bool) l : IZR (Z.of_nat (count p l)) = wsum (fun _ => 1) p l.
Proof.
  unfold wsum, count. induction (filter p l) as [|a f IH]; cbn [map length]. { reflexivity. }
  rewrite rsum_cons, <- IH, Nat2Z.inj_succ, succ_IZR. lra.
Qed.
Lemma weight_of_iff {A} (w : A -> R) (P Q : A -> Prop) l r : (forall a, In a l -> (P a <-> Q a)) -> weight_of w P l r -> weight_of w Q l r.
Proof.
  intros H W. induction W; [constructor|apply wo_yes|apply wo_no]; try (rewrite <- H; cbn; auto); try apply IHW; intros; apply H; right; auto.
Qed.
Lemma weight_of_inv {A B} (f : A -> B) (w : B -> R) (P : B -> Prop) l r : weight_of w P (map f l) r ->
  weight_of (fun a => w (f a)) (fun a => P (f a)) l r.
Proof.
  revert r. induction l as [|a l IH]; intros r H; cbn [map] in H; inversion H; subst; [constructor|apply (wo_yes (fun a => w (f a)))|apply wo_no]; auto.
Qed.
Lemma weight_of_nonneg {A} (w : A -> R) (P : A -> Prop) l r : (forall a, In a l -> 0 <= w a) -> weight_of w P l r -> 0 <= r.
Proof.
  intros Hw H. induction H; [lra| |].
  - assert (0 <= w a) by (apply Hw; left; auto). assert (0 <= r) by (apply IHweight_of; intros; apply Hw; right; auto). lra.
  - apply IHweight_of; intros; apply Hw; right; auto.
Qed.

Section Pipeline.
Variables (br : (R -> num) -> R -> R -> res R) (sw sp bw bp : bool) (bins : list num) (centers cuts : list R) (alpha mn mx s m e : R).
Hypotheses (Hbs : brentq_sound br) (Hbc : brentq_converges br) (Hbg : brentq_checks_signs br)
  (Hnd : nondecreasing bins) (Hlen : (2 <= length bins)%nat)
  (Hfin : forall k lo hi, nth_error bins k = Some lo -> nth_error bins (S k) = Some hi -> exists r, lo = Fin r \/ hi = Fin r)
  (Hinc : increasing centers) (Hcl : length centers = length cuts) (Hcne : centers <> [])
  (Ha : 0 < alpha) (Hmn : 0 <= mn) (Hmx : mn < mx) (Hpi : mx <= PI) (Hs : 0 < s).

Lemma wgt_weight hw k evs : (k < length bins - 1)%nat -> exists w, wgt bins hw k evs = Fin w /\
  weight_of (weight_in hw) (fun v => in_hist_bin bins k (ev_x v)) evs w.
Proof.
  intros Hk. unfold wgt, cnt. destruct hw.
  - eexists. split; [reflexivity|]. apply (weight_of_one ev_w). intros v. apply inb_spec; auto.
  - eexists. split; [reflexivity|]. rewrite count_as_weight. apply (weight_of_one (fun _ => 1)). intros v. apply inb_spec; auto.
Qed.
Lemma ring_weight hw k B w : weight_of (weight_in hw) (fun v => in_hist_bin bins k (ev_x v)) (ring (Fin mn) (Fin mx) B) w ->
  weight_of (fun o => weight_in hw (o_ev o)) (fun o => in_annulus mn mx (o_offset o) /\ in_hist_bin bins k (o_energy o)) B w.
Proof.
  unfold ring. intros H. apply weight_of_inv in H.
  assert (Hq : forall o, CutOptimizationProofs3.q (Fin mn) (Fin mx) o = true <-> in_annulus mn mx (o_offset o)).
  { intros o. unfold CutOptimizationProofs3.q, in_annulus, nge. rewrite andb_true_iff. tauto. }
  remember (filter (CutOptimizationProofs3.q (Fin mn) (Fin mx)) B) as f eqn:Ef. revert B Ef. induction H as [|o l r Ho Hr IH|o l r Ho Hr IH]; intros B Ef.
  - induction B as [|b B IHB]; [constructor|]. cbn [filter] in Ef. destruct (CutOptimizationProofs3.q _ _ b) eqn:E; [discriminate|].
    apply wo_no; auto. rewrite <- Hq. intros [? _]. congruence.
  - induction B as [|b B IHB]; [discriminate|]. cbn [filter] in Ef. destruct (CutOptimizationProofs3.q _ _ b) eqn:E.
    + injection Ef as -> ->. apply (wo_yes (fun o => weight_in hw (o_ev o))); auto. split; auto. apply Hq; auto.
    + apply wo_no; auto. rewrite <- Hq. intros [? _]. congruence.
  - induction B as [|b B IHB]; [discriminate|]. cbn [filter] in Ef. destruct (CutOptimizationProofs3.q _ _ b) eqn:E.
    + injection Ef as -> ->. apply wo_no; auto. tauto.
    + apply wo_no; auto. rewrite <- Hq. intros [? _]. congruence.
Qed.
Lemma ring_ratio_nonneg th : 0 <= ring_ratio th mn mx.
Proof.
  unfold ring_ratio. assert (Hc : cos mx < cos mn) by (apply cos_decreasing_1; lra). pose proof (COS_bound th).
  apply Rmult_le_pos; [lra|]. left. apply Rinv_0_lt_compat. lra.
Qed.
Lemma scaled_value k lo hi v : nth_error bins k = Some lo -> nth_error bins (S k) = Some hi ->
  exists th, cut_for_bin centers cuts lo hi th /\
    scaled bins (Fin alpha) (Fin mn) (Fin mx) (map Fin centers) (map Fin cuts) k (Fin v) = Fin (v * ring_ratio th mn mx / alpha).
Proof.
  intros Hlo Hhi. assert (Hk : (k < length bins - 1)%nat) by (apply nth_lt in Hhi; lia).
  destruct (ratio_bin centers cuts mn mx lo hi) as (th & Hth & E); auto.
  { apply (proj2 Hnd k); auto. } { eapply Hfin; eauto. }
  exists th. split; auto. unfold scaled, size_ratio. unfold ratio_of in E.
  pose proof (center_at bins k Hk) as Ec. rewrite (center_nth bins k lo hi Hlo Hhi) in Ec.
  assert (Ec' : center bins k = nmul (Fin (1/2)) (nadd lo hi)) by congruence. rewrite Ec', E. cbn [nmul]. rewrite ndiv_fin by lra. auto.
Qed.
(** one bin *)
Lemma bin_value W V ratio : 0 <= W -> 0 <= V -> 0 <= ratio ->
  let B := V * ratio / alpha in exists rel,
  relative_sensitivity1 br li_ma1 (nadd (Fin W) (nmul (Fin alpha) (Fin B))) (Fin B) (Fin alpha) (Fin s) (Fin m) (Fin e) = Ok rel /\
  smallest_detectable W B alpha s m e rel.
Proof.
  intros HW HV Hr B. assert (HB : 0 <= B). { unfold B. apply Rmult_le_pos; [apply Rmult_le_pos; auto|left; apply Rinv_0_lt_compat; auto]. }
  cbn [nmul nadd]. assert (HaB : 0 <= alpha * B) by (apply Rmult_le_pos; lra).
  destruct (Rle_lt_or_eq_dec 0 W HW) as [Hpos|<-].
  - destruct (c24_exact br (W + alpha * B) B alpha s m e Hbs Hbc Hbg HB Ha Hs) as [F1 F2]; [lra|].
    replace (W + alpha * B - alpha * B) with W in F1, F2 by ring. change (bracketed W B alpha s -> exists r, relative_sensitivity1 br li_ma1 (Fin (W + alpha * B)) (Fin B) (Fin alpha) (Fin s) (Fin m) (Fin e) = Ok (Fin r) /\ 0 < r) in F1.
    change (~ bracketed W B alpha s -> relative_sensitivity1 br li_ma1 (Fin (W + alpha * B)) (Fin B) (Fin alpha) (Fin s) (Fin m) (Fin e) = Ok NaN) in F2.
    assert (Hex : exists rel, relative_sensitivity1 br li_ma1 (Fin (W + alpha * B)) (Fin B) (Fin alpha) (Fin s) (Fin m) (Fin e) = Ok rel).
    { destruct (Classical_Prop.classic (bracketed W B alpha s)) as [Hb|Hb]; [destruct (F1 Hb) as (r & E & _); eauto|eauto]. }
    destruct Hex as [rel E]. exists rel. split; [exact E|]. split; [lra|]. intros _. split.
    + intros Hb. destruct (F1 Hb) as (r & E' & Hr0). rewrite E in E'. injection E' as ->. exists r. split; auto.
      pose proof (rel_sens_sound br (W + alpha * B) B alpha s m e r Hbs) as G. cbv zeta in G. replace (W + alpha * B - alpha * B) with W in G by ring.
      apply G; auto; lra.
    + intros Hb. specialize (F2 Hb). congruence.
  - exists PInf. split; [|split; [auto|lra]]. rewrite Rplus_0_l. apply c21_no_signal; lra.
Qed.

(** one row of the table *)
Definition row_meaning (S B : list opt_event) (t : table) : Prop :=
  forall k lo hi, nth_error bins k = Some lo -> nth_error bins (Datatypes.S k) = Some hi ->
  exists th W V rel, cut_for_bin centers cuts lo hi th /\
    weight_of (fun o => weight_in sw (o_ev o)) (fun o => in_hist_bin bins k (o_energy o)) S W /\
    weight_of (fun o => weight_in bw (o_ev o)) (fun o => in_annulus mn mx (o_offset o) /\ in_hist_bin bins k (o_energy o)) B V /\
    cell t "relative_sensitivity" k rel /\
    cell t "n_signal_weighted" k (nmul (Fin W) rel) /\
    cell t "n_background_weighted" k (Fin (V * ring_ratio th mn mx / alpha)) /\
    smallest_detectable W (V * ring_ratio th mn mx / alpha) alpha s m e rel.

Lemma nonneg_in hw (S : list opt_event) : (forall o, In o S -> 0 <= ev_w (o_ev o)) -> forall o, In o S -> 0 <= weight_in hw (o_ev o).
Proof. intros H o Ho. unfold weight_in. destruct hw; [auto|lra]. Qed.
Lemma bin_rel S B k lo hi : (forall o, In o S -> 0 <= ev_w (o_ev o)) -> (forall o, In o B -> 0 <= ev_w (o_ev o)) ->
  nth_error bins k = Some lo -> nth_error bins (Datatypes.S k) = Some hi ->
  exists th W V rel, cut_for_bin centers cuts lo hi th /\
    weight_of (fun o => weight_in sw (o_ev o)) (fun o => in_hist_bin bins k (o_energy o)) S W /\
    weight_of (fun o => weight_in bw (o_ev o)) (fun o => in_annulus mn mx (o_offset o) /\ in_hist_bin bins k (o_energy o)) B V /\
    wgt bins sw k (map o_ev S) = Fin W /\
    scaled bins (Fin alpha) (Fin mn) (Fin mx) (map Fin centers) (map Fin cuts) k (wgt bins bw k (ring (Fin mn) (Fin mx) B)) = Fin (V * ring_ratio th mn mx / alpha) /\
    rel1 br li_ma1 sw bw bins (Fin alpha) (Fin mn) (Fin mx) (Fin s) (Fin m) (Fin e) S B (map Fin centers) (map Fin cuts) k = Ok rel /\
    smallest_detectable W (V * ring_ratio th mn mx / alpha) alpha s m e rel.
Proof.
  intros HS HB Hlo Hhi. assert (Hk : (k < length bins - 1)%nat) by (apply nth_lt in Hhi; lia).
  destruct (wgt_weight sw k (map o_ev S) Hk) as (W & EW & HW). destruct (wgt_weight bw k (ring (Fin mn) (Fin mx) B) Hk) as (V & EV & HV).
  apply weight_of_inv in HW. apply ring_weight in HV. 
  destruct (scaled_value k lo hi V Hlo Hhi) as (th & Hth & Esc).
  destruct (bin_value W V (ring_ratio th mn mx)) as (rel & Er & Hsd).
  { eapply weight_of_nonneg; [|exact HW]. apply nonneg_in; auto. } { eapply weight_of_nonneg; [|exact HV]. apply nonneg_in; auto. } { apply ring_ratio_nonneg. }
  exists th, W, V, rel. rewrite EV. repeat (split; [solve [auto]|]). split; auto. unfold rel1. rewrite EW, EV, Esc. exact Er.
Qed.
Lemma pipeline_sel S B : (sp = true -> forall o, In o S -> ev_p (o_ev o) <> "weighted"%string) -> clean bp B ->
  (forall o, In o S -> 0 <= ev_w (o_ev o)) -> (forall o, In o B -> 0 <= ev_w (o_ev o)) ->
  exists t, selected_sensitivity br li_ma1 li_ma_array sw sp bw bp bins (Fin alpha) (Fin mn) (Fin mx) (Fin s) (Fin m) (Fin e) S B (map Fin centers) (map Fin cuts) = Ok t /\
    row_meaning S B t.
Proof.
  intros Hsl Hbl HS HB.
  destruct (sens_ok br li_ma1 li_ma_array sw sp bw bp bins (Fin alpha) (Fin mn) (Fin mx) (Fin s) (Fin m) (Fin e) Hnd Hlen Hfin) with (S := S) (B := B) (thc := map Fin centers) (thcut := map Fin cuts)
    as (t & Et & _ & Hc); auto.
  { intros; apply li_ma_array_elementwise; auto. }
  { destruct centers; [congruence|discriminate]. } { rewrite !map_length; auto. }
  { intros k Hk. destruct (nth_error_ex bins k) as [lo Hlo]; [lia|]. destruct (nth_error_ex bins (Datatypes.S k)) as [hi Hhi]; [lia|].
    destruct (bin_rel S B k lo hi HS HB Hlo Hhi) as (th & W & V & rel & _ & _ & _ & _ & _ & E & _). eauto. }
  exists t. split; auto. intros k lo hi Hlo Hhi. destruct (bin_rel S B k lo hi HS HB Hlo Hhi) as (th & W & V & rel & Hth & HW & HV & EW & EV & E & Hsd).
  assert (Hk : (k < length bins - 1)%nat) by (apply nth_lt in Hhi; lia). destruct (Hc k Hk) as (r & Er & Hcell). rewrite E in Er. injection Er as <-.
  exists th, W, V, rel. split; auto. split; auto. split; auto.
  split; [apply (Hcell "relative_sensitivity"%string); unfold core_columns; cbn [In]; tauto|].
  split; [rewrite <- EW; apply (Hcell "n_signal_weighted"%string); unfold core_columns; cbn [In]; tauto|].
  split; [rewrite <- EV; apply (Hcell "n_background_weighted"%string); unfold core_columns; cbn [In]; tauto|]. auto.
Qed.
End Pipeline.
