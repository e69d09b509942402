(** * PipelineProofs2: the optimised sensitivity in terms of the events *)
From Coq Require Import String Reals List Bool ZArith Lia Lra.
From Verif Require Import Num Numpy Table Binning Utils Statistics SpecStatistics SpecBinning BinningProofs HistProofs BinningProofs2 Percentile Cuts SpecCuts
  CutsProofs CutsProofs2 SpecSensitivity Sensitivity SensitivityProofs SensitivityProofs2 SensitivityProofs3 SensitivityProofs4 SensitivityProofs5
  CutOptimization SpecCutOptimization
  CutOptimizationProofs CutOptimizationProofs2 CutOptimizationProofs3 CutOptimizationProofs4 CutOptimizationProofs5 CutOptimizationProofs6 SpecPipeline PipelineProofs.
Import ListNotations.
Open Scope R_scope.

Lemma select_weight {A} (w : A -> R) (P T : A -> Prop) (l : list A) : forall mask r, length mask = length l ->
  (forall i a, nth_error l i = Some a -> (P a /\ nth_error mask i = Some true) <-> T a) ->
  weight_of w P (select mask l) r -> weight_of w T l r.
Proof.
  induction l as [|a l IH]; intros [|b mask] r L H W; try discriminate.
  - unfold select in W. cbn in W. inversion W. constructor.
  - rewrite select_cons in W. assert (H0 := H 0%nat a eq_refl). cbn [nth_error] in H0.
    assert (HT : forall i x, nth_error l i = Some x -> (P x /\ nth_error mask i = Some true) <-> T x) by (intros i x Hx; apply (H (S i) x Hx)).
    cbn in L. injection L as L. destruct b; cbn [app] in W.
    + inversion W; subst; [apply wo_yes|apply wo_no]; eauto.
      * apply H0; auto. * rewrite <- H0. tauto.
    + apply wo_no; eauto. rewrite <- H0. intros [_ F]. discriminate.
Qed.
Lemma and_nth (a b : list bool) i : nth_error (zipwith andb a b) i = Some true <-> nth_error a i = Some true /\ nth_error b i = Some true.
Proof.
  revert b i. induction a as [|x a IH]; intros [|y b] [|i]; cbn; try (split; [discriminate|intros [? ?]; discriminate]).
  - destruct x, y; cbn; intuition congruence. - apply IH.
Qed.
(** what a mask of the binned cut says about an event in histogram bin k *)
Lemma mask_true bins (f : opt_event -> num) (evs : list opt_event) cuts op m k c : nondecreasing bins -> (2 <= length bins)%nat ->
  length cuts = (length bins - 1)%nat ->
  evaluate_binned_cut true (map f evs) (raw (map o_energy evs)) (but_last bins) (tl bins) None cuts op = Ok m ->
  nth_error cuts k = Some c -> forall i o, nth_error evs i = Some o ->
  (in_hist_bin bins k (o_energy o) /\ nth_error m i = Some true) <-> (in_bin bins k (o_energy o) /\ op (f o) c = true).
Proof.
  intros Hnd Hlen Lc E Hc i o Ho.
  assert (G : in_hist_bin bins k (o_energy o) -> (in_bin bins k (o_energy o) -> nth_error m i = Some (op (f o) c)) /\ (last_edge bins (o_energy o) -> nth_error m i = Some false)).
  { intros Hb. eapply (mask_spec bins (map f evs) (map o_energy evs) cuts op m); eauto; try lia.
    - rewrite !map_length; auto. - rewrite nth_error_map, Ho; auto. - rewrite nth_error_map, Ho; auto. }
  split.
  - intros [Hb Hm]. destruct (G Hb) as [G1 G2]. destruct Hb as [Hb|[_ Hb]].
    + split; auto. rewrite (G1 Hb) in Hm. congruence.
    + rewrite (G2 Hb) in Hm. discriminate.
  - intros [Hb Hop]. split; [left; auto|]. destruct (G (or_introl Hb)) as [G1 _]. rewrite (G1 Hb), Hop. auto.
Qed.
Lemma table_mask (f : opt_event -> num) (evs : list opt_event) low high cuts op m : low <> [] -> contiguous low high -> edges_ascend low high ->
  length cuts = length low ->
  evaluate_binned_cut true (map f evs) (raw (map o_energy evs)) low high None cuts op = Ok m ->
  forall i o, nth_error evs i = Some o -> (nth_error m i = Some true <-> passes_table low high cuts op (o_energy o) (f o)).
Proof.
  intros Hne Hc Ha Lc E i o Ho. destruct (c14 (map f evs) (map o_energy evs) low high cuts op) as (out & Eo & _ & H); auto. { rewrite !map_length; auto. }
  rewrite E in Eo. injection Eo as <-. destruct (H i (f o) (o_energy o)) as [H1 H2]. { rewrite nth_error_map, Ho; auto. } { rewrite nth_error_map, Ho; auto. }
  split.
  - intros Hm. destruct (Classical_Prop.classic (exists j, in_table_bin low high j (o_energy o))) as [[j Hj]|Hn].
    + pose proof Hj as (a & b & Hlo & Hhi & A & B). destruct (nth_error_ex cuts j) as [c Hcj]. { apply nth_lt in Hlo. lia. }
      exists j, a, b, c. repeat (split; [solve [auto]|]). rewrite (H1 j c Hj Hcj) in Hm. congruence.
    + rewrite H2 in Hm; [discriminate|]. intros j Hj. apply Hn. eauto.
  - intros (j & a & b & c & Hlo & Hhi & Hcj & A & B & Hop). rewrite (H1 j c); auto; [rewrite Hop; auto|]. exists a, b. auto.
Qed.

Section Opt.
Variables (br : (R -> num) -> R -> R -> res R) (sw sp bw bp : bool) (bins : list num) (alpha mn mx s m e : R) (signal background : list opt_event).
Hypotheses (Hbs : brentq_sound br) (Hbc : brentq_converges br) (Hbg : brentq_checks_signs br)
  (Hnd : nondecreasing bins) (Hlen : (2 <= length bins)%nat)
  (Hfin : forall k lo hi, nth_error bins k = Some lo -> nth_error bins (S k) = Some hi -> exists r, lo = Fin r \/ hi = Fin r)
  (Hsl : sp = true -> forall o, In o signal -> ev_p (o_ev o) <> "weighted"%string) (Hbl : clean_labels bp background)
  (Hws : forall o, In o signal -> 0 <= ev_w (o_ev o)) (Hwb : forall o, In o background -> 0 <= ev_w (o_ev o))
  (Ha : 0 < alpha) (Hmn : 0 <= mn) (Hmx : mn < mx) (Hpi : mx <= PI) (Hs : 0 < s).

(** one bin of the table of a selection, given the interpolated theta cut *)
Lemma selection_bin M Bm thc thcut t k th :
  selected_sensitivity br li_ma1 li_ma_array sw sp bw bp bins (Fin alpha) (Fin mn) (Fin mx) (Fin s) (Fin m) (Fin e)
    (select M signal) (select Bm background) thc thcut = Ok t ->
  (k < length bins - 1)%nat -> np_interp1 (center bins k) thc thcut = Fin th ->
  exists W V rel,
    weight_of (fun o => weight_in sw (o_ev o)) (fun o => in_hist_bin bins k (o_energy o)) (select M signal) W /\
    weight_of (fun o => weight_in bw (o_ev o)) (fun o => in_annulus mn mx (o_offset o) /\ in_hist_bin bins k (o_energy o)) (select Bm background) V /\
    cell t "relative_sensitivity" k rel /\
    cell t "n_signal_weighted" k (nmul (Fin W) rel) /\
    cell t "n_background_weighted" k (Fin (V * ring_ratio th mn mx / alpha)) /\
    smallest_detectable W (V * ring_ratio th mn mx / alpha) alpha s m e rel.
Proof.
  intros E Hk Hth.
  apply (sens_inv br li_ma1 li_ma_array sw sp bw bp bins (Fin alpha) (Fin mn) (Fin mx) (Fin s) (Fin m) (Fin e) Hnd Hlen Hfin) in E.
  2:{ intros; apply li_ma_array_elementwise; auto. }
  2:{ intros Hp o Ho. apply Hsl; auto. eapply in_select; eauto. }
  2:{ intros Hp o Ho. apply Hbl; auto. eapply in_select; eauto. }
  destruct E as (_ & _ & _ & Hc). destruct (Hc k Hk) as (rel & Er & Hcell).
  destruct (wgt_weight bins Hnd Hlen sw k (map o_ev (select M signal)) Hk) as (W & EW & HW).
  destruct (wgt_weight bins Hnd Hlen bw k (ring (Fin mn) (Fin mx) (select Bm background)) Hk) as (V & EV & HV).
  apply weight_of_inv in HW. apply ring_weight in HV.
  assert (Esc : scaled bins (Fin alpha) (Fin mn) (Fin mx) thc thcut k (Fin V) = Fin (V * ring_ratio th mn mx / alpha)).
  { unfold scaled, size_ratio. rewrite Hth. pose proof (cos_lt _ _ Hmn Hmx Hpi). pose proof PI_RGT_0.
    unfold ncone, ncos. cbn [nsub nneg nadd nmul].
    assert (HD : 2 * PI * (1 + - cos mx) + - (2 * PI * (1 + - cos mn)) = 2 * PI * (cos mn - cos mx)) by ring.
    assert (0 < 2 * PI * (cos mn - cos mx)) by (apply Rmult_lt_0_compat; lra).
    rewrite ndiv_fin by lra. cbn [nmul]. rewrite ndiv_fin by lra. f_equal. unfold ring_ratio. rewrite HD. field. lra. }
  destruct (bin_value br alpha s m e Hbs Hbc Hbg Ha Hs W V (ring_ratio th mn mx)) as (rel' & Er' & Hsd).
  { eapply weight_of_nonneg; [|exact HW]. apply nonneg_in. intros o Ho. apply Hws. eapply in_select; eauto. }
  { eapply weight_of_nonneg; [|exact HV]. apply nonneg_in. intros o Ho. apply Hwb. eapply in_select; eauto. }
  { apply ring_ratio_nonneg; auto. }
  unfold rel1 in Er. rewrite EW, EV, Esc in Er. rewrite Er in Er'. injection Er' as <-.
  exists W, V, rel. split; auto. split; auto.
  split; [apply (Hcell "relative_sensitivity"%string); unfold core_columns; cbn [In]; tauto|].
  split; [rewrite <- EW; apply (Hcell "n_signal_weighted"%string); unfold core_columns; cbn [In]; tauto|].
  split; [rewrite <- Esc, <- EV; apply (Hcell "n_background_weighted"%string); unfold core_columns; cbn [In]; tauto|]. auto.
Qed.

(** the value of the optimised row: what the selection gives *)
Lemma same_cells best t k W V th rel : (forall name, In name core_columns -> exists v, cell best name k v /\ cell t name k v) ->
  cell t "relative_sensitivity" k rel -> cell t "n_signal_weighted" k (nmul (Fin W) rel) ->
  cell t "n_background_weighted" k (Fin (V * ring_ratio th mn mx / alpha)) ->
  cell best "relative_sensitivity" k rel /\ cell best "n_signal_weighted" k (nmul (Fin W) rel) /\
  cell best "n_background_weighted" k (Fin (V * ring_ratio th mn mx / alpha)).
Proof.
  intros H A B C. assert (G : forall name v, In name core_columns -> cell t name k v -> cell best name k v).
  { intros name v Hn Hv. destruct (H name Hn) as (v' & H1 & H2). destruct Hv as (c & Hc & He). destruct H2 as (c' & Hc' & He').
    rewrite Hc in Hc'. injection Hc' as <-. rewrite (entry_fun _ _ _ _ He He'). auto. }
  split; [|split]; apply G; auto; unfold core_columns; cbn [In]; tauto.
Qed.

Lemma optimised_gh op effs thl thh centers cuts best c :
  increasing centers -> length centers = length cuts -> thl <> [] -> contiguous thl thh -> edges_ascend thl thh -> length cuts = length thl ->
  optimize_gh_cut br li_ma1 li_ma_array sw sp bw bp signal background bins (Fin alpha) (Fin mn) (Fin mx) (Fin s) (Fin m) (Fin e)
    op effs thl thh (map Fin centers) (map Fin cuts) = Ok (best, c) ->
  forall k lo hi gcut, nth_error bins k = Some lo -> nth_error bins (S k) = Some hi -> nth_error (oc_cut c) k = Some gcut ->
  exists th W V rel, cut_for_bin centers cuts lo hi th /\
    weight_of (fun o => weight_in sw (o_ev o)) (fun o => in_bin bins k (o_energy o) /\ op (o_gh o) gcut = true /\
       passes_table thl thh (map Fin cuts) nle (o_energy o) (o_theta o)) signal W /\
    weight_of (fun o => weight_in bw (o_ev o)) (fun o => in_annulus mn mx (o_offset o) /\ in_bin bins k (o_energy o) /\ op (o_gh o) gcut = true) background V /\
    cell best "relative_sensitivity" k rel /\
    cell best "n_signal_weighted" k (nmul (Fin W) rel) /\
    cell best "n_background_weighted" k (Fin (V * ring_ratio th mn mx / alpha)) /\
    smallest_detectable W (V * ring_ratio th mn mx / alpha) alpha s m e rel.
Proof.
  intros Hinc Hcl Hthl Hcon Hasc Lthl E k lo hi gcut Hlo Hhi Hg.
  assert (Hk : (k < length bins - 1)%nat) by (apply nth_lt in Hhi; lia).
  destruct (c27 _ _ _ _ _ _ _ _ _ _ _ _ _ _ _ _ _ _ _ _ _ _ _ _ E) as (_ & _ & _ & _ & _ & _ & _ & _ & _ & _ & Lcut & _).
  apply c29_gh in E; auto. 2:{ intros; apply li_ma_array_elementwise; auto. }
  destruct E as (t & (m_gh & m_th & b_gh & E1 & E2 & E3 & Hsel) & Hcells).
  assert (L1 := binned_length _ _ _ _ _ _ _ _ _ E1). assert (L2 := binned_length _ _ _ _ _ _ _ _ _ E2). assert (L3 := binned_length _ _ _ _ _ _ _ _ _ E3).
  rewrite map_length in L1, L2, L3.
  apply selection_select in Hsel; [|rewrite zipwith_length; lia|auto].
  assert (Hcne : centers <> []). { intros ->. destruct thl; [congruence|]. cbn in *. lia. }
  assert (Hth : exists th, cut_for_bin centers cuts lo hi th /\ np_interp1 (center bins k) (map Fin centers) (map Fin cuts) = Fin th).
  { pose proof (center_at bins k Hk) as Ec. rewrite (center_nth bins k lo hi Hlo Hhi) in Ec.
    assert (Ec' : center bins k = nmul (Fin (1/2)) (nadd lo hi)) by congruence. rewrite Ec'.
    pose proof (proj2 Hnd k lo hi Hlo Hhi) as Hle. destruct (Hfin k lo hi Hlo Hhi) as [r Hr].
    assert (Hy : exists y, nth_error cuts 0 = Some y) by (apply nth_error_ex; destruct centers; [congruence|simpl in Hcl; lia]).
    assert (Hz : exists y, nth_error cuts (length cuts - 1) = Some y) by (apply nth_error_ex; destruct centers; [congruence|simpl in Hcl; lia]).
    destruct lo as [a| | |], hi as [b| | |]; try discriminate Hle; try (destruct Hr; discriminate).
    - rewrite center_num. destruct (np_interp1_spec centers cuts ((a + b) / 2) Hinc Hcl Hcne) as (y & Ey & Iy). exists y. split; [constructor|]; auto.
    - rewrite center_inf. destruct Hz as [y Ey]. exists y. split; [constructor; auto|]. apply np_interp1_pinf; auto.
    - rewrite center_ninf. destruct Hy as [y Ey]. exists y. split; [constructor; auto|]. apply np_interp1_ninf; auto. }
  destruct Hth as (th & Hth & Eth).
  destruct (selection_bin _ _ _ _ _ k th Hsel Hk Eth) as (W & V & rel & HW & HV & C1 & C2 & C3 & Hsd).
  destruct (same_cells best t k W V th rel) as (D1 & D2 & D3); auto.
  exists th, W, V, rel. split; auto. split; [|split; [|auto]].
  - revert HW. apply select_weight; [rewrite zipwith_length; lia|]. intros i o Ho. rewrite and_nth.
    pose proof (mask_true bins o_gh signal (oc_cut c) op m_gh k gcut Hnd Hlen Lcut E1 Hg i o Ho) as G1.
    pose proof (table_mask o_theta signal thl thh (map Fin cuts) nle m_th Hthl Hcon Hasc ltac:(rewrite map_length; auto) E2 i o Ho) as G2. tauto.
  - revert HV. apply select_weight; [lia|]. intros i o Ho.
    pose proof (mask_true bins o_gh background (oc_cut c) op b_gh k gcut Hnd Hlen Lcut E3 Hg i o Ho) as G1. tauto.
Qed.

Lemma optimised_cuts (Hris : rising bins) mults gh_eff theta_eff tmin tmax best mult_out tc gc :
  optimize_cuts br li_ma1 li_ma_array sw sp bw bp signal background bins (Fin alpha) (Fin mn) (Fin mx) (Fin s) (Fin m) (Fin e)
    mults gh_eff theta_eff tmin tmax = Ok (best, mult_out, tc, gc) ->
  forall k gcut th mcut, nth_error (oc_cut gc) k = Some gcut -> nth_error (oc_cut tc) k = Some (Fin th) -> nth_error mult_out k = Some mcut ->
  exists W V rel,
    weight_of (fun o => weight_in sw (o_ev o)) (fun o => in_bin bins k (o_energy o) /\ nle gcut (o_gh o) = true /\
       nle (o_theta o) (Fin th) = true /\ nle mcut (o_mult o) = true) signal W /\
    weight_of (fun o => weight_in bw (o_ev o)) (fun o => in_annulus mn mx (o_offset o) /\ in_bin bins k (o_energy o) /\
       nle gcut (o_gh o) = true /\ nle mcut (o_mult o) = true) background V /\
    cell best "relative_sensitivity" k rel /\
    cell best "n_signal_weighted" k (nmul (Fin W) rel) /\
    cell best "n_background_weighted" k (Fin (V * ring_ratio th mn mx / alpha)) /\
    smallest_detectable W (V * ring_ratio th mn mx / alpha) alpha s m e rel.
Proof.
  intros E k gcut th mcut Hg Ht Hm.
  destruct (c28 _ _ _ _ _ _ _ _ _ _ _ _ _ _ _ _ Hlen _ _ _ _ _ _ _ _ _ E)
    as (_ & _ & _ & _ & _ & _ & _ & _ & _ & _ & _ & _ & _ & _ & _ & _ & _ & Lmo & Ltc & Lgc & _).
  apply c29_cuts in E; auto. 2:{ intros; apply li_ma_array_elementwise; auto. }
  destruct E as (m_mult & b_mult & t & E4 & E5 & (m_gh & m_th & b_gh & E1 & E2 & E3 & Hsel) & Hcells).
  assert (L1 := binned_length _ _ _ _ _ _ _ _ _ E1). assert (L2 := binned_length _ _ _ _ _ _ _ _ _ E2). assert (L3 := binned_length _ _ _ _ _ _ _ _ _ E3).
  assert (L4 := binned_length _ _ _ _ _ _ _ _ _ E4). assert (L5 := binned_length _ _ _ _ _ _ _ _ _ E5).
  rewrite map_length in L1, L2, L3, L4, L5.
  assert (Hk : (k < length bins - 1)%nat) by (apply nth_lt in Hg; lia).
  apply selection_select in Hsel; [|rewrite !zipwith_length; lia|rewrite zipwith_length; lia].
  assert (Eth : np_interp1 (center bins k) (bin_center bins) (oc_cut tc) = Fin th).
  { apply (interp1_knot (bin_center bins) (oc_cut tc) k); auto.
    - intros x Hx. apply (edges_not_nan bins Hnd Hlen Hfin (bin_center bins)); auto.
    - apply rising_centers; auto.
    - rewrite center_len. lia.
    - apply center_at; auto. }
  destruct (selection_bin _ _ _ _ _ k th Hsel Hk Eth) as (W & V & rel & HW & HV & C1 & C2 & C3 & Hsd).
  destruct (same_cells best t k W V th rel) as (D1 & D2 & D3); auto.
  exists W, V, rel. split; [|split; [|auto]].
  - revert HW. apply select_weight; [rewrite !zipwith_length; lia|]. intros i o Ho. rewrite !and_nth.
    pose proof (mask_true bins o_gh signal _ nge m_gh k gcut Hnd Hlen Lgc E1 Hg i o Ho) as G1.
    pose proof (mask_true bins o_theta signal _ nle m_th k (Fin th) Hnd Hlen Ltc E2 Ht i o Ho) as G2.
    pose proof (mask_true bins o_mult signal _ nge m_mult k mcut Hnd Hlen Lmo E4 Hm i o Ho) as G3. unfold nge in *. tauto.
  - revert HV. apply select_weight; [rewrite zipwith_length; lia|]. intros i o Ho. rewrite and_nth.
    pose proof (mask_true bins o_gh background _ nge b_gh k gcut Hnd Hlen Lgc E3 Hg i o Ho) as G1.
    pose proof (mask_true bins o_mult background _ nge b_mult k mcut Hnd Hlen Lmo E5 Hm i o Ho) as G3. unfold nge in *. tauto.
Qed.
End Opt.

(** ** the three public calls on plain event lists *)
Definition of_signal (v : event) : opt_event := mkOpt v NaN NaN NaN NaN.
Definition of_background (b : bg_event) : opt_event := mkOpt (bg_ev b) NaN NaN (bg_offset b) NaN.
Lemma of_signal_back l : map o_ev (map of_signal l) = l.
Proof. rewrite map_map. cbn. apply map_id. Qed.
Lemma of_background_back l : map (fun o => mkBg (o_ev o) (o_offset o)) (map of_background l) = l.
Proof. rewrite map_map. cbn. rewrite <- (map_id l) at 2. apply map_ext. intros []; auto. Qed.

Lemma pipeline br sw sp bw bp signal background bins centers cuts alpha mn mx s m e :
  brentq_sound br -> brentq_converges br -> brentq_checks_signs br ->
  nondecreasing bins -> (2 <= length bins)%nat ->
  (forall k lo hi, nth_error bins k = Some lo -> nth_error bins (S k) = Some hi -> exists r, lo = Fin r \/ hi = Fin r) ->
  increasing centers -> length centers = length cuts -> centers <> [] ->
  0 < alpha -> 0 <= mn -> mn < mx -> mx <= PI -> 0 < s ->
  (sp = true -> forall v, In v signal -> ev_p v <> "weighted"%string) ->
  (bp = true -> forall b, In b background ->
     ~ In (ev_p (bg_ev b)) ["weighted"; "signal"; "signal_weighted"; "background"; "background_weighted"]%string) ->
  (forall v, In v signal -> 0 <= ev_w v) -> (forall b, In b background -> 0 <= ev_w (bg_ev b)) ->
  exists signal_hist background_hist t,
    create_histogram_table (mkEvents signal sw sp) bins "reco_energy" = Ok signal_hist /\
    estimate_background background bw bp bins (map Fin centers) (map Fin cuts) (Fin alpha) (Fin mn) (Fin mx) = Ok background_hist /\
    calculate_sensitivity br li_ma1 li_ma_array signal_hist background_hist (Fin alpha) (Fin s) (Fin m) (Fin e) = Ok t /\
    forall k lo hi, nth_error bins k = Some lo -> nth_error bins (S k) = Some hi ->
    exists th W V rel, cut_for_bin centers cuts lo hi th /\
      weight_of (weight_in sw) (fun v => in_hist_bin bins k (ev_x v)) signal W /\
      weight_of (fun b => weight_in bw (bg_ev b)) (fun b => in_annulus mn mx (bg_offset b) /\ in_hist_bin bins k (ev_x (bg_ev b))) background V /\
      cell t "relative_sensitivity" k rel /\
      cell t "n_signal_weighted" k (nmul (Fin W) rel) /\
      cell t "n_background_weighted" k (Fin (V * ring_ratio th mn mx / alpha)) /\
      smallest_detectable W (V * ring_ratio th mn mx / alpha) alpha s m e rel.
Proof.
  intros Hbs Hbc Hbg Hnd Hlen Hfin Hinc Hcl Hcne Ha Hmn Hmx Hpi Hs Hsl Hbl Hws Hwb.
  destruct (pipeline_sel br sw sp bw bp bins centers cuts alpha mn mx s m e Hbs Hbc Hbg Hnd Hlen Hfin Hinc Hcl Hcne Ha Hmn Hmx Hpi Hs
    (map of_signal signal) (map of_background background)) as (t & Et & Hrow).
  - intros Hp o Ho. apply in_map_iff in Ho as (v & <- & Hv). cbn. auto.
  - intros Hp o Ho. apply in_map_iff in Ho as (v & <- & Hv). apply (Hbl Hp v Hv).
  - intros o Ho. apply in_map_iff in Ho as (v & <- & Hv). apply (Hws v Hv).
  - intros o Ho. apply in_map_iff in Ho as (v & <- & Hv). apply (Hwb v Hv).
  - unfold selected_sensitivity in Et. rewrite of_signal_back, of_background_back in Et.
    apply rbind_ok in Et as (sh & E1 & Et). apply rbind_ok in Et as (bh & E2 & Et).
    exists sh, bh, t. split; auto. split; auto. split; auto. intros k lo hi Hlo Hhi.
    destruct (Hrow k lo hi Hlo Hhi) as (th & W & V & rel & Hth & HW & HV & H). exists th, W, V, rel. split; auto. split; [|split; [|auto]].
    + apply weight_of_inv in HW. exact HW.
    + apply weight_of_inv in HV. exact HV.
Qed.
Lemma weight_unique (A : Type) (w : A -> R) (P : A -> Prop) l r r' : weight_of w P l r -> weight_of w P l r' -> r = r'.
Proof.
  intros H. revert r'. induction H; intros r' H'; inversion H'; subst; try contradiction; auto. f_equal; auto.
Qed.
Lemma bracketed_of_found br W B a s m e r : brentq_sound br -> brentq_converges br -> brentq_checks_signs br ->
  1 < B -> 0 < a -> 0 < s -> 0 < W ->
  relative_sensitivity1 br li_ma1 (Fin (W + a * B)) (Fin B) (Fin a) (Fin s) (Fin m) (Fin e) = Ok (Fin r) ->
  s <= lima (10 * (s * sqrt (a * B)) + a * B) B a.
Proof.
  intros H1 H2 H3 HB Ha Hs HW E.
  destruct (Rle_dec s (lima (10 * (s * sqrt (a * B)) + a * B) B a)) as [|Hn]; auto. exfalso.
  destruct (c24_exact br (W + a * B) B a s m e H1 H2 H3) as [_ F]; try lra. rewrite F in E; [discriminate|]. intros [[_ C]|[C _]]; lra.
Qed.
Lemma optimised_cuts_rising br sw sp bw bp bins alpha mn mx s m e signal background :
  brentq_sound br -> brentq_converges br -> brentq_checks_signs br ->
  rising bins -> (2 <= length bins)%nat ->
  (sp = true -> forall o, In o signal -> ev_p (o_ev o) <> "weighted"%string) -> clean_labels bp background ->
  (forall o, In o signal -> 0 <= ev_w (o_ev o)) -> (forall o, In o background -> 0 <= ev_w (o_ev o)) ->
  0 < alpha -> 0 <= mn -> mn < mx -> mx <= PI -> 0 < s ->
  forall mults gh_eff theta_eff tmin tmax best mult_out tc gc,
  optimize_cuts br li_ma1 li_ma_array sw sp bw bp signal background bins (Fin alpha) (Fin mn) (Fin mx) (Fin s) (Fin m) (Fin e)
    mults gh_eff theta_eff tmin tmax = Ok (best, mult_out, tc, gc) ->
  forall k gcut th mcut, nth_error (oc_cut gc) k = Some gcut -> nth_error (oc_cut tc) k = Some (Fin th) -> nth_error mult_out k = Some mcut ->
  exists W V rel,
    weight_of (fun o => weight_in sw (o_ev o)) (fun o => in_bin bins k (o_energy o) /\ nle gcut (o_gh o) = true /\
       nle (o_theta o) (Fin th) = true /\ nle mcut (o_mult o) = true) signal W /\
    weight_of (fun o => weight_in bw (o_ev o)) (fun o => in_annulus mn mx (o_offset o) /\ in_bin bins k (o_energy o) /\
       nle gcut (o_gh o) = true /\ nle mcut (o_mult o) = true) background V /\
    cell best "relative_sensitivity" k rel /\
    cell best "n_signal_weighted" k (nmul (Fin W) rel) /\
    cell best "n_background_weighted" k (Fin (V * ring_ratio th mn mx / alpha)) /\
    smallest_detectable W (V * ring_ratio th mn mx / alpha) alpha s m e rel.
Proof.
  intros H1 H2 H3 Hr. intros. eapply optimised_cuts; eauto.
  - apply rising_nondecreasing; auto.
  - apply Hr.
Qed.

(** ** the theta cuts of optimize_cuts are finite and inside the configured range *)
Definition between (a b : R) (x : num) : Prop := exists r, x = Fin r /\ a <= r <= b.
Lemma rmap_all {A B} (f : A -> res B) (P : B -> Prop) l bs : rmap f l = Ok bs -> (forall a b, f a = Ok b -> P b) -> forall b, In b bs -> P b.
Proof.
  intros H Hf b Hb. apply rmap_nth in H as [L H]. apply In_nth_error in Hb as [i Hi].
  destruct (nth_error_ex l i) as [a Ha]. { apply nth_lt in Hi. lia. }
  destruct (H i a Ha) as (b' & Hb' & E). rewrite Hi in Hb'. injection Hb' as <-. eauto.
Qed.
Lemma clip_between a b r : a <= b -> between a b (clip (Some (Fin a)) (Some (Fin b)) (Fin r)).
Proof.
  intros H. unfold clip, between, nmax, nmin. cbn [is_nan orb nle].
  destruct (Rleb_spec a r); cbn [is_nan orb nle].
  - destruct (Rleb_spec r b); eexists; (split; [reflexivity|lra]).
  - destruct (Rleb_spec a b); eexists; (split; [reflexivity|lra]).
Qed.
Lemma finite_list (l : list num) : (forall x, In x l -> exists r, x = Fin r) -> exists rs, l = map Fin rs.
Proof.
  induction l as [|x l IH]; intros H. { exists []; auto. }
  destruct IH as [rs ->]; [intros; apply H; right; auto|]. destruct (H x (or_introl eq_refl)) as [r ->]. exists (r :: rs). auto.
Qed.
Lemma group_between a b ps g row : a <= b -> (forall x, In x g -> exists r, x = Fin r) ->
  group_cut false (Fin b) (Some (Fin a)) (Some (Fin b)) 10 ps g = Ok row -> forall x, In x row -> between a b x.
Proof.
  intros Hab Hg. unfold group_cut. destruct (Z.ltb_spec (Z.of_nat (length g)) 10).
  - intros H'. apply (rmap_all _ _ _ _ H'). intros p x E. cbn in E. injection E as <-. exists b. split; auto; lra.
  - intros H'. apply (rmap_all _ _ _ _ H'). intros p x E. apply rbind_ok in E as (v & Ev & E). cbn in E. injection E as <-.
    destruct (finite_list g Hg) as [rs ->]. destruct rs as [|r0 rs]. { cbn in H. lia. }
    assert (Hp : 0 <= p <= 100). { destruct (Classical_Prop.classic (0 <= p <= 100)); auto. exfalso.
      unfold nanpercentile in Ev. destruct (Rltb_spec p 0); [discriminate|]. destruct (Rltb_spec 100 p); [discriminate|]. lra. }
    destruct (PercentileProofs.nanpercentile_spec (map Fin (r0 :: rs)) (r0 :: rs) p (PercentileProofs.finite_part_map _) Hp) as (raw & E & (r & -> & _)).
    rewrite Ev in E. injection E as ->. apply clip_between; auto.
Qed.
Lemma loop_between a b ps values idx valid keys : a <= b -> (forall x, In x values -> exists r, x = Fin r) -> forall acc res,
  cut_loop false (Fin b) (Some (Fin a)) (Some (Fin b)) 10 ps values idx valid keys acc = Ok res ->
  (forall row x, In row (snd acc) -> In x row -> between a b x) -> forall row x, In row (snd res) -> In x row -> between a b x.
Proof.
  intros Hab Hv. induction keys as [|k keys IH]; intros acc res H Hacc; cbn [cut_loop] in H; [injection H as <-; auto|].
  apply rbind_ok in H as (c & Hc & H). apply (IH _ _ H). cbn [snd]. intros row x Hr Hx. apply in_list_set in Hr as [->|Hr]; eauto.
  apply (group_between a b ps (bin_group values idx valid k) c Hab); auto. intros y Hy. unfold bin_group in Hy. apply in_map_iff in Hy as ([z w] & <- & Hy). apply filter_In in Hy as [Hy _].
  apply in_combine_l in Hy. eauto.
Qed.
Lemma theta_rows_between values xs bins ps a b t rows : a <= b -> (forall x, In x values -> exists r, x = Fin r) ->
  calculate_percentile_cut false (raw values) (raw xs) (raw bins) (plain (Fin b)) (PList ps) (Some (plain (Fin a))) (Some (plain (Fin b))) None 10 = Ok t ->
  ct_cut t = Cut2 rows -> forall row x, In row rows -> In x row -> between a b x.
Proof.
  intros Hab Hv. unfold calculate_percentile_cut, raw, plain. cbn [a_unit a_val s_val s_unit rbind fst snd bound_to]. intros H.
  apply rbind_ok in H as (iv & _ & H). destruct (negb _); [discriminate|]. destruct (negb _); [discriminate|].
  cbn [cast rbind] in H. apply rbind_ok in H as (nc & Hnc & H). cbn [smooth rbind] in H. injection H as <-. cbn [ct_cut]. intros E. injection E as <-.
  apply (loop_between a b _ _ _ _ _ Hab Hv _ _ Hnc). cbn [snd]. intros row x Hr Hx. apply repeat_spec in Hr. subst row. apply repeat_spec in Hx. subst x. exists b. split; auto; lra.
Qed.
Lemma theta_cuts_between br sf sa sw sp bw bp signal background bins alpha mn mx ms mse mex mults gh_eff theta_eff tmin tmax best mult_out tc gc :
  (2 <= length bins)%nat -> tmin <= tmax -> (forall o, In o signal -> exists r, o_theta o = Fin r) ->
  optimize_cuts br sf sa sw sp bw bp signal background bins alpha mn mx ms mse mex mults gh_eff theta_eff (Fin tmin) (Fin tmax) = Ok (best, mult_out, tc, gc) ->
  length (oc_cut tc) = (length bins - 1)%nat /\
  forall k x, nth_error (oc_cut tc) k = Some x -> exists th, x = Fin th /\ tmin <= th <= tmax.
Proof.
  intros Hlen Hab Hfin E.
  destruct (c28 _ _ _ _ _ _ _ _ _ _ _ _ _ _ _ _ Hlen _ _ _ _ _ _ _ _ _ E)
    as (fill & ghs & ths & combos & sens & _ & _ & _ & _ & Hgrids & _ & _ & _ & _ & _ & _ & _ & _ & Ltc & _ & Hbin).
  split; auto. intros k x Hx.
  assert (Hk : (k < length bins - 1)%nat) by (apply nth_lt in Hx; lia).
  destruct (Hbin k Hk) as (i & mi & gi & ti & vals & s & m & rg & rt & grow & trow & geff & teff & gx & tx & _ & _ & _ & _ & _ & _ & Hm & _ & _ & _ & _ & _ & Hrt & Htr & Htx & Htc & _).
  rewrite Hx in Htc. injection Htc as <-. destruct (Hgrids mi m Hm) as (ght & tht & rg' & rt' & _ & Hrt' & sel & Hsel & _ & _ & P3 & P4).
  rewrite Hrt in Hrt'. injection Hrt' as <-.
  refine (theta_rows_between _ _ _ _ _ _ _ _ Hab _ P3 P4 trow x (nth_error_In _ _ Htr) (nth_error_In _ _ Htx)).
  intros y Hy. apply in_map_iff in Hy as (o & <- & Ho). apply Hfin. apply kept_select in Hsel. subst sel. eapply in_select; eauto.
Qed.
