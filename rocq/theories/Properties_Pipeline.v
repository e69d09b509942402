(** * Properties_Pipeline: C78 *)
From Coq Require Import String Reals List Bool ZArith Lia Lra.
From Verif Require Import Num Numpy Table Binning SpecBinning BinningWitness Utils Statistics SpecStatistics Percentile Cuts SpecCuts
  Sensitivity SpecSensitivity SensitivityProofs SensitivityProofs2 SensitivityProofs3 SensitivityProofs5
  CutOptimization SpecCutOptimization SpecPipeline PipelineProofs PipelineProofs2 Properties_CutOptimization.
Import ListNotations.
Open Scope R_scope.

(** ** C78: from the event lists to the sensitivity *)
(** the three public calls, applied to lists of events: every row of the result is the
    smallest detectable flux for the events of that bin *)
Theorem C78_events_to_sensitivity : forall br sw sp bw bp signal background bins centers cuts alpha mn mx s m e,
  brentq_sound br -> brentq_converges br -> brentq_checks_signs br ->
  nondecreasing bins -> (2 <= List.length bins)%nat ->
  (forall k lo hi, nth_error bins k = Some lo -> nth_error bins (S k) = Some hi -> exists r, lo = Fin r \/ hi = Fin r) ->
  increasing centers -> List.length centers = List.length cuts -> centers <> [] ->
  0 < alpha -> 0 <= mn -> mn < mx -> mx <= PI -> 0 < s ->
  (sp = true -> forall v, In v signal -> ev_p v <> "weighted"%string) ->
  (bp = true -> forall b, In b background ->
     ~ In (ev_p (bg_ev b)) ["weighted"; "signal"; "signal_weighted"; "background"; "background_weighted"]%string) ->
  (forall v, In v signal -> 0 <= ev_w v) -> (forall b, In b background -> 0 <= ev_w (bg_ev b)) ->
  exists signal_hist background_hist t,
    create_histogram_table (mkEvents signal sw sp) bins "reco_energy" = Ok signal_hist /\
    estimate_background background bw bp bins (map Fin centers) (map Fin cuts) (Fin alpha) (Fin mn) (Fin mx) = Ok background_hist /\
    calculate_sensitivity br li_ma1 li_ma_array signal_hist background_hist (Fin alpha) (Fin s) (Fin m) (Fin e) = Ok t /\
    forall k lo hi, nth_error bins k = Some lo -> nth_error bins (S k) = Some hi ->
    exists th W V rel, cut_for_bin centers cuts lo hi th /\
      weight_of (weight_in sw) (fun v => in_hist_bin bins k (ev_x v)) signal W /\
      weight_of (fun b => weight_in bw (bg_ev b)) (fun b => in_annulus mn mx (bg_offset b) /\ in_hist_bin bins k (ev_x (bg_ev b))) background V /\
      cell t "relative_sensitivity" k rel /\
      cell t "n_signal_weighted" k (nmul (Fin W) rel) /\
      cell t "n_background_weighted" k (Fin (V * ring_ratio th mn mx / alpha)) /\
      smallest_detectable W (V * ring_ratio th mn mx / alpha) alpha s m e rel.
Proof. exact pipeline. Qed.
Print Assumptions C78_events_to_sensitivity.

(** the sensitivity reported by [optimize_gh_cut] is the smallest detectable flux for the
    events that pass the reported gamma/hadron cut and the given theta cuts *)
Theorem C78_optimised_gh_cut : forall br sw sp bw bp bins alpha mn mx s m e signal background,
  brentq_sound br -> brentq_converges br -> brentq_checks_signs br ->
  nondecreasing bins -> (2 <= List.length bins)%nat ->
  (forall k lo hi, nth_error bins k = Some lo -> nth_error bins (S k) = Some hi -> exists r, lo = Fin r \/ hi = Fin r) ->
  (sp = true -> forall o, In o signal -> ev_p (o_ev o) <> "weighted"%string) -> clean_labels bp background ->
  (forall o, In o signal -> 0 <= ev_w (o_ev o)) -> (forall o, In o background -> 0 <= ev_w (o_ev o)) ->
  0 < alpha -> 0 <= mn -> mn < mx -> mx <= PI -> 0 < s ->
  forall op effs thl thh centers cuts best c,
  increasing centers -> List.length centers = List.length cuts ->
  thl <> [] -> contiguous thl thh -> edges_ascend thl thh -> List.length cuts = List.length thl ->
  optimize_gh_cut br li_ma1 li_ma_array sw sp bw bp signal background bins (Fin alpha) (Fin mn) (Fin mx) (Fin s) (Fin m) (Fin e)
    op effs thl thh (map Fin centers) (map Fin cuts) = Ok (best, c) ->
  forall k lo hi gcut, nth_error bins k = Some lo -> nth_error bins (S k) = Some hi -> nth_error (oc_cut c) k = Some gcut ->
  exists th W V rel, cut_for_bin centers cuts lo hi th /\
    weight_of (fun o => weight_in sw (o_ev o)) (fun o => in_bin bins k (o_energy o) /\ op (o_gh o) gcut = true /\
       passes_table thl thh (map Fin cuts) nle (o_energy o) (o_theta o)) signal W /\
    weight_of (fun o => weight_in bw (o_ev o)) (fun o => in_annulus mn mx (o_offset o) /\ in_bin bins k (o_energy o) /\ op (o_gh o) gcut = true) background V /\
    cell best "relative_sensitivity" k rel /\
    cell best "n_signal_weighted" k (nmul (Fin W) rel) /\
    cell best "n_background_weighted" k (Fin (V * ring_ratio th mn mx / alpha)) /\
    smallest_detectable W (V * ring_ratio th mn mx / alpha) alpha s m e rel.
Proof. intros; eapply optimised_gh; eauto. Qed.
Print Assumptions C78_optimised_gh_cut.

(** the same for [optimize_cuts]: all three reported cuts of the bin, and the theta cut of
    the bin gives the size of the on region *)
Theorem C78_optimised_cuts : forall br sw sp bw bp bins alpha mn mx s m e signal background,
  brentq_sound br -> brentq_converges br -> brentq_checks_signs br ->
  rising bins -> (2 <= List.length bins)%nat ->
  (sp = true -> forall o, In o signal -> ev_p (o_ev o) <> "weighted"%string) -> clean_labels bp background ->
  (forall o, In o signal -> 0 <= ev_w (o_ev o)) -> (forall o, In o background -> 0 <= ev_w (o_ev o)) ->
  0 < alpha -> 0 <= mn -> mn < mx -> mx <= PI -> 0 < s ->
  forall mults gh_eff theta_eff tmin tmax best mult_out tc gc,
  optimize_cuts br li_ma1 li_ma_array sw sp bw bp signal background bins (Fin alpha) (Fin mn) (Fin mx) (Fin s) (Fin m) (Fin e)
    mults gh_eff theta_eff tmin tmax = Ok (best, mult_out, tc, gc) ->
  forall k gcut th mcut, nth_error (oc_cut gc) k = Some gcut -> nth_error (oc_cut tc) k = Some (Fin th) -> nth_error mult_out k = Some mcut ->
  exists W V rel,
    weight_of (fun o => weight_in sw (o_ev o)) (fun o => in_bin bins k (o_energy o) /\ nle gcut (o_gh o) = true /\
       nle (o_theta o) (Fin th) = true /\ nle mcut (o_mult o) = true) signal W /\
    weight_of (fun o => weight_in bw (o_ev o)) (fun o => in_annulus mn mx (o_offset o) /\ in_bin bins k (o_energy o) /\
       nle gcut (o_gh o) = true /\ nle mcut (o_mult o) = true) background V /\
    cell best "relative_sensitivity" k rel /\
    cell best "n_signal_weighted" k (nmul (Fin W) rel) /\
    cell best "n_background_weighted" k (Fin (V * ring_ratio th mn mx / alpha)) /\
    smallest_detectable W (V * ring_ratio th mn mx / alpha) alpha s m e rel.
Proof. exact optimised_cuts_rising. Qed.
Print Assumptions C78_optimised_cuts.

(** its premise on the theta cut holds whenever the reconstructed angles are finite *)
Theorem C78_theta_cuts_in_range : forall br sf sa sw sp bw bp signal background bins alpha mn mx ms mse mex mults gh_eff theta_eff tmin tmax best mult_out tc gc,
  (2 <= List.length bins)%nat -> tmin <= tmax -> (forall o, In o signal -> exists r, o_theta o = Fin r) ->
  optimize_cuts br sf sa sw sp bw bp signal background bins alpha mn mx ms mse mex mults gh_eff theta_eff (Fin tmin) (Fin tmax)
    = Ok (best, mult_out, tc, gc) ->
  List.length (oc_cut tc) = (List.length bins - 1)%nat /\
  forall k x, nth_error (oc_cut tc) k = Some x -> exists th, x = Fin th /\ tmin <= th <= tmax.
Proof. exact theta_cuts_between. Qed.
Print Assumptions C78_theta_cuts_in_range.

(** the values of a row determine each other: weights of a list are unique *)
Theorem C78_weights_unique : forall (A : Type) (w : A -> R) (P : A -> Prop) l r r', weight_of w P l r -> weight_of w P l r' -> r = r'.
Proof. exact weight_unique. Qed.
Print Assumptions C78_weights_unique.

(** ** examples: the premises are met, with a finite sensitivity *)
Ltac cmp := cbn; repeat match goal with |- context [Rleb ?a ?b] => destruct (Rleb_spec a b) | |- context [Rltb ?a ?b] => destruct (Rltb_spec a b) end; try reflexivity; try discriminate; lra.
Definition ex78_signal : list event := [mkEvent (Fin 2) 60 "gamma"; mkEvent (Fin 5) 40 "gamma"].
Definition ex78_background : list bg_event := [mkBg (mkEvent (Fin 3) 10 "proton") (Fin (1/100)); mkBg (mkEvent (Fin 4) 7 "proton") (Fin 1)].
Example C78_example : exists signal_hist background_hist t,
  create_histogram_table (mkEvents ex78_signal true true) [Fin 1; Fin 10] "reco_energy" = Ok signal_hist /\
  estimate_background ex78_background true true [Fin 1; Fin 10] [Fin 5] [Fin (1/10)] (Fin (1/5)) (Fin 0) (Fin (1/10)) = Ok background_hist /\
  calculate_sensitivity bisect_solver li_ma1 li_ma_array signal_hist background_hist (Fin (1/5)) (Fin 5) (Fin 10) (Fin (1/20)) = Ok t /\
  cell t "n_background_weighted" 0 (Fin 50) /\
  exists r, cell t "relative_sensitivity" 0 (Fin r) /\ 0 < r /\ 10 <= 100 * r.
Proof.
  destruct (C78_events_to_sensitivity bisect_solver true true true true ex78_signal ex78_background [Fin 1; Fin 10] [5] [1/10] (1/5) 0 (1/10) 5 10 (1/20))
    as (sh & bh & t & E1 & E2 & E3 & H); try apply bisect_sound; try apply bisect_converges; try apply bisect_signs; try (pose proof PI2_3_2; unfold PI2 in *; lra).
  - conc_nondec.
  - cbn; lia.
  - intros [|[|k]] lo hi Hlo Hhi; cbn in *; try discriminate; try (destruct k; discriminate). injection Hlo as <-. eauto.
  - intros [|[|k]] a b Ha Hb; cbn in *; try discriminate; destruct k; discriminate.
  - reflexivity.
  - discriminate.
  - intros _ v [<-|[<-|[]]]; cbn; discriminate.
  - intros _ v [<-|[<-|[]]]; cbn; intuition discriminate.
  - intros v [<-|[<-|[]]]; cbn; lra.
  - intros v [<-|[<-|[]]]; cbn; lra.
  - exists sh, bh, t. split; auto. split; auto. split; auto.
    destruct (H 0%nat (Fin 1) (Fin 10) eq_refl eq_refl) as (th & W & V & rel & Hth & HW & HV & C1 & C2 & C3 & Hsd).
    assert (th = 1/10).
    { inversion Hth; subst. match goal with I : interpolates _ _ _ _ |- _ => inversion I; subst end; cbn in *; try congruence; destruct i; discriminate. }
    subst th.
    assert (EW : W = 100).
    { eapply weight_unique; [exact HW|]. replace 100 with (60 + (40 + 0)) by lra.
      apply (wo_yes (weight_in true) _ (mkEvent (Fin 2) 60 "gamma")).
      - left; exists (Fin 1), (Fin 10); split; [reflexivity|split; [reflexivity|split; cmp]].
      - apply (wo_yes (weight_in true) _ (mkEvent (Fin 5) 40 "gamma")); [|apply wo_nil].
        left; exists (Fin 1), (Fin 10); split; [reflexivity|split; [reflexivity|split; cmp]]. }
    assert (EV : V = 10).
    { transitivity (10 + 0); [|lra]. eapply weight_unique; [exact HV|].
      apply (wo_yes (fun b => weight_in true (bg_ev b)) _ (mkBg (mkEvent (Fin 3) 10 "proton") (Fin (1/100)))).
      - split; [split; cmp|]. left; exists (Fin 1), (Fin 10); split; [reflexivity|split; [reflexivity|split; cmp]].
      - apply wo_no; [|constructor]. intros [[_ Ho] _]. revert Ho. cmp. }
    subst W V.
    assert (ER : 10 * ring_ratio (1/10) 0 (1/10) / (1/5) = 50).
    { unfold ring_ratio. assert (Hc : cos (1/10) < cos 0).
      { pose proof PI2_3_2; unfold PI2 in *; apply cos_decreasing_1; lra. } rewrite cos_0 in *.
      replace ((1 - cos (1/10)) / (1 - cos (1/10))) with 1 by (field; lra). lra. }
    rewrite ER in *. split; auto. destruct Hsd as [_ Hsd]. destruct Hsd as [Hf _]; [lra|].
    destruct Hf as (r & -> & Hr & Hm & _); eauto.
    left. split; [lra|].
    destruct (c24_default bisect_solver (100 + 1/5*50) 50 (1/5) 10 (1/20) bisect_sound bisect_converges) as (r & Hr & _); try lra.
    apply (bracketed_of_found bisect_solver 100 50 (1/5) 5 10 (1/20) r); auto using bisect_sound, bisect_converges, bisect_signs; lra.
Qed.
(** both optimisers return on the sample of C27 and C28, and the theorems above apply *)
Example C78_optimised_example : exists best c gcut W V rel,
  optimize_gh_cut bisect_solver li_ma1 li_ma_array true false true false ex_signal ex_background ex_bins
    (Fin (1/5)) (Fin 0) (Fin (1/10)) (Fin 5) (Fin 10) (Fin (1/20)) nge [1/2; 9/10] (but_last ex_bins) (tl ex_bins) [Fin 5; Fin 50] [Fin (1/10); Fin (1/10)] = Ok (best, c) /\
  nth_error (oc_cut c) 0 = Some gcut /\ cell best "relative_sensitivity" 0 rel /\
  smallest_detectable W (V * ring_ratio (1/10) 0 (1/10) / (1/5)) (1/5) 5 10 (1/20) rel.
Proof.
  destruct C27_example as (best & c & E).
  destruct (C27_best_efficiency _ _ _ _ _ _ _ _ _ _ _ _ _ _ _ _ _ _ _ _ _ _ _ _ E) as (_ & _ & _ & _ & _ & _ & _ & _ & _ & _ & L & _).
  destruct (nth_error (oc_cut c) 0) as [gcut|] eqn:Eg. 2:{ apply nth_error_None in Eg. cbn in L. lia. }
  destruct (C78_optimised_gh_cut bisect_solver true false true false ex_bins (1/5) 0 (1/10) 5 10 (1/20) ex_signal ex_background) with
    (op := nge) (effs := [1/2; 9/10]) (thl := but_last ex_bins) (thh := tl ex_bins) (centers := [5; 50]) (cuts := [1/10; 1/10]) (best := best) (c := c)
    (k := 0%nat) (lo := Fin 1) (hi := Fin 10) (gcut := gcut) as (th & W & V & rel & Hth & _ & _ & C & _ & _ & S);
    try apply bisect_sound; try apply bisect_converges; try apply bisect_signs; try reflexivity; try discriminate; auto; try (pose proof PI2_3_2; unfold PI2 in *; lra).
  - apply CutOptimizationProofs5.rising_nondecreasing, ex_rising.
  - cbn; lia.
  - apply ex_rising.
  - apply ex_weights.
  - apply ex_weights.
  - intros [|[|k]] a b Ha Hb; cbn in Ha, Hb; try discriminate; try (destruct k; discriminate). injection Ha as <-. injection Hb as <-. lra.
  - split; [reflexivity|]. intros [|[|i]] a b Ha Hb; cbn in Ha, Hb; try congruence; destruct i; discriminate.
  - split.
    + intros x [Hx|Hx]; cbn in Hx; repeat (destruct Hx as [<-|Hx]; [reflexivity|]); destruct Hx.
    + intros [|[|k]] a b Ha Hb; cbn in Ha, Hb; try (destruct k; discriminate); injection Ha as <-; injection Hb as <-; cmp.
  - exists best, c, gcut, W, V, rel. split; auto. split; auto. split; auto.
    assert (th = 1/10).
    { inversion Hth; subst. match goal with I : interpolates _ _ _ _ |- _ => inversion I; subst end; cbn in *; try congruence;
      destruct i as [|[|i]]; cbn in *; try discriminate; try (destruct i; discriminate);
      repeat match goal with H : Some _ = Some _ |- _ => injection H; clear H; intros end; subst; lra. }
    subst th. exact S.
Qed.
