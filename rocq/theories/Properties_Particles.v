(** * Properties_Particles: C79 *)
From Coq Require Import String Reals List Bool ZArith Lia Lra Sorted.
From Verif Require Import Num Numpy Table Binning SpecBinning BinningWitness Utils Statistics SpecStatistics Percentile Cuts SpecCuts
  Sensitivity SpecSensitivity SensitivityProofs SensitivityProofs2 SensitivityProofs3 SensitivityProofs4 SensitivityProofs5
  CutOptimization SpecCutOptimization CutOptimizationProofs CutOptimizationProofs2 CutOptimizationProofs3 CutOptimizationProofs4 CutOptimizationProofs5 CutOptimizationProofs6
  SpecPipeline PipelineProofs PipelineProofs2 SpecParticles CutOptimizationProofs7 CutOptimizationProofs8 CutOptimizationProofs9
  ParticlesWitness Properties_CutOptimization.
Import ListNotations.
Open Scope R_scope.

(** ** C79: optimising cuts with several particle types in the background *)
(** a sensitivity table has a pair of columns for every particle type of the background events
    inside the ring, and for no other *)
Theorem C79_columns : forall br sf sa sw sp bw signal background bins th_center th_cut alpha mn mx ms mse mex ps sh bh t,
  nondecreasing bins -> (2 <= List.length bins)%nat -> good_labels background -> particle_types mn mx background ps ->
  create_histogram_table (mkEvents (map o_ev signal) sw sp) bins "reco_energy" = Ok sh ->
  estimate_background (map (fun e => mkBg (o_ev e) (o_offset e)) background) bw true bins th_center th_cut alpha mn mx = Ok bh ->
  calculate_sensitivity br sf sa sh bh alpha ms mse mex = Ok t ->
  colnames t = sensitivity_columns ps.
Proof.
  intros br sf sa sw sp bw signal background bins thc tht alpha mn mx ms mse mex ps sh bh t Hnd Hl Hg Hp Hs Hb Ht.
  apply (selected_columns br sf sa sw sp bw bins alpha mn mx ms mse mex Hnd Hl signal background thc tht ps t Hg Hp).
  unfold selected_sensitivity. rewrite Hs. cbn [rbind]. rewrite Hb. cbn [rbind]. exact Ht.
Qed.
Print Assumptions C79_columns.

(** optimize_gh_cut returns if every chosen table has as many columns as the first one and
    raises ValueError otherwise *)
Theorem C79_gh_outcome : forall br sf sa sw sp bw bp signal background bins alpha mn mx ms mse mex,
  rising bins -> (2 <= List.length bins)%nat ->
  (forall f x y ex, br f x y = Err ex -> ex = ValueError \/ ex = RuntimeError) ->
  (forall on off, List.length on = List.length off -> sa on off (Fin alpha) = Ok (zipwith (fun x y => sf x y (Fin alpha)) on off)) ->
  (sp = true -> forall e, In e signal -> ev_p (o_ev e) <> "weighted"%string) -> clean_labels bp background ->
  (forall e, In e signal -> 0 <= ev_w (o_ev e)) -> (forall e, In e background -> 0 <= ev_w (o_ev e)) ->
  0 < alpha -> 0 <= mn -> mn < mx -> mx <= PI ->
  forall (op : num -> num -> bool) effs thl thh thc thcut,
  thc <> [] -> List.length thc = List.length thcut ->
  (exists sel, evaluate_binned_cut true (map o_theta signal) (raw (map o_energy signal)) thl thh None thcut nle = Ok sel) ->
  effs <> [] -> (forall e, In e effs -> 0 <= e <= 1) ->
  (exists e k, In e signal /\ in_bin bins k (o_energy e)) ->
  exists fill t rows sens choice,
    (if op (Fin (-1)) (Fin 1) then smallest_of (map o_gh signal) fill else largest_of (map o_gh signal) fill) /\
    calculate_percentile_cut false (raw (map o_gh signal)) (raw (map o_energy signal)) (raw bins) (plain fill)
      (PList (map (fun e => if op (Fin (-1)) (Fin 1) then 100 * e else 100 * (1 - e)) effs)) None None None 10 = Ok t /\
    ct_cut t = Cut2 rows /\ List.length sens = List.length effs /\
    (forall j s, nth_error sens j = Some s -> exists cut, column_of rows j cut /\
       sensitivity_of_cuts br sf sa sw sp bw bp signal background bins (Fin alpha) (Fin mn) (Fin mx) ms mse mex op cut thl thh thc thcut s) /\
    chosen_scans sens (List.length bins - 1) choice /\
    ((as_wide_as_first sens choice /\ exists best c, optimize_gh_cut br sf sa sw sp bw bp signal background bins (Fin alpha) (Fin mn) (Fin mx) ms mse mex
        op effs thl thh thc thcut = Ok (best, c)) \/
     (~ as_wide_as_first sens choice /\ optimize_gh_cut br sf sa sw sp bw bp signal background bins (Fin alpha) (Fin mn) (Fin mx) ms mse mex
        op effs thl thh thc thcut = Err ValueError)).
Proof. exact gh_outcome. Qed.
Print Assumptions C79_gh_outcome.

(** the same for optimize_cuts *)
Theorem C79_cuts_outcome : forall br sf sa sw sp bw bp signal background bins alpha mn mx ms mse mex,
  rising bins -> (2 <= List.length bins)%nat ->
  (forall f x y ex, br f x y = Err ex -> ex = ValueError \/ ex = RuntimeError) ->
  (forall on off, List.length on = List.length off -> sa on off (Fin alpha) = Ok (zipwith (fun x y => sf x y (Fin alpha)) on off)) ->
  (sp = true -> forall e, In e signal -> ev_p (o_ev e) <> "weighted"%string) -> clean_labels bp background ->
  (forall e, In e signal -> 0 <= ev_w (o_ev e)) -> (forall e, In e background -> 0 <= ev_w (o_ev e)) ->
  0 < alpha -> 0 <= mn -> mn < mx -> mx <= PI ->
  forall mults gh_eff theta_eff tmin tmax,
  mults <> [] -> gh_eff <> [] -> theta_eff <> [] ->
  (forall e, In e gh_eff -> 0 <= e <= 1) -> (forall e, In e theta_eff -> 0 <= e <= 1) ->
  (forall m, In m mults -> exists e k, In e signal /\ nle m (o_mult e) = true /\ in_bin bins k (o_energy e)) ->
  exists fill combos sens choice,
    largest_of (map o_gh signal) fill /\
    combos = list_prod (list_prod (seq 0 (List.length mults)) (seq 0 (List.length gh_eff))) (seq 0 (List.length theta_eff)) /\
    List.length sens = List.length combos /\
    (forall i mi gi ti s, nth_error combos i = Some (mi, gi, ti) -> nth_error sens i = Some s ->
       exists m ght tht rg rt gcut tcut, nth_error mults mi = Some m /\
         percentile_grids signal bins fill gh_eff theta_eff tmin tmax m ght tht rg rt /\
         column_of rg gi gcut /\ column_of rt ti tcut /\
         sensitivity_of_all_cuts br sf sa sw sp bw bp signal background bins (Fin alpha) (Fin mn) (Fin mx) ms mse mex
           (enough_telescopes m signal) (enough_telescopes m background) gcut tcut s) /\
    chosen_scans sens (List.length bins - 1) choice /\
    ((as_wide_as_first sens choice /\ exists best mult_out tc gc, optimize_cuts br sf sa sw sp bw bp signal background bins (Fin alpha) (Fin mn) (Fin mx) ms mse mex
        mults gh_eff theta_eff tmin tmax = Ok (best, mult_out, tc, gc)) \/
     (~ as_wide_as_first sens choice /\ optimize_cuts br sf sa sw sp bw bp signal background bins (Fin alpha) (Fin mn) (Fin mx) ms mse mex
        mults gh_eff theta_eff tmin tmax = Err ValueError)).
Proof. exact cuts_outcome. Qed.
Print Assumptions C79_cuts_outcome.

(** whenever optimize_gh_cut returns, every column of its table holds, in every bin, the column
    of that name of the table of the reported cut (finite scores, cut compared by >= or <=) *)
Theorem C79_gh_labels : forall br sf sa sw sp bw signal background bins alpha mn mx ms mse mex,
  nondecreasing bins -> (2 <= List.length bins)%nat -> good_labels background ->
  (forall e, In e signal -> exists r, o_gh e = Fin r) ->
  forall (op : num -> num -> bool) effs thl thh thc thcut best c, op = nge \/ op = nle ->
  (forall e, In e effs -> 0 <= e <= 1) -> (exists e k, In e signal /\ in_bin bins k (o_energy e)) ->
  optimize_gh_cut br sf sa sw sp bw true signal background bins alpha mn mx ms mse mex op effs thl thh thc thcut = Ok (best, c) ->
  exists ps, colnames best = sensitivity_columns ps /\
    forall k, (k < List.length bins - 1)%nat -> exists cut s x,
      nth_error (oc_cut c) k = Some x /\ nth_error cut k = Some x /\ List.length cut = (List.length bins - 1)%nat /\
      sensitivity_of_cuts br sf sa sw sp bw true signal background bins alpha mn mx ms mse mex op cut thl thh thc thcut s /\
      colnames s = sensitivity_columns ps /\
      forall name, In name (sensitivity_columns ps) -> exists v, cell best name k v /\ cell s name k v.
Proof. exact gh_labels. Qed.
Print Assumptions C79_gh_labels.

(** ... so that the weighted column of a particle type counts the background events of that
    type that pass the reported cut, scaled to the on region *)
Theorem C79_gh_species : forall br sf sa sw sp signal background bins alpha mn mx ms mse mex,
  rising bins -> (2 <= List.length bins)%nat -> good_labels background ->
  alpha <> 0 -> 0 <= mn -> mn < mx -> mx <= PI ->
  forall (op : num -> num -> bool) effs thl thh centers cuts best c,
  (forall e, In e signal -> exists r, o_gh e = Fin r) -> op = nge \/ op = nle ->
  (forall e, In e effs -> 0 <= e <= 1) -> (exists e k, In e signal /\ in_bin bins k (o_energy e)) ->
  increasing centers -> List.length centers = List.length cuts -> centers <> [] ->
  optimize_gh_cut br sf sa sw sp true true signal background bins (Fin alpha) (Fin mn) (Fin mx) ms mse mex op effs thl thh (map Fin centers) (map Fin cuts) = Ok (best, c) ->
  exists ps, colnames best = sensitivity_columns ps /\
    forall p k lo hi, In p ps -> nth_error bins k = Some lo -> nth_error bins (S k) = Some hi ->
      exists x theta w, nth_error (oc_cut c) k = Some x /\ cut_for_bin centers cuts lo hi theta /\
        weight_of (fun e => ev_w (o_ev e))
          (fun e => in_annulus mn mx (o_offset e) /\ in_bin bins k (o_energy e) /\ op (o_gh e) x = true /\ ev_p (o_ev e) = p) background w /\
        cell best (("n_" ++ p) ++ "_weighted") k (Fin (w * ring_ratio theta mn mx / alpha)).
Proof. exact gh_species. Qed.
Print Assumptions C79_gh_species.

(** if every particle type keeps an event whatever cut is scanned, optimize_gh_cut returns a
    table with the columns of every particle type in range *)
Theorem C79_gh_succeeds : forall br sf sa sw sp bw signal background bins alpha mn mx ms mse mex,
  rising bins -> (2 <= List.length bins)%nat ->
  (forall f x y ex, br f x y = Err ex -> ex = ValueError \/ ex = RuntimeError) ->
  (forall on off, List.length on = List.length off -> sa on off (Fin alpha) = Ok (zipwith (fun x y => sf x y (Fin alpha)) on off)) ->
  (sp = true -> forall e, In e signal -> ev_p (o_ev e) <> "weighted"%string) -> good_labels background ->
  (forall e, In e signal -> 0 <= ev_w (o_ev e)) -> (forall e, In e background -> 0 <= ev_w (o_ev e)) ->
  0 < alpha -> 0 <= mn -> mn < mx -> mx <= PI ->
  (forall e, In e signal -> exists r, o_gh e = Fin r) ->
  forall (op : num -> num -> bool) effs thl thh thc thcut ps, op = nge \/ op = nle ->
  thc <> [] -> List.length thc = List.length thcut ->
  (exists sel, evaluate_binned_cut true (map o_theta signal) (raw (map o_energy signal)) thl thh None thcut nle = Ok sel) ->
  effs <> [] -> (forall e, In e effs -> 0 <= e <= 1) ->
  (exists e k, In e signal /\ in_bin bins k (o_energy e)) ->
  every_type_survives op bins (Fin mn) (Fin mx) signal background [] ->
  types_in_range bins (Fin mn) (Fin mx) background ps ->
  exists best c, optimize_gh_cut br sf sa sw sp bw true signal background bins (Fin alpha) (Fin mn) (Fin mx) ms mse mex
    op effs thl thh thc thcut = Ok (best, c) /\ colnames best = sensitivity_columns ps.
Proof. exact gh_succeeds. Qed.
Print Assumptions C79_gh_succeeds.

(** ... and optimize_cuts returns a table whose columns hold what they are named after *)
Theorem C79_cuts_succeeds : forall br sf sa sw sp bw signal background bins alpha mn mx ms mse mex,
  rising bins -> (2 <= List.length bins)%nat ->
  (forall f x y ex, br f x y = Err ex -> ex = ValueError \/ ex = RuntimeError) ->
  (forall on off, List.length on = List.length off -> sa on off (Fin alpha) = Ok (zipwith (fun x y => sf x y (Fin alpha)) on off)) ->
  (sp = true -> forall e, In e signal -> ev_p (o_ev e) <> "weighted"%string) -> good_labels background ->
  (forall e, In e signal -> 0 <= ev_w (o_ev e)) -> (forall e, In e background -> 0 <= ev_w (o_ev e)) ->
  0 < alpha -> 0 <= mn -> mn < mx -> mx <= PI ->
  (forall e, In e signal -> exists r, o_gh e = Fin r) ->
  forall mults gh_eff theta_eff tmin tmax ps,
  mults <> [] -> gh_eff <> [] -> theta_eff <> [] ->
  (forall e, In e gh_eff -> 0 <= e <= 1) -> (forall e, In e theta_eff -> 0 <= e <= 1) ->
  (forall m, In m mults -> exists e k, In e signal /\ nle m (o_mult e) = true /\ in_bin bins k (o_energy e)) ->
  every_type_survives nge bins (Fin mn) (Fin mx) signal background mults ->
  types_in_range bins (Fin mn) (Fin mx) background ps ->
  exists best mult_out tc gc, optimize_cuts br sf sa sw sp bw true signal background bins (Fin alpha) (Fin mn) (Fin mx) ms mse mex
      mults gh_eff theta_eff tmin tmax = Ok (best, mult_out, tc, gc) /\
    colnames best = sensitivity_columns ps /\
    forall k, (k < List.length bins - 1)%nat -> exists m gcut tcut s gx tx,
      nth_error mult_out k = Some m /\ nth_error (oc_cut gc) k = Some gx /\ nth_error gcut k = Some gx /\
      nth_error (oc_cut tc) k = Some tx /\ nth_error tcut k = Some tx /\
      sensitivity_of_all_cuts br sf sa sw sp bw true signal background bins (Fin alpha) (Fin mn) (Fin mx) ms mse mex
        (enough_telescopes m signal) (enough_telescopes m background) gcut tcut s /\
      colnames s = sensitivity_columns ps /\
      forall name, In name (sensitivity_columns ps) -> exists v, cell best name k v /\ cell s name k v.
Proof. exact cuts_succeeds. Qed.
Print Assumptions C79_cuts_succeeds.

(** what goes wrong otherwise: labels make a working optimisation raise ... *)
Theorem C79_gh_raises_refuted :
  w79_optimize true = Err ValueError /\ (exists best c, w79_optimize false = Ok (best, c)) /\ good_labels w79_background.
Proof. split; [exact w79_raises|]. split; [exact w79_unlabelled|exact w79_good]. Qed.
Print Assumptions C79_gh_raises_refuted.
(** ... or fill the column of the protons with the electrons: no proton passes the reported
    cuts (two telescopes, score at least 0.9), yet 50 are reported *)
Theorem C79_cuts_mislabels_refuted :
  exists best tc gc, wm_optimize = Ok (best, [Fin 2], tc, gc) /\ oc_cut gc = [Fin (9/10)] /\
    In "n_proton_weighted"%string (colnames best) /\ ~ In "n_electron_weighted"%string (colnames best) /\
    cell best "n_proton_weighted" 0 (Fin 50) /\
    (forall e, In e wm_background -> ev_p (o_ev e) = "proton"%string -> nle (Fin (9/10)) (o_gh e) = false) /\
    good_labels wm_background.
Proof.
  destruct wm_mislabels as (best & tc & gc & H1 & H2 & H3 & H4 & H5). exists best, tc, gc.
  split; [exact H1|]. split; [exact H2|]. split; [exact H3|]. split; [exact H4|]. split; [exact H5|]. split; [|exact wm_good].
  intros e [<-|[<-|[]]] Hp; [|discriminate Hp]. cbn. destruct (Rleb_spec (9/10) (1/10)); [lra|reflexivity].
Qed.
Print Assumptions C79_cuts_mislabels_refuted.

(** *** the hypotheses are met: one proton and one electron with the highest score and enough telescopes *)
Definition ex79_background : list opt_event :=
  mkOpt (mkEvent (Fin 4) 1 "proton") (Fin 0) (Fin 1) (Fin (1/100)) (Fin 4) ::
  mkOpt (mkEvent (Fin 40) 1 "electron") (Fin 0) (Fin 1) (Fin (1/100)) (Fin 4) :: ex_background.
Lemma ex79_in1 x : 10 <= x < 100 -> in_bin ex_bins 1 (Fin x).
Proof. intros H. exists (Fin 10), (Fin 100). repeat split; cmp. Qed.
Lemma ex79_in0 x : 1 <= x < 10 -> in_bin ex_bins 0 (Fin x).
Proof. intros H. exists (Fin 1), (Fin 10). repeat split; cmp. Qed.
Ltac each He := cbn in He; repeat (destruct He as [<-|He]; [|]); try destruct He.
Lemma ex79_good : good_labels ex79_background.
Proof.
  split.
  - intros _ e He. each He; cbn; intuition discriminate.
  - intros a b Ha Hb. each Ha; each Hb; cbn; try tauto; intuition discriminate.
Qed.
Lemma ex79_survives : every_type_survives nge ex_bins (Fin 0) (Fin (1/10)) ex_signal ex79_background [Fin 2; Fin 4].
Proof.
  assert (Hs : forall s, In s ex_signal -> nge (Fin 1) (o_gh s) = true) by (intros s He; each He; unfold nge; cmp).
  assert (Hm : forall m, In m [Fin 2; Fin 4] -> nle m (Fin 4) = true) by (intros m Hm; each Hm; cmp).
  assert (Hp : exists e', In e' ex79_background /\ in_range ex_bins (Fin 0) (Fin (1/10)) e' /\ ev_p (o_ev e') = "proton"%string /\
     (forall s, In s ex_signal -> nge (o_gh e') (o_gh s) = true) /\ (forall m, In m [Fin 2; Fin 4] -> nle m (o_mult e') = true)).
  { eexists. split; [left; reflexivity|]. split; [|auto]. split; [split; cmp|]. exists 0%nat. apply ex79_in0. lra. }
  intros e He _. each He; try exact Hp.
  eexists. split; [right; left; reflexivity|]. split; [|auto]. split; [split; cmp|]. exists 1%nat. apply ex79_in1. lra.
Qed.
Lemma ex79_types : types_in_range ex_bins (Fin 0) (Fin (1/10)) ex79_background ["electron"; "proton"]%string.
Proof.
  split; [repeat constructor|]. intros p. split.
  - intros Hp. each Hp.
    + eexists. split; [right; left; reflexivity|]. split; [|reflexivity]. split; [split; cmp|]. exists 1%nat. apply ex79_in1. lra.
    + eexists. split; [left; reflexivity|]. split; [|reflexivity]. split; [split; cmp|]. exists 0%nat. apply ex79_in0. lra.
  - intros (e & He & _ & <-). each He; cbn; auto.
Qed.
Lemma ex79_weights : forall e, In e ex79_background -> 0 <= ev_w (o_ev e).
Proof. intros e He. each He; cbn; lra. Qed.
Lemma ex79_finite : forall e, In e ex_signal -> exists r, o_gh e = Fin r.
Proof. intros e He. each He; cbn; eauto. Qed.
Example C79_gh_example : exists best c, optimize_gh_cut bisect_solver li_ma1 li_ma_array true false true true ex_signal ex79_background ex_bins
  (Fin (1/5)) (Fin 0) (Fin (1/10)) (Fin 5) (Fin 10) (Fin (1/20)) nge [1/2; 9/10] (but_last ex_bins) (tl ex_bins) (map Fin [5; 50]) (map Fin [1/10; 1/10]) = Ok (best, c) /\
  colnames best = sensitivity_columns ["electron"; "proton"]%string.
Proof.
  apply (gh_succeeds bisect_solver li_ma1 li_ma_array true false true ex_signal ex79_background ex_bins (1/5) 0 (1/10) (Fin 5) (Fin 10) (Fin (1/20))
    ex_rising ltac:(cbn; lia) bisect_exn (li_ma_array_elementwise _) ltac:(discriminate) ex79_good (proj1 ex_weights) ex79_weights
    ltac:(lra) ltac:(lra) ltac:(lra) ltac:(pose proof PI2_3_2; lra) ex79_finite nge); try discriminate; auto.
  - destruct (mask_exists ex_bins (map o_theta ex_signal) (map o_energy ex_signal) [Fin (1/10); Fin (1/10)] nle
      (rising_nondecreasing _ ex_rising)) as [m Hm]; [cbn; lia|cbn; lia|reflexivity|exists m; exact Hm].
  - intros e [<-|[<-|[]]]; lra.
  - exists (mkOpt (mkEvent (Fin 2) 3 "gamma") (Fin (1/20)) (Fin (9/10)) (Fin (1/100)) (Fin 4)), 0%nat. split; [left; reflexivity|exact ex_in_bin0].
  - intros e He Hr. destruct (ex79_survives e He Hr) as (e' & H1 & H2 & H3 & H4 & _). exists e'. repeat split; auto; try apply H2.
  - exact ex79_types.
Qed.
Example C79_cuts_example : exists best m tc gc, optimize_cuts bisect_solver li_ma1 li_ma_array true false true true ex_signal ex79_background ex_bins
  (Fin (1/5)) (Fin 0) (Fin (1/10)) (Fin 5) (Fin 10) (Fin (1/20)) [Fin 2; Fin 4] [1/2; 9/10] [6/10; 8/10] (Fin (1/100)) (Fin (3/10)) = Ok (best, m, tc, gc) /\
  colnames best = sensitivity_columns ["electron"; "proton"]%string.
Proof.
  destruct (cuts_succeeds bisect_solver li_ma1 li_ma_array true false true ex_signal ex79_background ex_bins (1/5) 0 (1/10) (Fin 5) (Fin 10) (Fin (1/20))
    ex_rising ltac:(cbn; lia) bisect_exn (li_ma_array_elementwise _) ltac:(discriminate) ex79_good (proj1 ex_weights) ex79_weights
    ltac:(lra) ltac:(lra) ltac:(lra) ltac:(pose proof PI2_3_2; lra) ex79_finite [Fin 2; Fin 4] [1/2; 9/10] [6/10; 8/10] (Fin (1/100)) (Fin (3/10))
    ["electron"; "proton"]%string) as (b & m & tc & gc & E & Hc & _); try discriminate.
  - intros e [<-|[<-|[]]]; lra.
  - intros e [<-|[<-|[]]]; lra.
  - intros m Hm. exists (mkOpt (mkEvent (Fin 2) 3 "gamma") (Fin (1/20)) (Fin (9/10)) (Fin (1/100)) (Fin 4)), 0%nat. split; [left; reflexivity|]. split; [|exact ex_in_bin0].
    destruct Hm as [<-|[<-|[]]]; cmp.
  - exact ex79_survives.
  - exact ex79_types.
  - exists b, m, tc, gc. auto.
Qed.
