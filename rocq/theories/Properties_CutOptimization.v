(** * Properties_CutOptimization: C27-C29 *)
From Coq Require Import String Reals List Bool ZArith Lia Lra.
From Verif Require Import Num Numpy Table Binning Utils Statistics SpecBinning BinningProofs BinningWitness Percentile Cuts SpecCuts CutsProofs
  SpecSensitivity Sensitivity SensitivityProofs SensitivityProofs2 SensitivityProofs3 CutOptimization SpecCutOptimization
  CutOptimizationProofs CutOptimizationProofs2 CutOptimizationProofs4 CutOptimizationProofs5 CutOptimizationProofs6.
Import ListNotations.
Open Scope R_scope.

(** C27: what optimize_gh_cut returns, whenever it returns. [sens] are the sensitivity tables of the scanned efficiencies, [vals] their relative sensitivities in bin [k]. *)
Theorem C27_best_efficiency : forall (br : (R -> num) -> R -> R -> res R) (sf : num -> num -> num -> num)
  (sa : list num -> list num -> num -> res (list num)) (sw sp bw bp : bool)
  (signal background : list opt_event) (bins : list num) (alpha mn mx ms mse mex : num),
  forall op effs thl thh thc thcut best c,
  optimize_gh_cut br sf sa sw sp bw bp signal background bins alpha mn mx ms mse mex op effs thl thh thc thcut = Ok (best, c) ->
  exists fill t rows sens,
    (if op (Fin (-1)) (Fin 1) then smallest_of (map o_gh signal) fill else largest_of (map o_gh signal) fill) /\
    calculate_percentile_cut false (raw (map o_gh signal)) (raw (map o_energy signal)) (raw bins) (plain fill)
      (PList (map (fun e => if op (Fin (-1)) (Fin 1) then 100 * e else 100 * (1 - e)) effs)) None None None 10 = Ok t /\
    ct_cut t = Cut2 rows /\
    oc_low c = but_last bins /\ oc_high c = tl bins /\ oc_center c = bin_center bins /\
    List.length (oc_cut c) = (List.length bins - 1)%nat /\ List.length (oc_efficiency c) = (List.length bins - 1)%nat /\
    List.length sens = List.length effs /\
    (exists s0, nth_error sens 0 = Some s0 /\ colnames best = colnames s0) /\
    (forall j s, nth_error sens j = Some s -> exists cut, column_of rows j cut /\
       sensitivity_of_cuts br sf sa sw sp bw bp signal background bins alpha mn mx ms mse mex op cut thl thh thc thcut s) /\
    forall k, (k < List.length bins - 1)%nat ->
      exists j vals s eff row x, nth_error sens j = Some s /\
        List.length vals = List.length sens /\
        (forall i s' v, nth_error sens i = Some s' -> nth_error vals i = Some v -> cell s' "relative_sensitivity" k v) /\
        (best_choice vals j \/ nothing_finite vals j) /\
        same_row k best s /\
        nth_error effs j = Some eff /\ nth_error (oc_efficiency c) k = Some eff /\
        nth_error rows k = Some row /\ nth_error row j = Some x /\ nth_error (oc_cut c) k = Some x.
Proof. exact c27. Qed.
Print Assumptions C27_best_efficiency.
(** ... and it returns on every regular input *)
Theorem C27_succeeds : forall (br : (R -> num) -> R -> R -> res R) (sf : num -> num -> num -> num)
  (sa : list num -> list num -> num -> res (list num)) (sw sp bw : bool)
  (signal background : list opt_event) (bins : list num) (alpha mn mx : R) (ms mse mex : num),
  rising bins -> (2 <= List.length bins)%nat ->
  (forall f x y ex, br f x y = Err ex -> ex = ValueError \/ ex = RuntimeError) ->
  (forall on off, List.length on = List.length off -> sa on off (Fin alpha) = Ok (zipwith (fun x y => sf x y (Fin alpha)) on off)) ->
  (sp = true -> forall e, In e signal -> ev_p (o_ev e) <> "weighted"%string) ->
  (forall e, In e signal -> 0 <= ev_w (o_ev e)) -> (forall e, In e background -> 0 <= ev_w (o_ev e)) ->
  0 < alpha -> 0 <= mn -> mn < mx -> mx <= PI ->
  forall op effs thl thh thc thcut,
  thc <> [] -> List.length thc = List.length thcut ->
  (exists sel, evaluate_binned_cut true (map o_theta signal) (raw (map o_energy signal)) thl thh None thcut nle = Ok sel) ->
  effs <> [] -> (forall e, In e effs -> 0 <= e <= 1) ->
  (exists e k, In e signal /\ in_bin bins k (o_energy e)) ->
  exists out, optimize_gh_cut br sf sa sw sp bw false signal background bins (Fin alpha) (Fin mn) (Fin mx) ms mse mex
    op effs thl thh thc thcut = Ok out.
Proof. intros; eapply gh_total; eauto. Qed.
Print Assumptions C27_succeeds.
(** the only exception to "NaN ignored": nothing finite was found *)
Theorem C27_nan_ignored_refuted : exists vals j v, best_choice vals j /\ nth_error vals j = Some v /\ v <> NaN /\
  nothing_finite vals 0 /\ nth_error vals 0 = Some NaN /\ (if forallb is_nan vals then 0%nat else nanargmin vals) = 0%nat.
Proof.
  exists [NaN; PInf], 1%nat, PInf. split.
  - apply (best_value _ 1%nat PInf); auto; try discriminate.
    + intros [|[|i]] x H Hx; cbn in H; try congruence. injection H as <-. reflexivity. destruct i; discriminate.
    + intros [|i] x Hi H Hx; [cbn in H; congruence|lia].
  - split; [reflexivity|]. split; [discriminate|]. split; [|auto].
    split; [reflexivity|]. split; [reflexivity|]. split; [right; left; reflexivity|]. intros x [<-|[<-|[]]]; auto.
Qed.
Print Assumptions C27_nan_ignored_refuted.

(** C28: what optimize_cuts returns *)
Theorem C28_best_combination : forall (br : (R -> num) -> R -> R -> res R) (sf : num -> num -> num -> num)
  (sa : list num -> list num -> num -> res (list num)) (sw sp bw bp : bool)
  (signal background : list opt_event) (bins : list num) (alpha mn mx ms mse mex : num),
  (2 <= List.length bins)%nat ->
  forall mults gh_eff theta_eff tmin tmax best mult_out tc gc,
  optimize_cuts br sf sa sw sp bw bp signal background bins alpha mn mx ms mse mex mults gh_eff theta_eff tmin tmax
    = Ok (best, mult_out, tc, gc) ->
  exists fill ghs ths combos sens,
    largest_of (map o_gh signal) fill /\
    combos = list_prod (list_prod (seq 0 (List.length mults)) (seq 0 (List.length gh_eff))) (seq 0 (List.length theta_eff)) /\
    List.length sens = List.length combos /\
    (exists s0, nth_error sens 0 = Some s0 /\ colnames best = colnames s0) /\
    (forall mi m, nth_error mults mi = Some m -> exists ght tht rg rt,
       nth_error ghs mi = Some rg /\ nth_error ths mi = Some rt /\
       percentile_grids signal bins fill gh_eff theta_eff tmin tmax m ght tht rg rt) /\
    (forall i mi gi ti s, nth_error combos i = Some (mi, gi, ti) -> nth_error sens i = Some s ->
       exists m rg rt gcut tcut, nth_error mults mi = Some m /\ nth_error ghs mi = Some rg /\ nth_error ths mi = Some rt /\
         column_of rg gi gcut /\ column_of rt ti tcut /\
         sensitivity_of_all_cuts br sf sa sw sp bw bp signal background bins alpha mn mx ms mse mex
           (enough_telescopes m signal) (enough_telescopes m background) gcut tcut s) /\
    oc_low tc = but_last bins /\ oc_high tc = tl bins /\ oc_center tc = bin_center bins /\
    oc_low gc = but_last bins /\ oc_high gc = tl bins /\ oc_center gc = bin_center bins /\
    List.length mult_out = (List.length bins - 1)%nat /\ List.length (oc_cut tc) = (List.length bins - 1)%nat /\
    List.length (oc_cut gc) = (List.length bins - 1)%nat /\
    forall k, (k < List.length bins - 1)%nat ->
      exists i mi gi ti vals s m rg rt grow trow geff teff gx tx,
        nth_error combos i = Some (mi, gi, ti) /\ nth_error sens i = Some s /\
        List.length vals = List.length sens /\
        (forall i' s' v, nth_error sens i' = Some s' -> nth_error vals i' = Some v -> cell s' "relative_sensitivity" k v) /\
        (best_choice vals i \/ nothing_finite vals i) /\
        same_row k best s /\
        nth_error mults mi = Some m /\ nth_error mult_out k = Some m /\
        nth_error ghs mi = Some rg /\ nth_error rg k = Some grow /\ nth_error grow gi = Some gx /\ nth_error (oc_cut gc) k = Some gx /\
        nth_error ths mi = Some rt /\ nth_error rt k = Some trow /\ nth_error trow ti = Some tx /\ nth_error (oc_cut tc) k = Some tx /\
        nth_error gh_eff gi = Some geff /\ nth_error (oc_efficiency gc) k = Some geff /\
        nth_error theta_eff ti = Some teff /\ nth_error (oc_efficiency tc) k = Some teff.
Proof. exact c28. Qed.
Print Assumptions C28_best_combination.
(** ... and it returns on every regular input *)
Theorem C28_succeeds : forall (br : (R -> num) -> R -> R -> res R) (sf : num -> num -> num -> num)
  (sa : list num -> list num -> num -> res (list num)) (sw sp bw : bool)
  (signal background : list opt_event) (bins : list num) (alpha mn mx : R) (ms mse mex : num),
  rising bins -> (2 <= List.length bins)%nat ->
  (forall f x y ex, br f x y = Err ex -> ex = ValueError \/ ex = RuntimeError) ->
  (forall on off, List.length on = List.length off -> sa on off (Fin alpha) = Ok (zipwith (fun x y => sf x y (Fin alpha)) on off)) ->
  (sp = true -> forall e, In e signal -> ev_p (o_ev e) <> "weighted"%string) ->
  (forall e, In e signal -> 0 <= ev_w (o_ev e)) -> (forall e, In e background -> 0 <= ev_w (o_ev e)) ->
  0 < alpha -> 0 <= mn -> mn < mx -> mx <= PI ->
  forall mults gh_eff theta_eff tmin tmax,
  mults <> [] -> gh_eff <> [] -> theta_eff <> [] ->
  (forall e, In e gh_eff -> 0 <= e <= 1) -> (forall e, In e theta_eff -> 0 <= e <= 1) ->
  (forall m, In m mults -> exists e k, In e signal /\ nle m (o_mult e) = true /\ in_bin bins k (o_energy e)) ->
  exists out, optimize_cuts br sf sa sw sp bw false signal background bins (Fin alpha) (Fin mn) (Fin mx) ms mse mex
    mults gh_eff theta_eff tmin tmax = Ok out.
Proof. intros; eapply cuts_total; eauto. Qed.
Print Assumptions C28_succeeds.

(** C29: the returned cuts, applied to the events with the public functions, reproduce the reported rows *)
Theorem C29_optimize_gh_cut : forall (br : (R -> num) -> R -> R -> res R) (sf : num -> num -> num -> num)
  (sa : list num -> list num -> num -> res (list num)) (sw sp bw bp : bool)
  (signal background : list opt_event) (bins : list num) (alpha mn mx ms mse mex : num),
  nondecreasing bins -> (2 <= List.length bins)%nat ->
  (forall k lo hi, nth_error bins k = Some lo -> nth_error bins (S k) = Some hi -> exists r, lo = Fin r \/ hi = Fin r) ->
  (forall on off, List.length on = List.length off -> sa on off alpha = Ok (zipwith (fun x y => sf x y alpha) on off)) ->
  (sp = true -> forall e, In e signal -> ev_p (o_ev e) <> "weighted"%string) -> clean_labels bp background ->
  forall op effs thl thh thc thcut best c,
  optimize_gh_cut br sf sa sw sp bw bp signal background bins alpha mn mx ms mse mex op effs thl thh thc thcut = Ok (best, c) ->
  exists s, sensitivity_of_cuts br sf sa sw sp bw bp signal background bins alpha mn mx ms mse mex op (oc_cut c) thl thh thc thcut s /\
    forall k name, (k < List.length bins - 1)%nat -> In name core_columns -> exists v, cell best name k v /\ cell s name k v.
Proof. exact c29_gh. Qed.
Print Assumptions C29_optimize_gh_cut.
Theorem C29_optimize_cuts : forall (br : (R -> num) -> R -> R -> res R) (sf : num -> num -> num -> num)
  (sa : list num -> list num -> num -> res (list num)) (sw sp bw bp : bool)
  (signal background : list opt_event) (bins : list num) (alpha mn mx ms mse mex : num),
  rising bins -> (2 <= List.length bins)%nat ->
  (forall on off, List.length on = List.length off -> sa on off alpha = Ok (zipwith (fun x y => sf x y alpha) on off)) ->
  (sp = true -> forall e, In e signal -> ev_p (o_ev e) <> "weighted"%string) -> clean_labels bp background ->
  forall mults gh_eff theta_eff tmin tmax best mult_out tc gc,
  optimize_cuts br sf sa sw sp bw bp signal background bins alpha mn mx ms mse mex mults gh_eff theta_eff tmin tmax
    = Ok (best, mult_out, tc, gc) ->
  exists m_mult b_mult s,
    evaluate_binned_cut true (map o_mult signal) (raw (map o_energy signal)) (but_last bins) (tl bins) None mult_out nge = Ok m_mult /\
    evaluate_binned_cut true (map o_mult background) (raw (map o_energy background)) (but_last bins) (tl bins) None mult_out nge = Ok b_mult /\
    sensitivity_of_all_cuts br sf sa sw sp bw bp signal background bins alpha mn mx ms mse mex m_mult b_mult (oc_cut gc) (oc_cut tc) s /\
    forall k name, (k < List.length bins - 1)%nat -> In name core_columns -> exists v, cell best name k v /\ cell s name k v.
Proof. exact c29_cuts. Qed.
Print Assumptions C29_optimize_cuts.

(** ** a concrete sample on which both optimisers return *)
Definition ex_signal : list opt_event :=
  [mkOpt (mkEvent (Fin 2) 3 "gamma") (Fin (1/20)) (Fin (9/10)) (Fin (1/100)) (Fin 4);
   mkOpt (mkEvent (Fin 5) 2 "gamma") (Fin (1/10)) (Fin (1/2)) (Fin (1/100)) (Fin 2);
   mkOpt (mkEvent (Fin 20) 1 "gamma") (Fin (1/30)) (Fin (7/10)) (Fin (1/100)) (Fin 3)].
Definition ex_background : list opt_event :=
  [mkOpt (mkEvent (Fin 3) 1 "proton") (Fin (1/5)) (Fin (3/10)) (Fin (1/100)) (Fin 2);
   mkOpt (mkEvent (Fin 30) 1 "proton") (Fin (1/5)) (Fin (8/10)) (Fin (1/50)) (Fin 3)].
Definition ex_bins : list num := [Fin 1; Fin 10; Fin 100].
Lemma ex_rising : rising ex_bins.
Proof.
  unfold ex_bins. split; [|split].
  - intros e [<-|[<-|[<-|[]]]]; reflexivity.
  - intros [|[|[|[|k]]]] a b Ha Hb; cbn in Ha, Hb; try discriminate; injection Ha as <-; injection Hb as <-; cbn [nlt]; apply Rltb_true; lra.
  - intros [|[|[|[|k]]]] a b Ha Hb; cbn in Ha, Hb; try discriminate; injection Ha as <-; eexists; left; reflexivity.
Qed.
Lemma ex_weights : (forall e, In e ex_signal -> 0 <= ev_w (o_ev e)) /\ (forall e, In e ex_background -> 0 <= ev_w (o_ev e)).
Proof. split; intros e He; repeat (destruct He as [<-|He]; [cbn; lra|]); destruct He. Qed.
Lemma ex_in_bin0 : in_bin ex_bins 0 (Fin 2).
Proof. exists (Fin 1), (Fin 10). repeat split; cbn [nle nlt]; try (apply Rleb_true; lra); apply Rltb_true; lra. Qed.
Example C27_example : exists best c, optimize_gh_cut bisect_solver li_ma1 li_ma_array true false true false ex_signal ex_background ex_bins
  (Fin (1/5)) (Fin 0) (Fin (1/10)) (Fin 5) (Fin 10) (Fin (1/20)) nge [1/2; 9/10] (but_last ex_bins) (tl ex_bins) [Fin 5; Fin 50] [Fin (1/10); Fin (1/10)] = Ok (best, c).
Proof.
  destruct (gh_total bisect_solver li_ma1 li_ma_array true false true ex_signal ex_background ex_bins (1/5) 0 (1/10) (Fin 5) (Fin 10) (Fin (1/20))
    ex_rising ltac:(cbn; lia) bisect_exn (li_ma_array_elementwise _) ltac:(discriminate) (proj1 ex_weights) (proj2 ex_weights)
    ltac:(lra) ltac:(lra) ltac:(lra) ltac:(pose proof PI2_3_2; lra) nge [1/2; 9/10] (but_last ex_bins) (tl ex_bins) [Fin 5; Fin 50] [Fin (1/10); Fin (1/10)]) as [[b c] H];
    eauto; try discriminate.
  - destruct (mask_exists ex_bins (map o_theta ex_signal) (map o_energy ex_signal) [Fin (1/10); Fin (1/10)] nle
      (rising_nondecreasing _ ex_rising)) as [m Hm]; [cbn; lia|cbn; lia|reflexivity|exists m; exact Hm].
  - intros e [<-|[<-|[]]]; lra.
  - exists (mkOpt (mkEvent (Fin 2) 3 "gamma") (Fin (1/20)) (Fin (9/10)) (Fin (1/100)) (Fin 4)), 0%nat. split; [left; reflexivity|exact ex_in_bin0].
Qed.
Example C28_example : exists best m tc gc, optimize_cuts bisect_solver li_ma1 li_ma_array true false true false ex_signal ex_background ex_bins
  (Fin (1/5)) (Fin 0) (Fin (1/10)) (Fin 5) (Fin 10) (Fin (1/20)) [Fin 2; Fin 4] [1/2; 9/10] [6/10; 8/10] (Fin (1/100)) (Fin (3/10)) = Ok (best, m, tc, gc).
Proof.
  destruct (cuts_total bisect_solver li_ma1 li_ma_array true false true ex_signal ex_background ex_bins (1/5) 0 (1/10) (Fin 5) (Fin 10) (Fin (1/20))
    ex_rising ltac:(cbn; lia) bisect_exn (li_ma_array_elementwise _) ltac:(discriminate) (proj1 ex_weights) (proj2 ex_weights)
    ltac:(lra) ltac:(lra) ltac:(lra) ltac:(pose proof PI2_3_2; lra) [Fin 2; Fin 4] [1/2; 9/10] [6/10; 8/10] (Fin (1/100)) (Fin (3/10))) as [[[[b m] tc] gc] H];
    eauto 6; try discriminate.
  - intros e [<-|[<-|[]]]; lra.
  - intros e [<-|[<-|[]]]; lra.
  - intros m Hm. exists (mkOpt (mkEvent (Fin 2) 3 "gamma") (Fin (1/20)) (Fin (9/10)) (Fin (1/100)) (Fin 4)), 0%nat. split; [left; reflexivity|]. split; [|exact ex_in_bin0].
    cbn [o_mult]. destruct Hm as [<-|[<-|[]]]; cbn [nle]; apply Rleb_true; lra.
Qed.
