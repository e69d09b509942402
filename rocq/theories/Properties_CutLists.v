(** * Properties_CutLists: C28, a Python list of theta efficiencies *)
From Coq Require Import String Reals List Bool ZArith Lia Lra.
From Verif Require Import Num Numpy Table Binning Statistics SpecBinning BinningProofs BinningWitness Cuts SpecCuts
  SpecSensitivity Sensitivity SensitivityProofs SensitivityProofs2 CutOptimization CutOptimizationLists SpecCutOptimization
  CutOptimizationProofs CutOptimizationProofs2 CutOptimizationProofs4 CutOptimizationProofs5 CutOptimizationProofs6 CutListsProofs.
Import ListNotations.
Open Scope R_scope.

(** C28: [theta_cut_efficiencies] given as a Python list (as in tests/test_optimize_cuts.py) is not multiplied by 100: the entries are
    used as percentages, the returned cuts are those of a hundredth of the efficiencies, which nevertheless are reported *)
Theorem C28_python_list_refuted : forall br sf sa (sw sp bw bp : bool) signal background bins alpha mn mx ms mse mex mults gh_eff theta_eff tmin tmax,
  optimize_cuts_list br sf sa sw sp bw bp signal background bins alpha mn mx ms mse mex mults gh_eff theta_eff tmin tmax =
  match optimize_cuts br sf sa sw sp bw bp signal background bins alpha mn mx ms mse mex mults gh_eff (map (fun e => e / 100) theta_eff) tmin tmax with
  | Ok (best, mult, tc, gc) =>
      Ok (best, mult, mkOptCut (oc_low tc) (oc_center tc) (oc_high tc) (oc_cut tc) (map (fun e => 100 * e) (oc_efficiency tc)), gc)
  | Err e => Err e
  end.
Proof. intros. rewrite python_list. destruct (optimize_cuts _ _ _ _ _ _ _ _ _ _ _ _ _ _ _ _ _ _ _ _ _) as [[[[b m] tc] gc]|e]; reflexivity. Qed.
Print Assumptions C28_python_list_refuted.

(** the call of the test suite returns for suitable events *)
Theorem C28_python_list_returns : forall (br : (R -> num) -> R -> R -> res R) (sf : num -> num -> num -> num)
  (sa : list num -> list num -> num -> res (list num)) (sw sp bw : bool)
  (signal background : list opt_event) (bins : list num) (alpha mn mx : R) (ms mse mex : num),
  rising bins -> (2 <= List.length bins)%nat ->
  (forall f x y ex, br f x y = Err ex -> ex = ValueError \/ ex = RuntimeError) ->
  (forall on off, List.length on = List.length off -> sa on off (Fin alpha) = Ok (zipwith (fun x y => sf x y (Fin alpha)) on off)) ->
  (sp = true -> forall e, In e signal -> ev_p (o_ev e) <> "weighted"%string) ->
  (forall e, In e signal -> 0 <= ev_w (o_ev e)) -> (forall e, In e background -> 0 <= ev_w (o_ev e)) ->
  0 < alpha -> 0 <= mn -> mn < mx -> mx <= PI ->
  forall mults gh_eff theta_eff tmin tmax,
  mults <> [] -> gh_eff <> [] -> theta_eff <> [] ->
  (forall e, In e gh_eff -> 0 <= e <= 1) -> (forall e, In e theta_eff -> 0 <= e <= 100) ->
  (forall m, In m mults -> exists e k, In e signal /\ nle m (o_mult e) = true /\ in_bin bins k (o_energy e)) ->
  exists out, optimize_cuts_list br sf sa sw sp bw false signal background bins (Fin alpha) (Fin mn) (Fin mx) ms mse mex
    mults gh_eff theta_eff tmin tmax = Ok out.
Proof.
  intros br sf sa sw sp bw signal background bins alpha mn mx ms mse mex H1 H2 H3 H4 H5 H6 H7 H8 H9 H10 H11 mults gh th tmin tmax M G T Ge Te Me.
  destruct (cuts_total br sf sa sw sp bw signal background bins alpha mn mx ms mse mex H1 H2 H3 H4 H5 H6 H7 H8 H9 H10 H11 mults gh
    (map (fun e => e / 100) th) tmin tmax) as [[[[b m] tc] gc] H]; auto.
  - destruct th; [contradiction|discriminate].
  - intros e I. apply in_map_iff in I. destruct I as (x & <- & I). specialize (Te x I). lra.
  - rewrite python_list, H. cbn. eauto.
Qed.
Print Assumptions C28_python_list_returns.
