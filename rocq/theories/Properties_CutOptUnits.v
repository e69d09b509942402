(** * Properties_CutOptUnits: the optimised cuts do not depend on units (C88) *)
From Coq Require Import String Reals List Bool ZArith Arith Lia Lra.
From Verif Require Import Num Numpy Table Binning Statistics Cuts CutUnits Sensitivity CutOptimization Quantities SpectralUnits SimulationUnits IRFUnits
  SensitivityUnits CutOptimizationUnits SpecUnits SpecIRFUnits SpecSensUnits SpecCutUnits SpecCutOptUnits IRFUnitsProofs CutOptUnitsProofs CutOptUnitsProofs3 CutOptUnitsProofs4
  SensitivityProofs SensitivityProofs2 CutOptUnitsProofs5 CutOptUnitsWitness Properties_CutOptimization.
Import ListNotations.
Open Scope R_scope.

(** ** C88.  The same exception, or the same best sensitivity, cuts and efficiencies as for the numbers in TeV and radian *)
Theorem C88_gh_cut : forall (brentq : (R -> num) -> R -> R -> res R) (sf : num -> num -> num -> num) (sa : list num -> list num -> num -> res (list num))
  (sw sp bw bp : bool) signal background qs qb b v b' alpha mn mx mn' mx' ms me mb,
  holds_events qs sw sp signal -> holds_events qb bw bp background -> has_theta qs signal -> has_offset qb background ->
  numbers energy_dim tev b v b' -> in_radian mn mn' -> in_radian mx mx' ->
  forall op effs cuts low high center cut, cuts_in cuts low high center cut ->
  same_gh_optimum (q_optimize_gh_cut brentq sf sa qs qb (AQty (mkQA b v)) alpha mn mx ms me mb op effs cuts)
    (optimize_gh_cut brentq sf sa sw sp bw bp signal background b' alpha mn' mx' ms me mb op effs low high center cut).
Proof. intros br sf sa sw sp bw bp s bg qs qb b v b' a mn mx mn' mx' ms me mb H1 H2 H3 H4 H5 H6 H7 op effs cuts l h c x Hc. apply gh_same; auto. Qed.
Print Assumptions C88_gh_cut.

Theorem C88_cuts : forall (brentq : (R -> num) -> R -> R -> res R) (sf : num -> num -> num -> num) (sa : list num -> list num -> num -> res (list num))
  (sw sp bw bp : bool) signal background qs qb b v b' alpha mn mx mn' mx' ms me mb,
  holds_events qs sw sp signal -> holds_events qb bw bp background -> has_theta qs signal -> has_offset qb background ->
  has_multiplicity qs signal -> has_multiplicity qb background ->
  numbers energy_dim tev b v b' -> in_radian mn mn' -> in_radian mx mx' ->
  forall mults gh_eff theta_eff tmin tmax tmin' tmax', in_radian tmin tmin' -> in_radian tmax tmax' ->
  same_optimum (q_optimize_cuts brentq sf sa qs qb (AQty (mkQA b v)) alpha mn mx ms me mb mults gh_eff theta_eff tmin tmax)
    (optimize_cuts brentq sf sa sw sp bw bp signal background b' alpha mn' mx' ms me mb mults gh_eff theta_eff tmin' tmax').
Proof.
  intros br sf sa sw sp bw bp s bg qs qb b v b' a mn mx mn' mx' ms me mb H1 H2 (th & ut & T1 & T2) H4 M1 M2 H5 H6 H7 mults ge te tn tx tn' tx' N X.
  eapply cuts_same; eauto.
Qed.
Print Assumptions C88_cuts.

(** bins that are no energies, for events whose energies are: an exception *)
Theorem C88_wrong_bins : forall (brentq : (R -> num) -> R -> R -> res R) (sf : num -> num -> num -> num) (sa : list num -> list num -> num -> res (list num))
  (sw sp : bool) signal qs qb bins alpha mn mx ms me mb,
  holds_events qs sw sp signal -> signal <> [] ->
  (forall mults gh_eff theta_eff tmin tmax, match bins with
     | APlain _ => q_optimize_cuts brentq sf sa qs qb bins alpha mn mx ms me mb mults gh_eff theta_eff tmin tmax = Err TypeError
     | AQty a => qu_dim (qa_unit a) <> energy_dim ->
        q_optimize_cuts brentq sf sa qs qb bins alpha mn mx ms me mb mults gh_eff theta_eff tmin tmax = Err UnitConversionError
     end).
Proof. exact wrong_bins. Qed.
Print Assumptions C88_wrong_bins.
(** theta cuts that are numbers without unit (or, with a unit, no angles), for events whose theta is an angle *)
Theorem C88_wrong_cuts : forall (brentq : (R -> num) -> R -> R -> res R) (sf : num -> num -> num -> num) (sa : list num -> list num -> num -> res (list num))
  (sw sp : bool) signal qs qb bins alpha mn mx ms me mb,
  holds_events qs sw sp signal -> has_theta qs signal ->
  forall op effs l ul h uh m x, unit_of energy_dim ul -> unit_of energy_dim uh -> h <> [] -> match x with AQty a => qu_dim (qa_unit a) <> angle_dim | APlain _ => True end ->
  exists e, q_optimize_gh_cut brentq sf sa qs qb bins alpha mn mx ms me mb op effs (mkQCuts (AQty (mkQA l ul)) (AQty (mkQA h uh)) m x) = Err e.
Proof. exact wrong_cuts. Qed.
Print Assumptions C88_wrong_cuts.

(** the tables of the examples of C27 and C28 in GeV and degree: both optimisations return *)
Example C88_example :
  (exists r, q_optimize_gh_cut bisect_solver li_ma1 li_ma_array (in_gev true false ex_signal) (in_gev true false ex_background) (to_gev ex_bins) (Fin (1/5))
     (mkQ (nmul (Fin 0) (Fin (180 / PI))) deg) (mkQ (nmul (Fin (1/10)) (Fin (180 / PI))) deg) (Fin 5) (Fin 10) (Fin (1/20)) nge [1/2; 9/10]
     (mkQCuts (to_gev (but_last ex_bins)) (to_gev (tl ex_bins)) (to_gev [Fin 5; Fin 50]) (to_deg [Fin (1/10); Fin (1/10)])) = Ok r) /\
  exists r, q_optimize_cuts bisect_solver li_ma1 li_ma_array (in_gev true false ex_signal) (in_gev true false ex_background) (to_gev ex_bins) (Fin (1/5))
     (mkQ (nmul (Fin 0) (Fin (180 / PI))) deg) (mkQ (nmul (Fin (1/10)) (Fin (180 / PI))) deg) (Fin 5) (Fin 10) (Fin (1/20)) [Fin 2; Fin 4] [1/2; 9/10] [6/10; 8/10]
     (mkQ (nmul (Fin (1/100)) (Fin (180 / PI))) deg) (mkQ (nmul (Fin (3/10)) (Fin (180 / PI))) deg) = Ok r.
Proof.
  destruct (in_gev_holds true false ex_signal) as (S1 & S2 & S3 & S4). destruct (in_gev_holds true false ex_background) as (B1 & B2 & B3 & B4).
  split.
  - destruct C27_example as (best & c & E).
    pose proof (C88_gh_cut bisect_solver li_ma1 li_ma_array true false true false ex_signal ex_background _ _ _ _ _ (Fin (1/5)) _ _ _ _ (Fin 5) (Fin 10) (Fin (1/20))
      S1 B1 S2 B3 (gev_numbers ex_bins) (deg_scalar (Fin 0)) (deg_scalar (Fin (1/10))) nge [1/2; 9/10]
      (mkQCuts (to_gev (but_last ex_bins)) (to_gev (tl ex_bins)) (to_gev [Fin 5; Fin 50]) (to_deg [Fin (1/10); Fin (1/10)])) (but_last ex_bins) (tl ex_bins) [Fin 5; Fin 50] [Fin (1/10); Fin (1/10)]) as H.
    lapply H; [clear H; intros H|unfold to_gev, to_deg; do 8 eexists; split; [reflexivity|split; [apply gev_numbers|split; [apply gev_numbers|split; [apply gev_numbers|apply deg_numbers]]]]].
    rewrite E in H. unfold to_gev at 1. match goal with |- exists r, ?q = Ok r => destruct q as [r|e]; [exists r; reflexivity|destruct H] end.
  - destruct C28_example as (best & m & tc & gc & E).
    pose proof (C88_cuts bisect_solver li_ma1 li_ma_array true false true false ex_signal ex_background _ _ _ _ _ (Fin (1/5)) _ _ _ _ (Fin 5) (Fin 10) (Fin (1/20))
      S1 B1 S2 B3 S4 B4 (gev_numbers ex_bins) (deg_scalar (Fin 0)) (deg_scalar (Fin (1/10))) [Fin 2; Fin 4] [1/2; 9/10] [6/10; 8/10] _ _ _ _ (deg_scalar (Fin (1/100))) (deg_scalar (Fin (3/10)))) as H.
    rewrite E in H. unfold to_gev at 1. match goal with |- exists r, ?q = Ok r => destruct q as [r|e]; [exists r; reflexivity|destruct H] end.
Qed.
