(** * Properties_CutUnits: C81 *)
From Coq Require Import String Reals List Bool ZArith Lia Lra.
From Verif Require Import Num Numpy Table Binning Percentile Cuts Benchmarks CutUnits SpecCutUnits CutUnitsProofs.
Import ListNotations.
Open Scope R_scope.

(** ** C81: cuts and benchmarks don't depend on units *)
(** the same values, bins, fill value and bounds in other units give the same cuts; the same exceptions otherwise *)
Theorem C81_percentile_cut : forall values values' bin_values bin_values' bins bins' fill fill' percentile lower lower' upper upper' smoothing min_events,
  same_array values values' -> same_array bin_values bin_values' -> same_array bins bins' ->
  same_scalar fill fill' -> same_optional lower lower' -> same_optional upper upper' ->
  (a_unit values = None -> s_unit fill = None /\ (forall b, lower = Some b -> s_unit b = None) /\ (forall b, upper = Some b -> s_unit b = None)) ->
  same_result same_cuts (calculate_percentile_cut false values bin_values bins fill percentile lower upper smoothing min_events)
    (calculate_percentile_cut false values' bin_values' bins' fill' percentile lower' upper' smoothing min_events).
Proof. exact percentile_cut_same. Qed.
Print Assumptions C81_percentile_cut.
(** values without unit and a fill value with a unit: the cuts are numbers in the unit of the fill value *)
Theorem C81_plain_values_refuted : exists values bin_values bins fill fill' t t',
  same_scalar fill fill' /\
  calculate_percentile_cut false values bin_values bins fill (PScalar 50) None None None 1 = Ok t /\
  calculate_percentile_cut false values bin_values bins fill' (PScalar 50) None None None 1 = Ok t' /\
  ct_cut t = ct_cut t' /\ ct_cut t = Cut1 [Fin 1] /\ ct_cut_unit t <> ct_cut_unit t' /\ ~ same_cuts t t'.
Proof. exact plain_values_differ. Qed.
Print Assumptions C81_plain_values_refuted.
(** the same events pass the same cuts in other units *)
Theorem C81_evaluate_cut : forall values values' vu vu' bin_values bin_values' low low' high high' eu eu' cuts cuts' cu cu' op is_qtable,
  comparison op -> same_numbers (Some vu) (Some vu') values values' -> same_array bin_values bin_values' ->
  same_numbers eu eu' low low' -> same_numbers eu eu' high high' -> same_numbers (Some cu) (Some cu') cuts cuts' ->
  evaluate_binned_cut_q is_qtable values' vu' bin_values' low' high' eu' cuts' cu' op = evaluate_binned_cut_q is_qtable values vu bin_values low high eu cuts cu op.
Proof. exact evaluate_same. Qed.
Print Assumptions C81_evaluate_cut.
(** in a common unit the comparison is the one of the numbers; other dimensions are rejected *)
Theorem C81_evaluate_common_unit : forall values u bin_values low high eu cuts op is_qtable, 0 < u_scale u ->
  evaluate_binned_cut_q is_qtable values u bin_values low high eu cuts u op = evaluate_binned_cut is_qtable values bin_values low high eu cuts op.
Proof. exact evaluate_common. Qed.
Print Assumptions C81_evaluate_common_unit.
Theorem C81_evaluate_wrong_unit : forall values vu bin_values low high eu cuts cu op is_qtable selected,
  evaluate_binned_cut is_qtable values bin_values low high eu cuts op = Ok selected -> u_dim vu <> u_dim cu ->
  evaluate_binned_cut_q is_qtable values vu bin_values low high eu cuts cu op = Err UnitConversionError.
Proof. exact evaluate_wrong. Qed.
Print Assumptions C81_evaluate_wrong_unit.
(** calculating a cut and applying it: the selected events don't depend on any unit *)
Theorem C81_selection : forall values values' vu vu' bin_values bin_values' bins bins' fill fill' percentile lower lower' upper upper' smoothing min_events op t t' cuts,
  comparison op -> same_numbers (Some vu) (Some vu') values values' -> same_array bin_values bin_values' -> same_array bins bins' ->
  same_scalar fill fill' -> same_optional lower lower' -> same_optional upper upper' ->
  calculate_percentile_cut false (mkArr values (Some vu)) bin_values bins fill percentile lower upper smoothing min_events = Ok t -> ct_cut t = Cut1 cuts ->
  calculate_percentile_cut false (mkArr values' (Some vu')) bin_values' bins' fill' percentile lower' upper' smoothing min_events = Ok t' ->
  exists cuts' cu cu', ct_cut t' = Cut1 cuts' /\ ct_cut_unit t = Some cu /\ ct_cut_unit t' = Some cu' /\
    evaluate_binned_cut_q true values' vu' bin_values' (ct_low t') (ct_high t') (ct_edge_unit t') cuts' cu' op =
    evaluate_binned_cut_q true values vu bin_values (ct_low t) (ct_high t) (ct_edge_unit t) cuts cu op.
Proof. exact selection_same. Qed.
Print Assumptions C81_selection.
(** the angular resolution is the same angle for events, energies and bins in other units *)
Theorem C81_angular_resolution : forall events events' bins bins' energy_type quantile, same_events events events' -> same_array bins bins' ->
  same_result (fun t t' => forall theta theta', getitem events "theta" = Some theta -> getitem events' "theta" = Some theta' ->
                 same_benchmark (a_unit theta) (a_unit theta') t t')
    (angular_resolution events bins energy_type quantile) (angular_resolution events' bins' energy_type quantile).
Proof. exact resolution_same. Qed.
Print Assumptions C81_angular_resolution.
(** bias and resolution are numbers, for any functions that summarise the relative errors *)
Theorem C81_energy_bias_resolution : forall events events' bins bins' energy_type bias resolution, same_events events events' -> same_array bins bins' ->
  same_result (same_benchmark None None) (energy_bias_resolution events bins energy_type bias resolution) (energy_bias_resolution events' bins' energy_type bias resolution).
Proof. exact bias_same. Qed.
Print Assumptions C81_energy_bias_resolution.
(** degree and arcmin; TeV and GeV *)
Definition deg81 := mkUnit 60 2. Definition arcmin81 := mkUnit 1 2. Definition tev81 := mkUnit 1000 1. Definition gev81 := mkUnit 1 1.
Example C81_example :
  same_array (mkArr [Fin (1/2); NaN; PInf] (Some deg81)) (mkArr [Fin 30; NaN; PInf] (Some arcmin81)) /\
  same_array (mkArr [Fin 1; Fin 2] (Some tev81)) (mkArr [Fin 1000; Fin 2000] (Some gev81)) /\
  same_scalar (mkScalar (Fin 1) (Some deg81)) (mkScalar (Fin 60) (Some arcmin81)) /\ comparison nge /\
  same_events [("true_energy"%string, mkArr [Fin 1] (Some tev81)); ("theta"%string, mkArr [Fin 1] (Some deg81))]
    [("true_energy"%string, mkArr [Fin 1000] (Some gev81)); ("theta"%string, mkArr [Fin 60] (Some arcmin81))].
Proof.
  assert (A : forall a b c d, a * b = c * d -> nmul (Fin a) (Fin b) = nmul (Fin c) (Fin d)) by (intros; cbn; f_equal; auto).
  unfold same_array, same_scalar, same_numbers, same_events. cbn [a_unit a_val s_unit s_val same_kind map in_base u_scale u_dim deg81 arcmin81 tev81 gev81].
  split; [|split; [|split; [|split]]].
  - split; [repeat split; lra|]. rewrite (A 60 (1/2) 1 30) by lra. cbn. unfold inf_signed. rsolve. reflexivity.
  - split; [repeat split; lra|]. rewrite (A 1000 1 1 1000), (A 1000 2 1 2000) by lra. reflexivity.
  - split; [repeat split; lra|]. rewrite (A 60 1 1 60) by lra. reflexivity.
  - unfold comparison. cbn. auto.
  - constructor; [split; auto|constructor; [split; auto|constructor]]; unfold same_array, same_numbers; cbn [snd a_unit a_val same_kind map in_base u_scale u_dim deg81 arcmin81 tev81 gev81];
      (split; [repeat split; lra|]); f_equal; apply A; lra.
Qed.
