(** * CutOptUnitsProofs5: wrong units in the cut optimisation *)
From Coq Require Import String Reals List Bool ZArith Arith Lia Lra.
From Verif Require Import Num Numpy Table Binning Percentile Cuts CutUnits Utils Sensitivity CutOptimization Quantities SpectralUnits SimulationUnits IRFUnits
  SensitivityUnits CutOptimizationUnits SpecUnits SpecIRFUnits SpecSensUnits SpecCutUnits SpecCutOptUnits SpectralUnitsProofs IRFUnitsProofs CutUnitsProofs
  CutOptUnitsProofs CutOptUnitsProofs2 CutOptUnitsProofs3.
Import ListNotations.
Open Scope R_scope.

Lemma deqb_diff a b : a <> b -> deqb a b = false.
Proof. intros H. destruct (deqb a b) eqn:E; auto. exfalso. apply H. now apply SpectralUnitsProofs.deqb_true. Qed.
Lemma deqb_same a : deqb a a = true.
Proof. unfold deqb. rewrite !(proj2 (Reqb_true _ _)) by auto. reflexivity. Qed.
Lemma other_energy d : d <> energy_dim -> dim_number d <> 1%nat.
Proof. intros H. unfold dim_number. change (qu_dim TeV) with energy_dim. rewrite (deqb_diff d energy_dim) by auto. unfold dimless_dim. destruct (deqb _ _); [lia|]. destruct (deqb _ _); lia. Qed.
Lemma other_angle d : d <> angle_dim -> dim_number d <> 2%nat.
Proof. intros H. unfold dim_number. change (qu_dim rad) with angle_dim. rewrite (deqb_diff d angle_dim) by auto. unfold dimless_dim. destruct (deqb _ _); [lia|]. destruct (deqb _ _); lia. Qed.
Lemma wrong_bins (brentq : (R -> num) -> R -> R -> res R) (sf : num -> num -> num -> num) (sa : list num -> list num -> num -> res (list num))
  (sw sp : bool) signal qs qb bins alpha mn mx ms me mb :
  holds_events qs sw sp signal -> signal <> [] ->
  (forall mults gh_eff theta_eff tmin tmax, match bins with
     | APlain _ => q_optimize_cuts brentq sf sa qs qb bins alpha mn mx ms me mb mults gh_eff theta_eff tmin tmax = Err TypeError
     | AQty a => qu_dim (qa_unit a) <> energy_dim ->
        q_optimize_cuts brentq sf sa qs qb bins alpha mn mx ms me mb mults gh_eff theta_eff tmin tmax = Err UnitConversionError
     end).
Proof.
  intros (S1 & (es & us & S2 & S2') & S3 & _) Hne mults ge te tn tx.
  assert (F : exists f, np_max (map o_gh signal) = Ok f) by (destruct signal; [contradiction|eexists; reflexivity]). destruct F as (f & F).
  destruct bins as [l|[l w]]; [|intros D; cbn [qa_unit] in D]; unfold q_optimize_cuts; rewrite (get_plain _ _ _ _ S1 S3), (get_in _ _ _ _ S1 S2); cbn [rbind]; rewrite F; cbn [rbind].
  - reflexivity.
  - unfold calculate_bin_indices. cbn [as_arr a_unit a_val qa_val qa_unit]. rewrite (energy_number us) by apply S2'.
    rewrite to_value_id by apply S2'. cbn [rbind]. unfold Table.to_value. cbn [as_unit u_dim]. destruct (Nat.eqb_spec (dim_number (qu_dim w)) 1) as [E|E]; [exfalso; now apply (other_energy _ D)|]. reflexivity.
Qed.
Lemma wrong_cuts (brentq : (R -> num) -> R -> R -> res R) (sf : num -> num -> num -> num) (sa : list num -> list num -> num -> res (list num))
  (sw sp : bool) signal qs qb bins alpha mn mx ms me mb :
  holds_events qs sw sp signal -> has_theta qs signal ->
  forall op effs l ul h uh m x, unit_of energy_dim ul -> unit_of energy_dim uh -> h <> [] -> match x with AQty a => qu_dim (qa_unit a) <> angle_dim | APlain _ => True end ->
  exists e, q_optimize_gh_cut brentq sf sa qs qb bins alpha mn mx ms me mb op effs (mkQCuts (AQty (mkQA l ul)) (AQty (mkQA h uh)) m x) = Err e.
Proof.
  intros (S1 & (es & us & S2 & S2') & S3 & _) (th & ut & T1 & T2) op effs l ul h uh m x U1 U2 Hh Hx.
  unfold q_optimize_gh_cut. rewrite (get_in _ _ _ _ S1 T1), (get_in _ _ _ _ S1 S2). cbn [rbind].
  unfold q_evaluate_binned_cut. cbn [qc_low qc_high qc_cut plain_unit qa_val qa_unit]. destruct h as [|h0 h]; [contradiction|]. cbn [map].
  rewrite (proj1 U1), (proj1 U2), deqb_same. destruct x as [c|[c w]]; [eexists; reflexivity|]. cbn [qa_unit] in Hx.
  unfold evaluate_binned_cut_q. cbn [qa_val qa_unit]. rewrite (angle_number ut) by apply T2. cbn [u_dim].
  destruct (evaluate_binned_cut true th _ _ _ _ _ _) as [k|e]; cbn [rbind]; [|eexists; reflexivity].
  destruct (Nat.eqb_spec (u_dim (as_unit w)) 2) as [E|E]; [exfalso; now apply (other_angle _ Hx)|]. eexists. reflexivity.
Qed.
