(** * CutOptUnitsWitness: every list of events can be given in GeV and degree *)
From Coq Require Import String Reals List Bool ZArith Arith Lia Lra.
From Verif Require Import Num Numpy Table Binning Cuts CutUnits Sensitivity CutOptimization Quantities SpectralUnits SimulationUnits IRFUnits
  SensitivityUnits CutOptimizationUnits SpecUnits SpecIRFUnits SpecSensUnits SpecCutUnits SpecCutOptUnits.
Import ListNotations.
Open Scope R_scope.

Definition to_gev (l : list num) : array_arg := AQty (mkQA (map (fun x => nmul x (Fin 1000)) l) GeV).
Definition to_deg (l : list num) : array_arg := AQty (mkQA (map (fun x => nmul x (Fin (180 / PI))) l) deg).
Definition in_gev (hw hp : bool) (evs : list opt_event) : qevents :=
  mkQE (List.length evs)
    [("reco_energy", to_gev (map o_energy evs)); ("theta", to_deg (map o_theta evs)); ("reco_source_fov_offset", to_deg (map o_offset evs));
     ("gh_score", APlain (map o_gh evs)); ("multiplicity", APlain (map o_mult evs))]%string
    (if hw then Some (map (fun e => ev_w (o_ev e)) evs) else None) (if hp then Some (map (fun e => ev_p (o_ev e)) evs) else None).
Lemma num_scaled a c (l : list num) : 0 < a -> a * c = 1 -> l = map (fun x => nmul x (Fin c)) (map (fun x => nmul x (Fin a)) l).
Proof.
  intros A E. assert (0 < c) by (apply (Rmult_lt_reg_l a); lra). rewrite map_map. rewrite <- (map_id l) at 1. apply map_ext. intros [r| | |]; cbn; unfold inf_signed; rsolve; cbn; unfold inf_signed; rsolve; auto.
  f_equal. rewrite Rmult_assoc, E. ring.
Qed.
Lemma gev_numbers l : numbers energy_dim tev (map (fun x => nmul x (Fin 1000)) l) GeV l.
Proof. split; [split; [reflexivity|cbn; unfold eV_in_J; lra]|]. apply num_scaled; [lra|]. cbn [qu_scale GeV]. unfold eV_in_J, tev. field. Qed.
Lemma deg_numbers l : numbers angle_dim 1 (map (fun x => nmul x (Fin (180 / PI))) l) deg l.
Proof.
  pose proof PI_RGT_0. assert (0 < 180 / PI) by (apply Rdiv_lt_0_compat; lra).
  split; [split; [reflexivity|cbn; apply Rdiv_lt_0_compat; lra]|]. apply num_scaled; [auto|]. cbn [qu_scale deg]. field. lra.
Qed.
Lemma deg_scalar x : in_radian (mkQ (nmul x (Fin (180 / PI))) deg) x.
Proof.
  destruct (deg_numbers [x]) as (U & E). split; [exact U|]. cbn [q_val q_unit]. cbn [map] in E. injection E as E1.
  rewrite E1 at 1. do 2 f_equal. cbn [qu_scale deg]. field.
Qed.
Lemma in_gev_holds hw hp evs : holds_events (in_gev hw hp evs) hw hp evs /\ has_theta (in_gev hw hp evs) evs /\ has_offset (in_gev hw hp evs) evs /\ has_multiplicity (in_gev hw hp evs) evs.
Proof.
  split; [|split; [|split]].
  - split; [|split; [|split; [|split]]]; try reflexivity.
    + split; [reflexivity|]. split.
      * cbn. repeat constructor; cbn; intuition discriminate.
      * split; [|split; [|split]]; cbn [qe_columns qe_weight qe_ptype in_gev].
        -- intros n l I. unfold to_gev, to_deg in I. cbn in I. destruct I as [I|[I|[I|[I|[I|[]]]]]]; inversion I; now rewrite map_length.
        -- intros n l u I. unfold to_gev, to_deg in I. cbn in I. destruct I as [I|[I|[I|[I|[I|[]]]]]]; inversion I; now rewrite !map_length.
        -- intros w I. destruct hw; inversion I. now rewrite map_length.
        -- intros w I. destruct hp; inversion I. now rewrite map_length.
    + do 2 eexists. split; [left; reflexivity|apply gev_numbers].
    + cbn. tauto.
  - do 2 eexists. split; [right; left; reflexivity|apply deg_numbers].
  - do 2 eexists. split; [right; right; left; reflexivity|apply deg_numbers].
  - cbn. unfold has_multiplicity. cbn. tauto.
Qed.
