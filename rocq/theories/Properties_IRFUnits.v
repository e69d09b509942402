(** * Properties_IRFUnits: instrument responses do not depend on units (C71) *)
From Coq Require Import String Reals List Bool ZArith Lia Lra.
From Verif Require Import Num Numpy Table Binning Simulations Tensor IRF Quantities SpectralUnits SimulationUnits IRFUnits SpecUnits SpecIRFUnits SpecBinning BinningWitness BinningWitness IRFUnitsProofs.
Import ListNotations.
Open Scope R_scope.

(** ** C71.  Events, bins and simulation in any units: the same exception, or physically the same response as for the numbers in
    TeV and degree (position angles in rad, times in s), which Properties_IRF.v is about *)
Theorem C71_area_per_energy : forall s q t events bins u b, sim_measures s q -> has_rows t (List.length (et_rows events)) ->
  has_column t "true_energy" energy_dim tev (map ev_x (et_rows events)) -> numbers energy_dim tev bins u b ->
  same_outcome area_dim 1 (q_effective_area_per_energy t q (AQty (mkQA bins u))) (effective_area_per_energy events s b).
Proof. exact c71_area_energy. Qed.
Print Assumptions C71_area_per_energy.
Theorem C71_area_per_energy_and_fov : forall s q t evs ebins u eb fov v fb, sim_measures s q -> has_rows t (List.length evs) ->
  has_column t "true_energy" energy_dim tev (map true_energy evs) -> has_column t "true_source_fov_offset" angle_dim one_degree (map true_fov_offset evs) ->
  numbers energy_dim tev ebins u eb -> reals angle_dim one_degree fov v fb ->
  same_outcome area_dim 1 (q_effective_area_per_energy_and_fov t q (AQty (mkQA ebins u)) (GQty fov v)) (effective_area_per_energy_and_fov evs s eb fb).
Proof. exact c71_area_fov. Qed.
Print Assumptions C71_area_per_energy_and_fov.
Theorem C71_area_3d_polar : forall s q t evs ebins u eb fov v fb pa w pb, sim_measures s q -> has_rows t (List.length evs) ->
  has_column t "true_energy" energy_dim tev (map true_energy evs) -> has_column t "true_source_fov_offset" angle_dim one_degree (map true_fov_offset evs) ->
  has_column t "true_source_fov_position_angle" angle_dim 1 (map true_fov_pa evs) ->
  numbers energy_dim tev ebins u eb -> reals angle_dim one_degree fov v fb -> reals angle_dim 1 pa w pb ->
  same_outcome area_dim 1 (q_effective_area_3d_polar t q (AQty (mkQA ebins u)) (GQty fov v) (GQty pa w)) (effective_area_3d_polar evs s eb fb pb).
Proof. exact c71_area_polar. Qed.
Print Assumptions C71_area_3d_polar.
Theorem C71_energy_dispersion : forall t evs ebins u eb fov v fb mb, has_rows t (List.length evs) ->
  has_column t "true_energy" energy_dim tev (map true_energy evs) -> has_column t "reco_energy" energy_dim tev (map reco_energy evs) ->
  has_column t "true_source_fov_offset" angle_dim one_degree (map true_fov_offset evs) ->
  numbers energy_dim tev ebins u eb -> numbers angle_dim one_degree fov v fb ->
  q_energy_dispersion t (AQty (mkQA ebins u)) (AQty (mkQA fov v)) mb = energy_dispersion evs eb fb mb.
Proof. exact c71_dispersion. Qed.
Print Assumptions C71_energy_dispersion.
Theorem C71_migration_matrix : forall t evs ebins u eb rbins w rb fov v fb, has_rows t (List.length evs) ->
  has_column t "true_energy" energy_dim tev (map true_energy evs) -> has_column t "reco_energy" energy_dim tev (map reco_energy evs) ->
  has_column t "true_source_fov_offset" angle_dim one_degree (map true_fov_offset evs) ->
  numbers energy_dim tev ebins u eb -> numbers energy_dim tev rbins w rb -> numbers angle_dim one_degree fov v fb ->
  q_energy_migration_matrix t (AQty (mkQA ebins u)) (AQty (mkQA rbins w)) (AQty (mkQA fov v)) = energy_migration_matrix evs eb rb fb.
Proof. exact c71_migration. Qed.
Print Assumptions C71_migration_matrix.
Theorem C71_dispersion_to_migration : forall itp disp nt nm nf de ud de' mig ne un ne' re ur re', scale_free itp ->
  reals energy_dim tev de ud de' -> reals energy_dim tev ne un ne' -> reals energy_dim tev re ur re' -> (forall e, In e ne -> 0 < e) ->
  q_energy_dispersion_to_migration itp disp nt nm nf (de, ud) mig (ne, un) (re, ur) = energy_dispersion_to_migration itp disp nt nm nf de' mig ne' re'.
Proof. exact c71_to_migration. Qed.
Print Assumptions C71_dispersion_to_migration.
Theorem C71_psf_table : forall t evs ebins u eb src w sb fov v fb, has_rows t (List.length evs) ->
  has_column t "true_energy" energy_dim tev (map true_energy evs) -> has_column t "true_source_fov_offset" angle_dim one_degree (map true_fov_offset evs) ->
  has_column t "theta" angle_dim one_degree (map theta evs) ->
  numbers energy_dim tev ebins u eb -> reals angle_dim one_degree src w sb -> numbers angle_dim one_degree fov v fb ->
  same_outcome per_solid_angle_dim 1 (q_psf_table t (AQty (mkQA ebins u)) (GQty src w) (AQty (mkQA fov v))) (psf_table evs eb sb fb).
Proof. exact c71_psf. Qed.
Print Assumptions C71_psf_table.
Theorem C71_background_2d : forall t evs ebins u eb fov v fb obs ut tobs, has_rows t (List.length evs) ->
  has_column t "reco_energy" energy_dim tev (map reco_energy evs) -> has_column t "reco_source_fov_offset" angle_dim one_degree (map reco_fov_offset evs) ->
  qe_weight t = Some (map weight evs) ->
  numbers energy_dim tev ebins u eb -> reals angle_dim one_degree fov v fb -> in_si time_dim obs ut tobs ->
  same_outcome background_dim (/ tev) (q_background_2d t (AQty (mkQA ebins u)) (GQty fov v) (FQty obs ut)) (background_2d evs eb fb tobs).
Proof. exact c71_background_2d. Qed.
Print Assumptions C71_background_2d.
Theorem C71_background_3d_lonlat : forall t evs ebins u eb lon v lo lat v' la obs ut tobs, has_rows t (List.length evs) ->
  has_column t "reco_energy" energy_dim tev (map reco_energy evs) -> has_column t "reco_source_fov_lon" angle_dim one_degree (map reco_fov_lon evs) ->
  has_column t "reco_source_fov_lat" angle_dim one_degree (map reco_fov_lat evs) -> qe_weight t = Some (map weight evs) ->
  numbers energy_dim tev ebins u eb -> reals angle_dim one_degree lon v lo -> reals angle_dim one_degree lat v' la -> in_si time_dim obs ut tobs ->
  same_outcome background_dim (/ tev) (q_background_3d_lonlat t (AQty (mkQA ebins u)) (GQty lon v) (GQty lat v') (FQty obs ut)) (background_3d_lonlat evs eb lo la tobs).
Proof. exact c71_background_3d. Qed.
Print Assumptions C71_background_3d_lonlat.

(** only columns, bins and times with a unit of the right dimension are accepted *)
Theorem C71_accepts_area_per_energy : forall t q e r, q_effective_area_per_energy t q e = Ok r -> with_dimension t "true_energy" energy_dim /\ array_of energy_dim e.
Proof. exact c71_accepts_area_energy. Qed.
Print Assumptions C71_accepts_area_per_energy.
Theorem C71_accepts_area_per_energy_and_fov : forall t q e f r, q_effective_area_per_energy_and_fov t q e f = Ok r ->
  with_dimension t "true_energy" energy_dim /\ with_dimension t "true_source_fov_offset" angle_dim /\ array_of energy_dim e /\ angles_of angle_dim f.
Proof. exact c71_accepts_area_fov. Qed.
Print Assumptions C71_accepts_area_per_energy_and_fov.
Theorem C71_accepts_area_3d_polar : forall t q e f p r, q_effective_area_3d_polar t q e f p = Ok r ->
  with_dimension t "true_energy" energy_dim /\ with_dimension t "true_source_fov_offset" angle_dim /\ with_dimension t "true_source_fov_position_angle" angle_dim /\
  array_of energy_dim e /\ angles_of angle_dim f /\ angles_of angle_dim p.
Proof. exact c71_accepts_area_polar. Qed.
Print Assumptions C71_accepts_area_3d_polar.
Theorem C71_accepts_energy_dispersion : forall t e f m r, q_energy_dispersion t e f m = Ok r ->
  with_dimension t "true_energy" energy_dim /\ with_dimension t "reco_energy" energy_dim /\ with_dimension t "true_source_fov_offset" angle_dim /\ array_of energy_dim e /\ array_of angle_dim f.
Proof. exact c71_accepts_dispersion. Qed.
Print Assumptions C71_accepts_energy_dispersion.
Theorem C71_accepts_migration_matrix : forall t e g f r, q_energy_migration_matrix t e g f = Ok r ->
  with_dimension t "true_energy" energy_dim /\ with_dimension t "reco_energy" energy_dim /\ with_dimension t "true_source_fov_offset" angle_dim /\
  array_of energy_dim e /\ array_of energy_dim g /\ array_of angle_dim f.
Proof. exact c71_accepts_migration. Qed.
Print Assumptions C71_accepts_migration_matrix.
Theorem C71_accepts_psf_table : forall t e s f r, q_psf_table t e s f = Ok r ->
  with_dimension t "true_energy" energy_dim /\ with_dimension t "true_source_fov_offset" angle_dim /\ with_dimension t "theta" angle_dim /\
  array_of energy_dim e /\ angles_of angle_dim s /\ array_of angle_dim f.
Proof. exact c71_accepts_psf. Qed.
Print Assumptions C71_accepts_psf_table.
Theorem C71_accepts_background_2d : forall t e f o r, q_background_2d t e f o = Ok r ->
  with_dimension t "reco_energy" energy_dim /\ with_dimension t "reco_source_fov_offset" angle_dim /\ (exists w, qe_weight t = Some w) /\
  array_of energy_dim e /\ angles_of angle_dim f /\ exists x u, o = FQty x u /\ qu_dim u = time_dim.
Proof. exact c71_accepts_background_2d. Qed.
Print Assumptions C71_accepts_background_2d.
Theorem C71_accepts_background_3d_lonlat : forall t e f g o r, q_background_3d_lonlat t e f g o = Ok r ->
  with_dimension t "reco_energy" energy_dim /\ with_dimension t "reco_source_fov_lon" angle_dim /\ with_dimension t "reco_source_fov_lat" angle_dim /\ (exists w, qe_weight t = Some w) /\
  array_of energy_dim e /\ angles_of angle_dim f /\ angles_of angle_dim g /\ exists x u, o = FQty x u /\ qu_dim u = time_dim.
Proof. exact c71_accepts_background_3d. Qed.
Print Assumptions C71_accepts_background_3d_lonlat.

(** a table of two events in GeV and rad; energy bins in GeV, fov bins in degree; the time in hours *)
Definition events_gev : qevents := mkQE 2
  [("true_energy", AQty (mkQA [Fin 2000; Fin 5000] GeV)); ("reco_energy", AQty (mkQA [Fin 2; Fin 4] TeV));
   ("true_source_fov_offset", AQty (mkQA [Fin (PI / 180); Fin (PI / 90)] rad)); ("reco_source_fov_offset", AQty (mkQA [Fin 1; Fin 2] deg))]%string
  (Some [1; 1]) None.
Definition event_tev (t r o : R) : dl2 := mkDL2 (Fin t) (Fin r) (Fin o) (Fin 0) (Fin 0) (Fin 0) (Fin 0) (Fin o) (Fin 0) (Fin 0) 1.
Definition events_tev : list dl2 := [event_tev 2 2 1; event_tev 5 4 2].
Lemma gev_unit : unit_of energy_dim GeV. Proof. split; [reflexivity|cbn; unfold eV_in_J; lra]. Qed.
Lemma tev_unit : unit_of energy_dim TeV. Proof. split; [reflexivity|cbn; unfold eV_in_J; lra]. Qed.
Lemma deg_unit_ : unit_of angle_dim deg. Proof. split; [reflexivity|cbn; pose proof PI_RGT_0; lra]. Qed.
Lemma rad_unit_ : unit_of angle_dim rad. Proof. split; [reflexivity|cbn; lra]. Qed.
Example C71_example : has_rows events_gev (List.length events_tev) /\
  has_column events_gev "true_energy" energy_dim tev (map true_energy events_tev) /\
  has_column events_gev "reco_energy" energy_dim tev (map reco_energy events_tev) /\
  has_column events_gev "true_source_fov_offset" angle_dim one_degree (map true_fov_offset events_tev) /\
  has_column events_gev "reco_source_fov_offset" angle_dim one_degree (map reco_fov_offset events_tev) /\
  qe_weight events_gev = Some (map weight events_tev) /\
  numbers energy_dim tev [Fin 1000; Fin 10000; PInf] GeV [Fin 1; Fin 10; PInf] /\ reals angle_dim one_degree [0; 5] deg [0; 5] /\ in_si time_dim 50 hour 180000.
Proof.
  pose proof PI_RGT_0 as HP.
  assert (G : forall x, nmul (Fin x) (Fin (qu_scale GeV / tev)) = Fin (x / 1000)) by (intros x; cbn [nmul]; f_equal; cbn; unfold eV_in_J, tev; field).
  assert (T : forall x, nmul (Fin x) (Fin (qu_scale TeV / tev)) = Fin x) by (intros x; cbn [nmul]; f_equal; cbn; unfold eV_in_J, tev; field).
  assert (D : forall x, nmul (Fin x) (Fin (qu_scale deg / one_degree)) = Fin x) by (intros x; cbn [nmul]; f_equal; cbn; unfold one_degree; field; lra).
  assert (Q : forall x, nmul (Fin x) (Fin (qu_scale rad / one_degree)) = Fin (x * (180 / PI))) by (intros x; cbn [nmul]; f_equal; cbn; unfold one_degree; field; lra).
  split; [|split; [|split; [|split; [|split; [|split; [|split; [|split]]]]]]].
  - split; [reflexivity|]. split; [|split; [|split; [|split]]].
    + cbn. repeat (constructor; [cbn; intuition discriminate|]). constructor.
    + intros name l I. cbn in I. repeat (destruct I as [I|I]; [discriminate|]). destruct I.
    + intros name l u I. cbn in I. repeat (destruct I as [I|I]; [injection I as <- <- <-; reflexivity|]). destruct I.
    + intros w E. injection E as <-. reflexivity.
    + intros p E. discriminate.
  - do 2 eexists. split; [left; reflexivity|]. split; [apply gev_unit|]. cbn [map events_tev event_tev true_energy]. rewrite !G. repeat f_equal; lra.
  - do 2 eexists. split; [right; left; reflexivity|]. split; [apply tev_unit|]. cbn [map events_tev event_tev reco_energy]. rewrite !T. reflexivity.
  - do 2 eexists. split; [right; right; left; reflexivity|]. split; [apply rad_unit_|]. cbn [map events_tev event_tev true_fov_offset]. rewrite !Q. repeat f_equal; field; lra.
  - do 2 eexists. split; [right; right; right; left; reflexivity|]. split; [apply deg_unit_|]. cbn [map events_tev event_tev reco_fov_offset]. rewrite !D. reflexivity.
  - reflexivity.
  - split; [apply gev_unit|]. cbn [map]. rewrite !G. cbn [nmul]. unfold inf_signed. assert (0 < qu_scale GeV / tev) by (cbn; unfold eV_in_J, tev; lra). rsolve. repeat f_equal; lra.
  - split; [apply deg_unit_|]. cbn [map]. replace (qu_scale deg / one_degree) with 1 by (cbn; unfold one_degree; field; lra). repeat f_equal; lra.
  - repeat split; cbn; lra.
Qed.
(** interpolations that do not depend on the unit and pass through their knots exist *)
Example C71_interpolation : scale_free lookup /\ (forall xs ys i x y, SpecBinning.increasing xs ->
  nth_error xs i = Some x -> nth_error ys i = Some y -> lookup xs ys x = y) /\ lookup [1; 2; 4] [0; 1 / 2; 1] 2 = 1 / 2.
Proof.
  split; [|split; [exact lookup_passes|cbn [lookup]; rsolve; reflexivity]].
  intros c xs ys x Hc. revert ys. induction xs as [|a xs IH]; intros [|b ys]; cbn [map lookup]; try reflexivity.
  destruct (Reqb_spec (a * c) (x * c)) as [E|E], (Reqb_spec a x) as [F|F]; auto.
  - exfalso. apply F. apply (Rmult_eq_reg_r c); lra.
  - exfalso. apply E. subst; reflexivity.
Qed.
