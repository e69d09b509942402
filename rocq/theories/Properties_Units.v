(** * C68: spectra with units *)
From Coq Require Import Reals ZArith Lra String List Bool.
From Verif Require Import Num Simulations Spectral Quantities SpectralUnits SpecUnits SpectralUnitsProofs SpectralUnitsProofs2 SpectralUnitsProofs3 SpectralUnitsProofs4 SimulationUnits SimulationUnitsProofs.
Import ListNotations.
Open Scope R_scope.

(** Evaluating a spectrum whose normalisation and reference energy are in any units, at energies in any unit, gives the
    fluxes of the same spectrum in TeV, s, m, sr. *)
Theorem C68_call : forall s q energies u, measures s q -> unit_of energy_dim u ->
  exists values v, qcall q (AQty (mkQA energies u)) = Ok (mkQA values v) /\ List.length values = List.length energies /\
    forall i e f, nth_error energies i = Some e -> nth_error values i = Some f -> forall E, in_tev e u E ->
      in_flux_unit f v (snd (call s E)) (fst (call s E)).
Proof. exact c68_call. Qed.
Print Assumptions C68_call.
(** Physically equal spectra at physically equal energies give physically equal fluxes. *)
Theorem C68_unit_independent : forall s q q' energies energies' u u', measures s q -> measures s q' -> unit_of energy_dim u -> unit_of energy_dim u' ->
  Forall2 (fun e e' => same_quantity e u e' u') energies energies' ->
  exists values v values' v', qcall q (AQty (mkQA energies u)) = Ok (mkQA values v) /\ qcall q' (AQty (mkQA energies' u')) = Ok (mkQA values' v') /\
    Forall2 (fun f f' => same_quantity f v f' v') values values'.
Proof. exact c68_same. Qed.
Print Assumptions C68_unit_independent.
Theorem C68_call_errors : forall q, (forall l, qcall q (APlain l) = Err TypeError) /\
  (forall l u, qu_dim u <> energy_dim -> qcall q (AQty (mkQA l u)) = Err UnitsError).
Proof. exact c68_call_errors. Qed.
Print Assumptions C68_call_errors.
(** The constructors accept exactly a flux (per solid angle or not), an energy and an index that is not positive. *)
Theorem C68_power_law : forall n i e s, q_power_law n i e = Ok s <->
  i <= 0 /\ exists q r, n = Qty q /\ e = Qty r /\ (exists k, qu_dim (q_unit q) = flux_dim k) /\ qu_dim (q_unit r) = energy_dim /\ s = QPowerLaw q i r.
Proof. exact c68_init. Qed.
Print Assumptions C68_power_law.
Theorem C68_power_law_errors : forall n i e,
  match n, e with
  | Plain _, _ => q_power_law n i e = Err TypeError
  | Qty q, Plain _ => (exists k, qu_dim (q_unit q) = flux_dim k) -> q_power_law n i e = Err TypeError
  | Qty q, Qty r =>
      ((forall k, qu_dim (q_unit q) <> flux_dim k) -> q_power_law n i e = Err UnitsError) /\
      ((exists k, qu_dim (q_unit q) = flux_dim k) -> qu_dim (q_unit r) <> energy_dim -> q_power_law n i e = Err UnitsError) /\
      ((exists k, qu_dim (q_unit q) = flux_dim k) -> qu_dim (q_unit r) = energy_dim -> 0 < i -> q_power_law n i e = Err ValueError)
  end.
Proof. exact c68_init_errors. Qed.
Print Assumptions C68_power_law_errors.
Theorem C68_log_parabola : forall n a b e s, q_log_parabola n a b e = Ok s <->
  exists q r, n = Qty q /\ e = Qty r /\ (exists k, qu_dim (q_unit q) = flux_dim k) /\ qu_dim (q_unit r) = energy_dim /\ s = QLogParabola q a b r.
Proof. exact c68_init_log_parabola. Qed.
Print Assumptions C68_log_parabola.
Theorem C68_exp_gauss : forall n i e f mu sg s, q_exp_gauss n i e f mu sg = Ok s <->
  i <= 0 /\ exists q r, n = Qty q /\ e = Qty r /\ (exists k, qu_dim (q_unit q) = flux_dim k) /\ qu_dim (q_unit r) = energy_dim /\ s = QExpGauss q i r f mu sg.
Proof. exact c68_init_exp_gauss. Qed.
Print Assumptions C68_exp_gauss.
(** The spectrum of a simulation does not depend on the units of the simulation, the observation time and the reference
    energy; it keeps the reference energy as given, and its normalisation is in 1/(TeV s m2), per sr for a diffuse simulation. *)
Theorem C68_from_simulation : forall s q xt ut T xe ue E, sim_measures s q -> 0 < energy_min s -> 0 < energy_max s -> 0 < E ->
  in_si time_dim xt ut T -> in_tev (Fin xe) ue (Fin E) ->
  match from_simulation s T E with
  | Ok p => exists n, q_from_simulation q (Qty (mkQ (Fin xt) ut)) (Qty (mkQ (Fin xe) ue)) = Ok (QPowerLaw n (pl_index p) (mkQ (Fin xe) ue)) /\
      measures (PowerLaw p) (QPowerLaw n (pl_index p) (mkQ (Fin xe) ue)) /\
      q_unit n = match pl_unit p with PointSource => POINT_SOURCE_FLUX_UNIT | Diffuse => DIFFUSE_FLUX_UNIT end
  | Err e => q_from_simulation q (Qty (mkQ (Fin xt) ut)) (Qty (mkQ (Fin xe) ue)) = Err e
  end.
Proof. exact c68_from_simulation. Qed.
Print Assumptions C68_from_simulation.
Theorem C68_integrate_cone : forall s q xi ui xo uo inner outer, measures s q -> in_si angle_dim xi ui inner -> in_si angle_dim xo uo outer ->
  match integrate_cone s inner outer with
  | Ok s' => exists q', q_integrate_cone q (Qty (mkQ (Fin xi) ui)) (Qty (mkQ (Fin xo) uo)) = Ok q' /\ measures s' q'
  | Err e => q_integrate_cone q (Qty (mkQ (Fin xi) ui)) (Qty (mkQ (Fin xo) uo)) = Err e
  end.
Proof. exact c68_integrate_cone. Qed.
Print Assumptions C68_integrate_cone.
(** Event weights are the same numbers whatever units the spectra and the energies are in; a point-source and a diffuse
    spectrum cannot be combined. *)
Theorem C68_weights : forall t s qt qs energies u, measures t qt -> measures s qs -> unit_of energy_dim u ->
  q_event_weights (AQty (mkQA energies u)) (qcall qt) (qcall qs) =
  calculate_event_weights (map (fun e => nmul e (Fin (qu_scale u / tev))) energies) (as_callable t) (as_callable s).
Proof. exact c68_weights. Qed.
Print Assumptions C68_weights.
Theorem C68_weights_errors : forall qt qs, (forall l, q_event_weights (APlain l) (qcall qt) (qcall qs) = Err TypeError) /\
  (forall l u, qu_dim u <> energy_dim -> q_event_weights (AQty (mkQA l u)) (qcall qt) (qcall qs) = Err UnitsError).
Proof. exact c68_weights_errors. Qed.
Print Assumptions C68_weights_errors.
(** Interpolated tables: the energies in any unit; the fluxes come in the unit of the flux column. *)
Theorem C68_table : forall energies fluxes ue uf le lf r ur, unit_of energy_dim ue -> unit_of energy_dim ur -> r <> 0 ->
  exists t, qtable_init (mkCol energies ue) (mkCol fluxes uf) le lf (r, ur) = Ok t /\
    forall x u, unit_of energy_dim u ->
      qtable_call t (x, u) = Ok (option_map (fun y => (y, uf))
        (table_call (table_init (map (fun e => e * (qu_scale ue / tev)) energies) fluxes le lf (r * (qu_scale ur / tev))) (x * (qu_scale u / tev)))).
Proof. exact c68_table. Qed.
Print Assumptions C68_table.
(** The same table in other units gives the same fluxes. *)
Theorem C68_table_unit_independent : forall e f ue uf e' f' ue' uf' le lf r ur r' ur' x u x' u',
  unit_of energy_dim ue -> unit_of energy_dim ue' -> unit_of energy_dim ur -> unit_of energy_dim ur' -> unit_of energy_dim u -> unit_of energy_dim u' ->
  0 < qu_scale uf -> 0 < qu_scale uf' -> qu_dim uf = qu_dim uf' -> r <> 0 -> (lf = true -> Forall (fun y => 0 < y) f) ->
  Forall2 (fun a b => same_real (a, ue) (b, ue')) e e' -> Forall2 (fun a b => same_real (a, uf) (b, uf')) f f' ->
  same_real (r, ur) (r', ur') -> same_real (x, u) (x', u') ->
  exists t t', qtable_init (mkCol e ue) (mkCol f uf) le lf (r, ur) = Ok t /\ qtable_init (mkCol e' ue') (mkCol f' uf') le lf (r', ur') = Ok t' /\
    ((qtable_call t (x, u) = Ok None /\ qtable_call t' (x', u') = Ok None) \/
     exists y y', qtable_call t (x, u) = Ok (Some (y, uf)) /\ qtable_call t' (x', u') = Ok (Some (y', uf')) /\ same_real (y, uf) (y', uf')).
Proof. exact c68_table_same. Qed.
Print Assumptions C68_table_unit_independent.
Theorem C68_table_errors : forall energies fluxes ue uf le lf r ur, qu_dim ue <> qu_dim ur ->
  qtable_init (mkCol energies ue) (mkCol fluxes uf) le lf (r, ur) = Err UnitConversionError.
Proof. exact c68_table_errors. Qed.
Print Assumptions C68_table_errors.
Theorem C68_table_call_errors : forall t x u, qu_dim u <> qu_dim (snd (qt_ref t)) -> qtable_call t (x, u) = Err UnitConversionError.
Proof. exact c68_table_call_errors. Qed.
Print Assumptions C68_table_call_errors.
Theorem C68_from_table : forall table le lf ref e f, column table "energy" = Ok e -> column table "flux" = Ok f -> from_table table le lf ref = qtable_init e f le lf ref.
Proof. exact c68_from_table. Qed.
Print Assumptions C68_from_table.
Theorem C68_from_table_errors : forall table le lf ref,
  (forall c, ~ In ("energy"%string, c) table) \/ ((exists c, column table "energy" = Ok c) /\ forall c, ~ In ("flux"%string, c) table) ->
  from_table table le lf ref = Err KeyError.
Proof. exact c68_from_table_errors. Qed.
Print Assumptions C68_from_table_errors.
(** The spectra of the module, in 1/(TeV s m2) (sr) and TeV. *)
Theorem C68_crab_hegra : exists q, CRAB_HEGRA = Ok q /\ measures (PowerLaw (mkPL (Fin (283 / 10 ^ 9)) PointSource (- (262 / 100)) 1)) q.
Proof. exact c68_crab_hegra. Qed.
Print Assumptions C68_crab_hegra.
Theorem C68_crab_magic : exists q, CRAB_MAGIC_JHEAP2015 = Ok q /\ measures (LogParabola (Fin (323 / 10 ^ 9)) PointSource (- (247 / 100)) (- (24 / 100)) 1) q.
Proof. exact c68_crab_magic. Qed.
Print Assumptions C68_crab_magic.
Theorem C68_pdg : exists q, PDG_ALL_PARTICLE = Ok q /\ measures (PowerLaw (mkPL (Fin (18 * 10 ^ 6)) Diffuse (- (27 / 10)) (1 / 1000))) q.
Proof. exact c68_pdg. Qed.
Print Assumptions C68_pdg.
Theorem C68_proton : exists q, IRFDOC_PROTON_SPECTRUM = Ok q /\ measures (PowerLaw (mkPL (Fin (98 / 10 ^ 3)) Diffuse (- (262 / 100)) 1)) q.
Proof. exact c68_proton. Qed.
Print Assumptions C68_proton.
Theorem C68_electron : exists q, IRFDOC_ELECTRON_SPECTRUM = Ok q /\
  measures (ExpGauss (mkPL (Fin (2385 / 10 ^ 8)) Diffuse (- (343 / 100)) 1) (195 / 100) (- (101 / 1000)) (741 / 1000)) q.
Proof. exact c68_electron. Qed.
Print Assumptions C68_electron.

(** ** the hypotheses are met *)
Example C68_gev : in_tev (Fin 500) GeV (Fin (1 / 2)).
Proof. split; [split; [reflexivity|cbn; unfold eV_in_J; lra]|]. cbn [nmul]. f_equal. cbn. unfold eV_in_J, tev. field. Qed.
Example C68_simulation_deg_gev : sim_measures
  (mkSim 1000000 (1 / 100) 100 2000 (-2) 0 (10 * (PI / 180)))
  (mkQSim 1000000 (10, GeV) (100, TeV) (200000, cm) (-2) (0, rad) (10, deg)).
Proof.
  pose proof PI_RGT_0. repeat split; try reflexivity; try (cbn; unfold eV_in_J; lra);
    try (cbn; unfold eV_in_J, tev; f_equal; field); cbn; lra.
Qed.
Example C68_time : in_si time_dim 50 hour 180000.
Proof. repeat split; cbn; lra. Qed.
Example C68_same_energy : same_quantity (Fin 500) GeV (Fin (1 / 2)) TeV.
Proof. split; [reflexivity|]. cbn. f_equal. unfold eV_in_J. field. Qed.
Example C68_wrong_energy : qu_dim metre <> energy_dim /\ qu_dim deg <> qu_dim TeV.
Proof. split; intros H; apply (f_equal d_mass) in H; cbn in H; lra. Qed.
Example C68_table_flux : exists t y, from_table [("energy"%string, mkCol [100; 1000] GeV); ("flux"%string, mkCol [4; 2] POINT_SOURCE_FLUX_UNIT)] false false (1, TeV) = Ok t /\
  qtable_call t (550, GeV) = Ok (Some (y, POINT_SOURCE_FLUX_UNIT)).
Proof.
  assert (G : unit_of energy_dim GeV) by (split; [reflexivity|cbn; unfold eV_in_J; lra]).
  destruct (c68_table [100; 1000] [4; 2] GeV POINT_SOURCE_FLUX_UNIT false false 1 TeV G TeV_unit ltac:(lra)) as (t & Et & Ct).
  unfold from_table, column. cbn [find fst snd String.eqb Ascii.eqb Bool.eqb rbind]. exists t. rewrite Et, (Ct 550 GeV G).
  unfold table_call. cbn [ts_points ts_log_energy ts_log_flux ts_ref table_init map combine].
  match goal with |- context [interp1d_extrapolate ?P ?x] => destruct (SpectralProofs.interp1d_polygon P x) as (y & Ey & _) end.
  - cbn [map fst]. constructor; [|constructor; [intros []|constructor]]. cbn [In]. intros [H|[]]. cbn in H. unfold eV_in_J, tev in H. field_simplify in H; lra.
  - cbn [List.length]. auto.
  - rewrite Ey. eexists. split; reflexivity.
Qed.

(** * C69: simulations with units *)
Theorem C69_init : forall n a b c i d e q, q_sim_info n a b c i d e = Ok q <->
  exists xa ua xb ub xc uc xd ud xe ue, a = FQty xa ua /\ b = FQty xb ub /\ c = FQty xc uc /\ d = FQty xd ud /\ e = FQty xe ue /\
    qu_dim ua = energy_dim /\ qu_dim ub = energy_dim /\ qu_dim uc = length_dim /\ qu_dim ud = angle_dim /\ qu_dim ue = angle_dim /\ i <= -1 /\
    q = mkQSim n (xa, ua) (xb, ub) (xc, uc) i (xd, ud) (xe, ue).
Proof. exact c69_init. Qed.
Print Assumptions C69_init.
Theorem C69_init_errors : forall n a b c i d e err, q_sim_info n a b c i d e = Err err ->
  (err = TypeError /\ exists x, In (FPlain x) [a; b; c; d; e]) \/
  (err = UnitsError /\ exists x u, (In (FQty x u) [a; b] /\ qu_dim u <> energy_dim) \/ (c = FQty x u /\ qu_dim u <> length_dim) \/ (In (FQty x u) [d; e] /\ qu_dim u <> angle_dim)) \/
  (err = ValueError /\ -1 < i).
Proof. exact c69_init_errors. Qed.
Print Assumptions C69_init_errors.
(** The expected numbers are those of the same simulation and bins in TeV and rad, which Properties_Simulations.v is about. *)
Theorem C69_per_energy : forall s q bins u, sim_measures s q -> unit_of energy_dim u ->
  q_n_showers_per_energy q (AQty (mkQA bins u)) = Ok (calculate_n_showers_per_energy s (map (fun e => nmul e (Fin (qu_scale u / tev))) bins)).
Proof. exact c69_per_energy. Qed.
Print Assumptions C69_per_energy.
Theorem C69_energy_errors : forall q, (forall l, q_n_showers_per_energy q (APlain l) = Err TypeError) /\
  (forall l u, qu_dim u <> energy_dim -> q_n_showers_per_energy q (AQty (mkQA l u)) = Err UnitsError).
Proof. exact c69_energy_errors. Qed.
Print Assumptions C69_energy_errors.
Theorem C69_per_fov : forall s q bins u, sim_measures s q -> unit_of angle_dim u ->
  q_n_showers_per_fov q bins u = calculate_n_showers_per_fov s (map (fun x => x * qu_scale u) bins).
Proof. exact c69_per_fov. Qed.
Print Assumptions C69_per_fov.
Theorem C69_fov_errors : forall s q bins u, sim_measures s q -> viewcone_min s <> viewcone_max s -> qu_dim u <> angle_dim ->
  q_n_showers_per_fov q bins u = Err UnitConversionError.
Proof. exact c69_fov_errors. Qed.
Print Assumptions C69_fov_errors.
Theorem C69_per_energy_and_fov : forall s q bins u fov v, sim_measures s q -> unit_of energy_dim u -> unit_of angle_dim v ->
  q_n_showers_per_energy_and_fov q (AQty (mkQA bins u)) (GQty fov v) =
  calculate_n_showers_per_energy_and_fov s (map (fun e => nmul e (Fin (qu_scale u / tev))) bins) (map (fun x => x * qu_scale v) fov).
Proof. exact c69_per_energy_and_fov. Qed.
Print Assumptions C69_per_energy_and_fov.
Theorem C69_3d_polar : forall s q bins u fov v pa w, sim_measures s q -> unit_of energy_dim u -> unit_of angle_dim v -> unit_of angle_dim w ->
  q_n_showers_3d_polar q (AQty (mkQA bins u)) (GQty fov v) (GQty pa w) =
  calculate_n_showers_3d_polar s (map (fun e => nmul e (Fin (qu_scale u / tev))) bins) (map (fun x => x * qu_scale v) fov) (map (fun x => x * qu_scale w) pa).
Proof. exact c69_3d_polar. Qed.
Print Assumptions C69_3d_polar.
Example C69_point : viewcone_min (mkSim 1000000 (1 / 100) 100 2000 (-2) 0 (10 * (PI / 180))) <> viewcone_max (mkSim 1000000 (1 / 100) 100 2000 (-2) 0 (10 * (PI / 180))).
Proof. cbn. pose proof PI_RGT_0. lra. Qed.
Example C69_made : q_sim_info 1000000 (FQty 10 GeV) (FQty 100 TeV) (FQty 200000 cm) (-2) (FQty 0 rad) (FQty 10 deg) =
  Ok (mkQSim 1000000 (10, GeV) (100, TeV) (200000, cm) (-2) (0, rad) (10, deg)).
Proof. apply c69_init. do 10 eexists. repeat split; try reflexivity. lra. Qed.
