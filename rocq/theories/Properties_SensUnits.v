(** * Properties_SensUnits: binned events, background and sensitivity do not depend on units (C85) *)
From Coq Require Import String Reals List Bool ZArith Arith Lia Lra.
From Verif Require Import Num Numpy Table Binning Utils Simulations Sensitivity Quantities SpectralUnits SimulationUnits IRFUnits SensitivityUnits
  SpecUnits SpecIRFUnits SpecSensUnits IRFUnitsProofs SensUnitsProofs SensUnitsProofs2 SensUnitsProofs3 SensitivityProofs4 Properties_IRFUnits Properties_Sensitivity.
Import ListNotations.
Open Scope R_scope.

(** ** C85.  Events, bins, cuts and the ring in any units: the same exception, or the table for the numbers in TeV and radian with its
    edges in the unit of the bins *)
Theorem C85_histogram t evs (hw hp : bool) b v b' :
  has_rows t (List.length evs) -> has_column t "reco_energy" energy_dim tev (map ev_x evs) ->
  qe_weight t = (if hw then Some (map ev_w evs) else None) -> qe_ptype t = (if hp then Some (map ev_p evs) else None) -> numbers energy_dim tev b v b' ->
  same_histogram (q_create_histogram_table t (AQty (mkQA b v))) (create_histogram_table (mkEvents evs hw hp) b' "reco_energy").
Proof. exact (q_create_same t evs hw hp b v b'). Qed.
Print Assumptions C85_histogram.
Theorem C85_background t (evs : list bg_event) (hw hp : bool) b v b' ce vc ce' cut w cut' alpha mn mx mn' mx' :
  has_rows t (List.length evs) -> has_column t "reco_energy" energy_dim tev (map (fun e => ev_x (bg_ev e)) evs) -> has_column t "reco_source_fov_offset" angle_dim 1 (map bg_offset evs) ->
  qe_weight t = (if hw then Some (map (fun e => ev_w (bg_ev e)) evs) else None) -> qe_ptype t = (if hp then Some (map (fun e => ev_p (bg_ev e)) evs) else None) ->
  numbers energy_dim tev b v b' -> numbers energy_dim tev ce vc ce' -> numbers angle_dim 1 cut w cut' -> in_radian mn mn' -> in_radian mx mx' ->
  same_histogram (q_estimate_background t (AQty (mkQA b v)) (AQty (mkQA ce vc)) (AQty (mkQA cut w)) alpha mn mx)
    (estimate_background evs hw hp b' ce' cut' alpha mn' mx').
Proof. exact (estimate_same t evs hw hp b v b' ce vc ce' cut w cut' alpha mn mx mn' mx'). Qed.
Print Assumptions C85_background.
Theorem C85_sensitivity brentq significance_function sa s u s' b v b' alpha ms me mx :
  same_table u s s' -> same_table v b b' ->
  same_histogram (q_calculate_sensitivity brentq significance_function sa (s, u) (b, v) alpha ms me mx) (calculate_sensitivity brentq significance_function sa s' b' alpha ms me mx).
Proof. exact (sensitivity_same brentq significance_function sa s u s' b v b' alpha ms me mx). Qed.
Print Assumptions C85_sensitivity.
Theorem C85_chain brentq sf sa ts evs (hws hps : bool) b v tb bevs (hw hp : bool) b2 v2 b' ce vc ce' cut w cut' alpha mn mx mn' mx' ms me mb :
  has_rows ts (List.length evs) -> has_column ts "reco_energy" energy_dim tev (map ev_x evs) ->
  qe_weight ts = (if hws then Some (map ev_w evs) else None) -> qe_ptype ts = (if hps then Some (map ev_p evs) else None) -> numbers energy_dim tev b v b' ->
  has_rows tb (List.length bevs) -> has_column tb "reco_energy" energy_dim tev (map (fun e => ev_x (bg_ev e)) bevs) -> has_column tb "reco_source_fov_offset" angle_dim 1 (map bg_offset bevs) ->
  qe_weight tb = (if hw then Some (map (fun e => ev_w (bg_ev e)) bevs) else None) -> qe_ptype tb = (if hp then Some (map (fun e => ev_p (bg_ev e)) bevs) else None) ->
  numbers energy_dim tev b2 v2 b' -> numbers energy_dim tev ce vc ce' -> numbers angle_dim 1 cut w cut' -> in_radian mn mn' -> in_radian mx mx' ->
  same_histogram
    (do s <- q_create_histogram_table ts (AQty (mkQA b v));
     do bg <- q_estimate_background tb (AQty (mkQA b2 v2)) (AQty (mkQA ce vc)) (AQty (mkQA cut w)) alpha mn mx;
     q_calculate_sensitivity brentq sf sa s bg alpha ms me mb)
    (do s <- create_histogram_table (mkEvents evs hws hps) b' "reco_energy";
     do bg <- estimate_background bevs hw hp b' ce' cut' alpha mn' mx';
     calculate_sensitivity brentq sf sa s bg alpha ms me mb).
Proof. exact (chain_same brentq sf sa ts evs hws hps b v tb bevs hw hp b2 v2 b' ce vc ce' cut w cut' alpha mn mx mn' mx' ms me mb). Qed.
Print Assumptions C85_chain.
(** a background is only estimated if the offsets and the limits of the ring are angles, the energies of the bins and of the cuts have the
    same dimension and cuts with a unit are angles *)
Theorem C85_dimensions t bins ce cut alpha mn mx r :
  q_estimate_background t bins ce cut alpha mn mx = Ok r ->
  (exists l u, get_column t "reco_source_fov_offset" = Ok (AQty (mkQA l u)) /\ qu_dim u = angle_dim) /\ qu_dim (q_unit mn) = angle_dim /\ qu_dim (q_unit mx) = angle_dim /\
  qu_dim (snd (plain_unit ce)) = qu_dim (snd (plain_unit bins)) /\ (fst (plain_unit bins) <> [] -> tl (fst (plain_unit bins)) <> [] -> forall l u, cut = AQty (mkQA l u) -> qu_dim u = angle_dim).
Proof. exact (estimate_dims t bins ce cut alpha mn mx r). Qed.
Print Assumptions C85_dimensions.
(** histograms over different dimensions are rejected *)
Theorem C85_incompatible_edges brentq sf sa s u b v alpha ms me mb :
  qu_dim u <> qu_dim v -> (exists c, getitem s "reco_energy_low" = Some c) -> (exists c, getitem b "reco_energy_low" = Some c) ->
  q_calculate_sensitivity brentq sf sa (s, u) (b, v) alpha ms me mb = Err ValueError.
Proof. exact (sens_dims brentq sf sa s u b v alpha ms me mb). Qed.
Print Assumptions C85_incompatible_edges.

(** the two events of C71 ([events_gev]: 2 TeV at 1 deg and 4 TeV at 2 deg), bins in GeV, cuts in degree, a ring from 0 to 90 deg: the
    hypotheses hold and the background is estimated *)
Definition ring_events : list bg_event := [mkBg (mkEvent (Fin 2) 1 "") (Fin (PI / 180)); mkBg (mkEvent (Fin 4) 1 "") (Fin (PI / 90))].
Example C85_example : has_rows events_gev (List.length ring_events) /\
  has_column events_gev "reco_energy" energy_dim tev (map (fun e => ev_x (bg_ev e)) ring_events) /\
  has_column events_gev "reco_source_fov_offset" angle_dim 1 (map bg_offset ring_events) /\
  qe_weight events_gev = Some (map (fun e => ev_w (bg_ev e)) ring_events) /\ qe_ptype events_gev = None /\
  numbers energy_dim tev [Fin 1000; Fin 10000; PInf] GeV [Fin 1; Fin 10; PInf] /\ numbers energy_dim tev [Fin 2; Fin 5] TeV [Fin 2; Fin 5] /\
  numbers angle_dim 1 [Fin 1; Fin 2] deg [Fin (PI / 180); Fin (PI / 90)] /\ in_radian (mkQ (Fin 0) deg) (Fin 0) /\ in_radian (mkQ (Fin 90) deg) (Fin (PI / 2)) /\
  (exists t, estimate_background ring_events true false [Fin 1; Fin 10; PInf] [Fin 2; Fin 5] [Fin (PI / 180); Fin (PI / 90)] (Fin (1 / 5)) (Fin 0) (Fin (PI / 2)) = Ok t) /\
  exists r, q_estimate_background events_gev (AQty (mkQA [Fin 1000; Fin 10000; PInf] GeV)) (AQty (mkQA [Fin 2; Fin 5] TeV)) (AQty (mkQA [Fin 1; Fin 2] deg)) (Fin (1 / 5))
    (mkQ (Fin 0) deg) (mkQ (Fin 90) deg) = Ok r.
Proof.
  pose proof PI_RGT_0 as HP. pose proof C71_example as (R & _ & (l & u & I & C) & _ & _ & W & B & _).
  assert (pair_eq : forall a b c d, a = c -> b = d -> [Fin a; Fin b] = [Fin c; Fin d]) by (intros; subst; reflexivity).
  assert (D : forall x, nmul (Fin x) (Fin (qu_scale deg / 1)) = Fin (x * (PI / 180))) by (intros x; cbn [nmul]; f_equal; cbn; field).
  assert (T : forall x, nmul (Fin x) (Fin (qu_scale TeV / tev)) = Fin x) by (intros x; cbn [nmul]; f_equal; cbn; unfold eV_in_J, tev; field).
  assert (H1 : has_column events_gev "reco_energy" energy_dim tev (map (fun e => ev_x (bg_ev e)) ring_events)) by (exists l, u; split; [exact I|exact C]).
  assert (H2 : has_column events_gev "reco_source_fov_offset" angle_dim 1 (map bg_offset ring_events)).
  { do 2 eexists. split; [right; right; right; left; reflexivity|]. split; [apply deg_unit_|]. cbn [map ring_events bg_offset]. rewrite !D. apply pair_eq; lra. }
  assert (H3 : numbers energy_dim tev [Fin 2; Fin 5] TeV [Fin 2; Fin 5]) by (split; [apply tev_unit|cbn [map]; rewrite !T; reflexivity]).
  assert (H4 : numbers angle_dim 1 [Fin 1; Fin 2] deg [Fin (PI / 180); Fin (PI / 90)]) by (split; [apply deg_unit_|cbn [map]; rewrite !D; apply pair_eq; lra]).
  assert (H5 : in_radian (mkQ (Fin 0) deg) (Fin 0)) by (split; [apply deg_unit_|cbn; f_equal; lra]).
  assert (H6 : in_radian (mkQ (Fin 90) deg) (Fin (PI / 2))) by (split; [apply deg_unit_|cbn; f_equal; lra]).
  assert (H7 : exists t, estimate_background ring_events true false [Fin 1; Fin 10; PInf] [Fin 2; Fin 5] [Fin (PI / 180); Fin (PI / 90)] (Fin (1 / 5)) (Fin 0) (Fin (PI / 2)) = Ok t).
  { destruct (c26 ring_events true false [Fin 1; Fin 10; PInf] [2; 5] [PI / 180; PI / 90] (1 / 5) 0 (PI / 2)) as (t & n & E & _); try lra; try discriminate; try reflexivity.
    - apply C26_example.
    - cbn; lia.
    - apply C26_example.
    - exists t. exact E. }
  repeat (split; [assumption|]). split; [reflexivity|]. repeat (split; [assumption|]).
  destruct H7 as (t & E).
  pose proof (C85_background events_gev ring_events true false _ _ _ _ _ _ _ _ _ (Fin (1 / 5)) _ _ _ _ R H1 H2 W eq_refl B H3 H4 H5 H6) as S. rewrite E in S.
  destruct (q_estimate_background _ _ _ _ _ _ _) as [r|e]; [exists r; reflexivity|destruct S].
Qed.
