(** * SpecCutOptUnits: the events and results of the cut optimisation in other units *)
From Coq Require Import String Reals List.
From Verif Require Import Num Table Binning CutOptimization Quantities SpectralUnits IRFUnits CutOptimizationUnits SpecUnits SpecIRFUnits SpecSensUnits.
Import ListNotations.
Open Scope R_scope.

(** the table holds these events: energies in any unit (the events have them in TeV), scores are numbers *)
Definition holds_events (t : qevents) (has_weight has_type : bool) (evs : list opt_event) : Prop :=
  has_rows t (List.length evs) /\ has_column t "reco_energy" energy_dim tev (map o_energy evs) /\
  In ("gh_score"%string, APlain (map o_gh evs)) (qe_columns t) /\
  qe_weight t = (if has_weight then Some (map (fun e => ev_w (o_ev e)) evs) else None) /\
  qe_ptype t = (if has_type then Some (map (fun e => ev_p (o_ev e)) evs) else None).
(** angles in any unit (the events have them in radian), numbers of telescopes *)
Definition has_theta (t : qevents) (evs : list opt_event) : Prop := has_column t "theta" angle_dim 1 (map o_theta evs).
Definition has_offset (t : qevents) (evs : list opt_event) : Prop := has_column t "reco_source_fov_offset" angle_dim 1 (map o_offset evs).
Definition has_multiplicity (t : qevents) (evs : list opt_event) : Prop := In ("multiplicity"%string, APlain (map o_mult evs)) (qe_columns t).
(** a table of cuts whose columns have units: the numbers in TeV and radian *)
Definition cuts_in (c : q_cuts) (low high center cut : list num) : Prop :=
  exists l ul h uh m um x ux, c = mkQCuts (AQty (mkQA l ul)) (AQty (mkQA h uh)) (AQty (mkQA m um)) (AQty (mkQA x ux)) /\
    numbers energy_dim tev l ul low /\ numbers energy_dim tev h uh high /\ numbers energy_dim tev m um center /\ numbers angle_dim 1 x ux cut.
(** the same optimised cuts; [angle]: the cut is an angle, a number otherwise *)
Definition same_opt_cut (angle : bool) (c : q_opt_cut) (c' : opt_cut) : Prop :=
  (exists u, qo_edge_unit c = Some u /\ numbers energy_dim tev (oc_low (qo_table c)) u (oc_low c') /\
     numbers energy_dim tev (oc_center (qo_table c)) u (oc_center c') /\ numbers energy_dim tev (oc_high (qo_table c)) u (oc_high c')) /\
  (if angle then exists w, qo_cut_unit c = Some w /\ numbers angle_dim 1 (oc_cut (qo_table c)) w (oc_cut c')
   else qo_cut_unit c = None /\ oc_cut (qo_table c) = oc_cut c') /\
  oc_efficiency (qo_table c) = oc_efficiency c'.
(** the same exception, or the same tables *)
Definition same_gh_optimum (r : res ((table * qunit) * q_opt_cut)) (r' : res (table * opt_cut)) : Prop :=
  match r, r' with
  | Ok ((t, u), c), Ok (t', c') => same_table u t t' /\ same_opt_cut false c c'
  | Err e, Err e' => e = e'
  | _, _ => False
  end.
Definition same_optimum (r : res ((table * qunit) * (list num * option qunit) * q_opt_cut * q_opt_cut)) (r' : res (table * list num * opt_cut * opt_cut)) : Prop :=
  match r, r' with
  | Ok ((t, u), (m, mu), tc, gc), Ok (t', m', tc', gc') =>
      same_table u t t' /\ m = m' /\ mu = Some u /\ same_opt_cut true tc tc' /\ same_opt_cut false gc gc'
  | Err e, Err e' => e = e'
  | _, _ => False
  end.
