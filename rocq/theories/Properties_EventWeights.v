(** * C96: power laws and event weights in double precision *)
From Coq Require Import Reals List Bool ZArith Lia Lra.
From Verif Require PSFDoubleProofs.
From Verif Require Import Num Numpy Simulations Spectral SpecDouble SpecShowers WeightsDoubleProofs ShowersDoubleProofs EventWeightsDouble SpecEventWeights EventWeightsDoubleProofs.
Import ListNotations.
Open Scope R_scope.

(** the flux of the simulated showers *)
Theorem C96_simulated_flux pow cosine s obstime e_ref omega l : accurate_power pow -> accurate_cos cosine -> usual_simulation s -> sized 8 obstime -> usual e_ref ->
  simulated_solid_angle s omega -> loss s l ->
  exists sim, from_simulation_double pow cosine s obstime e_ref = Ok sim /\ pl_index sim = spectral_index s /\ pl_e_ref sim = e_ref /\
  (pl_unit sim = Diffuse <-> viewcone_min s < viewcone_max s) /\
  forall e, usual e -> exists f, power_law_call_double pow sim (Fin e) = Fin f /\
    Rabs (f - simulated_flux s obstime omega e) <= 75 * (eps53 * l) * Rabs (simulated_flux s obstime omega e).
Proof. exact (c96_simulated_flux pow cosine s obstime e_ref omega l). Qed.
Print Assumptions C96_simulated_flux.

(** the weights that turn the simulated spectrum into a power law *)
Theorem C96_weights pow cosine s obstime e_ref omega l norm U index t_ref energies : accurate_power pow -> accurate_cos cosine ->
  usual_simulation s -> sized 8 obstime -> usual e_ref -> simulated_solid_angle s omega -> loss s l ->
  sized 30 norm -> double index -> -5 <= index <= 0 -> usual t_ref -> (forall e, In e energies -> usual e) ->
  exists sim, from_simulation_double pow cosine s obstime e_ref = Ok sim /\
  (~ (U = Diffuse <-> viewcone_min s < viewcone_max s) ->
    calculate_event_weights_double pow (map Fin energies) (mkPL (Fin norm) U index t_ref) sim = Err UnitConversionError) /\
  ((U = Diffuse <-> viewcone_min s < viewcone_max s) ->
    exists ws, calculate_event_weights_double pow (map Fin energies) (mkPL (Fin norm) U index t_ref) sim = Ok ws /\ List.length ws = List.length energies /\
    forall i e, nth_error energies i = Some e -> exists w, nth_error ws i = Some (Fin w) /\
      let weight := power_law_flux norm index t_ref e / simulated_flux s obstime omega e in
      0 < weight /\ Rabs (w - weight) <= 100 * eps53 * l * weight).
Proof. exact (c96_weights pow cosine s obstime e_ref omega l norm U index t_ref energies). Qed.
Print Assumptions C96_weights.

Theorem C96_same_spectrum pow cosine s obstime e_ref energies : accurate_power pow -> accurate_cos cosine -> usual_simulation s -> sized 8 obstime -> usual e_ref ->
  (forall e, In e energies -> usual e) ->
  exists sim, from_simulation_double pow cosine s obstime e_ref = Ok sim /\
    calculate_event_weights_double pow (map Fin energies) sim sim = Ok (map (fun _ => Fin 1) energies).
Proof. exact (c96_same_spectrum pow cosine s obstime e_ref energies). Qed.
Print Assumptions C96_same_spectrum.

(** an index next to -1 is accepted: the flux is infinite and negative, the weight 0 *)
Theorem C96_flat_refuted : exists pow cosine index sim, accurate_power pow /\ accurate_cos cosine /\ double index /\ -5 <= index < -1 /\
  from_simulation_double pow cosine (mkSim 1 1 (5 / 4) 1 index 0 0) 1 1 = Ok sim /\ pl_norm sim = NInf /\
  calculate_event_weights_double pow [Fin 1] (mkPL (Fin 1) PointSource (-2) 1) sim = Ok [Fin 0].
Proof. exact c96_flat_refuted. Qed.
Print Assumptions C96_flat_refuted.

Example C96_example : accurate_power rounded_power /\ accurate_cos PSFDoubleProofs.rounded_cos /\ usual_simulation s_diffuse /\ sized 8 180000 /\ usual 1 /\
  simulated_solid_angle s_diffuse (2 * PI * (cos 0 - cos 1)) /\ loss s_diffuse (/ contrast (-2) 1 20 + / (cos 0 - cos 1)) /\
  (Diffuse = Diffuse <-> viewcone_min s_diffuse < viewcone_max s_diffuse) /\ (forall e, In e [1; 2; 10] -> usual e).
Proof.
  split; [apply rounded_power_accurate|]. split; [apply PSFDoubleProofs.rounded_cos_accurate|]. split; [apply usual_diffuse|].
  split; [apply (sized_int 8 180000); [lia|lra]|]. split; [apply (sized_int 6 1); [lia|lra]|].
  split; [right; split; [cbn; lra|reflexivity]|]. split; [right; split; [cbn; lra|reflexivity]|]. split; [split; auto; intros _; cbn; lra|].
  intros e [<-|[<-|[<-|[]]]]; [apply (sized_int 6 1)|apply (sized_int 6 2)|apply (sized_int 6 10)]; try lia; lra.
Qed.
