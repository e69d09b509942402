(** * Properties_Trend: how the sensitivity depends on signal, background and time (C86), and the flux sensitivity on the assumed source (C87) *)
From Coq Require Import String Reals List Bool ZArith Arith Lia Lra Permutation.
From Verif Require Import Num Numpy Lists Table Binning Statistics Sensitivity Simulations Spectral SpecBinning SpecStatistics SpecSensitivity SpecCutOptimization SpecPipeline SpecTrend
  SensitivityProofs SensitivityProofs2 TrendProofs2 TrendProofs3 TrendProofs4 BinningWitness Properties_Sensitivity Properties_Pipeline.
Import ListNotations.
Open Scope R_scope.
Local Notation rel br N b a s m e := (relative_sensitivity1 br li_ma1 (Fin (N + a * b)) (Fin b) (Fin a) (Fin s) (Fin m) (Fin e)).

(** ** C86.  [N] signal and [b] off events with exposure ratio [a]; the requirements are the significance [s], [m] signal events and the
    excess [e] over the background *)
Theorem C86_more_signal br1 br2 N1 N2 b a s m e r1 r2 :
  brentq_sound br1 -> brentq_sound br2 ->
  0 < N1 -> N1 <= N2 -> 0 <= b -> 0 < a -> 0 < s ->
  rel br1 N1 b a s m e = Ok (Fin r1) -> rel br2 N2 b a s m e = Ok (Fin r2) -> r2 <= r1 + brentq_tol r1 + brentq_tol r2.
Proof. exact (fun S1 S2 => scalar_signal br1 br2 S1 S2 N1 N2 b a s m e r1 r2). Qed.
Print Assumptions C86_more_signal.
Theorem C86_less_background br1 br2 N b1 b2 a s m e r1 r2 :
  brentq_sound br1 -> brentq_sound br2 ->
  0 < N -> 0 <= b2 -> b2 <= b1 -> 0 < a -> 0 < s -> 0 <= e ->
  rel br1 N b1 a s m e = Ok (Fin r1) -> rel br2 N b2 a s m e = Ok (Fin r2) -> r2 <= r1 + brentq_tol r1 + brentq_tol r2.
Proof. exact (fun S1 S2 => scalar_background br1 br2 S1 S2 N b1 b2 a s m e r1 r2). Qed.
Print Assumptions C86_less_background.
Theorem C86_longer br1 br2 c N b a s m e r1 r2 :
  brentq_sound br1 -> brentq_sound br2 ->
  1 <= c -> 0 < N -> 0 <= b -> 0 < a -> 0 < s ->
  rel br1 N b a s m e = Ok (Fin r1) -> rel br2 (c * N) (c * b) a s m e = Ok (Fin r2) -> r2 <= r1 + brentq_tol r1 + brentq_tol r2.
Proof. exact (fun S1 S2 => scalar_time br1 br2 S1 S2 c N b a s m e r1 r2). Qed.
Print Assumptions C86_longer.
Theorem C86_more_off_regions br1 br2 N B a1 a2 s m e r1 r2 :
  brentq_sound br1 -> brentq_sound br2 ->
  0 < N -> 0 <= B -> 0 < a2 -> a2 <= a1 -> 0 < s ->
  relative_sensitivity1 br1 li_ma1 (Fin (N + B)) (Fin (B / a1)) (Fin a1) (Fin s) (Fin m) (Fin e) = Ok (Fin r1) ->
  relative_sensitivity1 br2 li_ma1 (Fin (N + B)) (Fin (B / a2)) (Fin a2) (Fin s) (Fin m) (Fin e) = Ok (Fin r2) -> r2 <= r1 + brentq_tol r1 + brentq_tol r2.
Proof. exact (fun S1 S2 => scalar_alpha br1 br2 S1 S2 N B a1 a2 s m e r1 r2). Qed.
Print Assumptions C86_more_off_regions.
Theorem C86_weaker_requirements br1 br2 N b a s1 m1 e1 s2 m2 e2 r1 r2 :
  brentq_sound br1 -> brentq_sound br2 ->
  0 < N -> 0 <= b -> 0 < a -> 0 < s2 -> s2 <= s1 -> m2 <= m1 -> e2 <= e1 ->
  rel br1 N b a s1 m1 e1 = Ok (Fin r1) -> rel br2 N b a s2 m2 e2 = Ok (Fin r2) -> r2 <= r1 + brentq_tol r1 + brentq_tol r2.
Proof. exact (fun S1 S2 => scalar_requirements br1 br2 S1 S2 N b a s1 m1 e1 s2 m2 e2 r1 r2). Qed.
Print Assumptions C86_weaker_requirements.
(** the same from the events on: more signal events and fewer background events; a longer observation *)
Theorem C86_events br (sw sp bw bp : bool) bins centers cuts alpha mn mx s m e signal1 background1 signal2 background2 t1 t2 :
  settings br bins centers cuts alpha mn mx s ->
  0 <= e -> valid_events sp bp signal2 background1 ->
  contained signal1 signal2 -> contained background2 background1 ->
  sensitivity_of br sw sp bw bp signal1 background1 bins centers cuts alpha mn mx s m e = Ok t1 -> sensitivity_of br sw sp bw bp signal2 background2 bins centers cuts alpha mn mx s m e = Ok t2 ->
  forall k, (k < List.length bins - 1)%nat -> exists r1 r2, cell t1 "relative_sensitivity" k r1 /\ cell t2 "relative_sensitivity" k r2 /\ (r1 <> NaN -> r2 <> NaN -> not_worse r2 r1).
Proof. exact (fun HS => trend_events br sw sp bw bp bins centers cuts alpha mn mx s m e HS signal1 background1 signal2 background2 t1 t2). Qed.
Print Assumptions C86_events.
Theorem C86_observation_time br (sw sp bw bp : bool) bins centers cuts alpha mn mx s m e signal background c t1 t2 :
  settings br bins centers cuts alpha mn mx s ->
  1 <= c -> sw = true -> bw = true -> valid_events sp bp signal background ->
  sensitivity_of br sw sp bw bp signal background bins centers cuts alpha mn mx s m e = Ok t1 -> sensitivity_of br sw sp bw bp (map (reweighted c) signal) (map (reweighted_bg c) background) bins centers cuts alpha mn mx s m e = Ok t2 ->
  forall k, (k < List.length bins - 1)%nat -> exists r1 r2, cell t1 "relative_sensitivity" k r1 /\ cell t2 "relative_sensitivity" k r2 /\ (r1 <> NaN -> r2 <> NaN -> not_worse r2 r1).
Proof. exact (fun HS => trend_time br sw sp bw bp bins centers cuts alpha mn mx s m e HS signal background c t1 t2). Qed.
Print Assumptions C86_observation_time.
(** a longer observation multiplies the weights *)
Theorem C86_time_weights c t s T r p energies w :
  0 < c -> from_simulation s T r = Ok p -> calculate_event_weights energies t (as_callable (PowerLaw p)) = Ok w ->
  exists p', from_simulation s (c * T) r = Ok p' /\ calculate_event_weights energies t (as_callable (PowerLaw p')) = Ok (map (fun x => nmul x (Fin c)) w).
Proof. exact (longer_weights c t s T r p energies w). Qed.
Print Assumptions C86_time_weights.
(** NaN: with at most one off event, a brighter source (or a longer observation) can turn a finite sensitivity into NaN, because the bracket is fixed *)
Theorem C86_bright_source_refuted br m e :
  brentq_sound br -> brentq_converges br -> brentq_checks_signs br ->
  (exists r, relative_sensitivity1 br li_ma1 (Fin 1000) (Fin 0) (Fin (1/5)) (Fin 5) (Fin m) (Fin e) = Ok (Fin r)) /\
  relative_sensitivity1 br li_ma1 (Fin (1000 * 1000)) (Fin 0) (Fin (1/5)) (Fin 5) (Fin m) (Fin e) = Ok NaN.
Proof. exact (bright_nan br m e). Qed.
Print Assumptions C86_bright_source_refuted.

(** ** C87.  [c] times the flux of the source: [c] times the weights, and the same sensitivity in units of flux *)
Theorem C87_weights c s g energies w :
  0 < c -> calculate_event_weights energies (as_callable s) g = Ok w ->
  calculate_event_weights energies (as_callable (brighter c s)) g = Ok (map (fun x => nmul x (Fin c)) w).
Proof. exact (brighter_weights c s g energies w). Qed.
Print Assumptions C87_weights.
Theorem C87_relative br (sw sp bw bp : bool) bins centers cuts alpha mn mx s m e signal background c t1 t2 :
  settings br bins centers cuts alpha mn mx s ->
  0 < c -> sw = true -> valid_events sp bp signal background ->
  sensitivity_of br sw sp bw bp signal background bins centers cuts alpha mn mx s m e = Ok t1 -> sensitivity_of br sw sp bw bp (map (reweighted c) signal) background bins centers cuts alpha mn mx s m e = Ok t2 ->
  forall k, (k < List.length bins - 1)%nat -> exists r1 r2 B, cell t1 "relative_sensitivity" k r1 /\ cell t2 "relative_sensitivity" k r2 /\
    cell t1 "n_background_weighted" k (Fin B) /\ (r1 = PInf <-> r2 = PInf) /\ (1 < B -> (r1 = NaN <-> r2 = NaN)) /\
    forall x1 x2, r1 = Fin x1 -> r2 = Fin x2 -> Rabs (c * x2 - x1) <= c * brentq_tol x2 + brentq_tol x1.
Proof. exact (fun HS => scale_source br sw sp bw bp bins centers cuts alpha mn mx s m e HS signal background c t1 t2). Qed.
Print Assumptions C87_relative.
Theorem C87_flux br sw sp bw bp bins centers cuts alpha mn mx s m e :
  settings br bins centers cuts alpha mn mx s ->
  forall signal background c t1 t2 (source : spectrum), 0 < c -> sw = true -> valid_events sp bp signal background ->
  sensitivity_of br sw sp bw bp signal background bins centers cuts alpha mn mx s m e = Ok t1 ->
  sensitivity_of br sw sp bw bp (map (reweighted c) signal) background bins centers cuts alpha mn mx s m e = Ok t2 ->
  forall k x1 x2 E f, (k < List.length bins - 1)%nat -> cell t1 "relative_sensitivity" k (Fin x1) -> cell t2 "relative_sensitivity" k (Fin x2) ->
  fst (call source E) = Fin f -> 0 <= f ->
  exists f', fst (call (brighter c source) E) = Fin f' /\ Rabs (x2 * f' - x1 * f) <= f * (c * brentq_tol x2 + brentq_tol x1).
Proof. exact (flux_source br sw sp bw bp bins centers cuts alpha mn mx s m e). Qed.
Print Assumptions C87_flux.
(** with at most one off event the answer may exist for one normalisation only *)
Theorem C87_few_background_refuted br m e : brentq_sound br -> brentq_converges br -> brentq_checks_signs br ->
  exists c N, 0 < c /\ (exists r, rel br N 0 (1/5) 5 m e = Ok (Fin r)) /\ rel br (c * N) 0 (1/5) 5 m e = Ok NaN.
Proof.
  intros H1 H2 H3. exists 1000, 1000. split; [lra|]. rewrite !Rmult_0_r, !Rplus_0_r. exact (bright_nan br m e H1 H2 H3).
Qed.
Print Assumptions C87_few_background_refuted.

(** the example of C78: the hypotheses are met; the sensitivity of a sample with twice the weights is finite *)
Example C86_settings : settings bisect_solver [Fin 1; Fin 10] [5] [1/10] (1/5) 0 (1/10) 5.
Proof.
  pose proof PI2_3_2 as HP. unfold PI2 in HP.
  split; [apply bisect_sound|]. split; [apply bisect_converges|]. split; [apply bisect_signs|]. split; [conc_nondec|]. split; [cbn; lia|].
  split; [intros [|[|k]] lo hi Hlo Hhi; cbn in *; try discriminate; try (destruct k; discriminate); injection Hlo as <-; eauto|].
  split; [intros [|[|k]] a b Ha Hb; cbn in *; try discriminate; destruct k; discriminate|]. split; [reflexivity|]. split; [discriminate|]. repeat split; lra.
Qed.
Example C86_events_valid : valid_events true true ex78_signal ex78_background /\ contained [mkEvent (Fin 2) 60 "gamma"] ex78_signal /\ contained [] ex78_background.
Proof.
  split; [repeat split|split].
  - intros _ v [<-|[<-|[]]]; cbn; discriminate.
  - intros _ v [<-|[<-|[]]]; cbn; intuition discriminate.
  - intros v [<-|[<-|[]]]; cbn; lra.
  - intros v [<-|[<-|[]]]; cbn; lra.
  - exists [mkEvent (Fin 5) 40 "gamma"]. apply Permutation_refl.
  - exists ex78_background. apply Permutation_refl.
Qed.
Example C87_example : exists t1 t2 x1 x2,
  sensitivity_of bisect_solver true true true true ex78_signal ex78_background [Fin 1; Fin 10] [5] [1/10] (1/5) 0 (1/10) 5 10 (1/20) = Ok t1 /\
  sensitivity_of bisect_solver true true true true (map (reweighted 2) ex78_signal) ex78_background [Fin 1; Fin 10] [5] [1/10] (1/5) 0 (1/10) 5 10 (1/20) = Ok t2 /\
  cell t1 "relative_sensitivity" 0 (Fin x1) /\ cell t2 "relative_sensitivity" 0 (Fin x2) /\ Rabs (2 * x2 - x1) <= 2 * brentq_tol x2 + brentq_tol x1.
Proof.
  destruct C78_example as (sh & bh & t1 & E1 & E2 & E3 & CB & x1 & C1 & _).
  assert (V : valid_events true true ex78_signal ex78_background) by apply C86_events_valid.
  assert (V' : valid_events true true (map (reweighted 2) ex78_signal) ex78_background).
  { repeat split.
    - intros _ v [<-|[<-|[]]]; cbn; discriminate.
    - apply V.
    - intros v [<-|[<-|[]]]; cbn; lra.
    - apply V. }
  assert (T1 : sensitivity_of bisect_solver true true true true ex78_signal ex78_background [Fin 1; Fin 10] [5] [1/10] (1/5) 0 (1/10) 5 10 (1/20) = Ok t1).
  { unfold sensitivity_of. rewrite E1. cbn [rbind]. change (map Fin [5]) with [Fin 5]. change (map Fin [1/10]) with [Fin (1/10)]. rewrite E2. exact E3. }
  destruct (sensitivity_row bisect_solver true true true true (map (reweighted 2) ex78_signal) ex78_background [Fin 1; Fin 10] [5] [1/10] (1/5) 0 (1/10) 5 10 (1/20) C86_settings V') as (t2 & T2 & _).
  destruct (C87_relative bisect_solver true true true true [Fin 1; Fin 10] [5] [1/10] (1/5) 0 (1/10) 5 10 (1/20) ex78_signal ex78_background 2 t1 t2 C86_settings ltac:(lra) eq_refl V T1 T2 0 ltac:(cbn; lia))
    as (r1 & r2 & B & K1 & K2 & KB & I & N & F).
  assert (U : forall t name r r', cell t name 0 r -> cell t name 0 r' -> r = r').
  { intros t name r r' (l & G & M) (l' & G' & M'). rewrite G in G'. injection G' as <-. destruct l; cbn in M, M'; try contradiction.
    - congruence.
    - destruct M as (z & M & ->), M' as (z' & M' & ->). congruence. }
  pose proof (U _ _ _ _ K1 C1) as ->. pose proof (U _ _ _ _ KB CB) as HB. injection HB as ->.
  destruct r2 as [x2| | |].
  - exists t1, t2, x1, x2. split; [exact T1|]. split; [exact T2|]. split; [exact C1|]. split; [exact K2|]. apply F; reflexivity.
  - exfalso. assert (Fin x1 = PInf) by (apply I; reflexivity). discriminate.
  - exfalso. destruct (sensitivity_row bisect_solver true true true true (map (reweighted 2) ex78_signal) ex78_background [Fin 1; Fin 10] [5] [1/10] (1/5) 0 (1/10) 5 10 (1/20) C86_settings V') as (t2' & T2' & R).
    rewrite T2 in T2'. injection T2' as <-. destruct (R 0%nat (Fin 1) (Fin 10) eq_refl eq_refl) as (th & W & W' & r & _ & _ & P & _ & _ & _ & K & _ & D). pose proof (U _ _ _ _ K2 K) as <-.
    destruct (sd_cases _ _ _ _ _ _ _ P D ltac:(discriminate)) as [(_ & E)|(_ & y & E & _)]; discriminate.
  - exfalso. assert (Fin x1 = NaN) by (apply N; [lra|reflexivity]). discriminate.
Qed.
