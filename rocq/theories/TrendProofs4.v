(** * TrendProofs4: weights for other normalisations and observation times *)
From Coq Require Import String Reals List Bool ZArith Arith Lia Lra.
From Verif Require Import Num Numpy Lists Table Binning Statistics Sensitivity Simulations Spectral SpecBinning SpecStatistics SpecSensitivity SpecCutOptimization SpecPipeline SpecTrend
  StatisticsProofs SensitivityProofs SensitivityProofs2 IRFUnitsProofs SensUnitsProofs SensUnitsProofs2 TrendProofs TrendProofs2 TrendProofs3.
Import ListNotations.
Open Scope R_scope.

Lemma sc_1 x : sc 1 x = x.
Proof. unfold sc. destruct x; cbn [nmul]; try reflexivity; [f_equal; ring|unfold inf_signed; rsolve; reflexivity..]. Qed.
Lemma mul_left c x y : 0 < c -> nmul (sc c x) y = sc c (nmul x y).
Proof. intros C. rewrite <- (sc_1 y) at 1. rewrite mul_sc by lra. f_equal. ring. Qed.
Lemma mul_right c x y : 0 < c -> nmul x (sc c y) = sc c (nmul x y).
Proof. intros C. rewrite <- (sc_1 x) at 1. rewrite mul_sc by lra. f_equal. ring. Qed.
Lemma div_left c x y : 0 < c -> ndiv (sc c x) y = sc c (ndiv x y).
Proof. intros C. rewrite <- (sc_1 y) at 1. rewrite div_sc by lra. f_equal. field. Qed.
Lemma div_right c x y : 0 < c -> ndiv x (sc c y) = sc (/ c) (ndiv x y).
Proof. intros C. rewrite <- (sc_1 x) at 1. rewrite div_sc by lra. f_equal. field. lra. Qed.
Lemma brighter_call c s E : 0 < c -> fst (call (brighter c s) E) = nmul (fst (call s E)) (Fin c).
Proof.
  intros C. fold (sc c (fst (call s E))). destruct s as [p|n u a b r|p f mu sg]; cbn [brighter call fst pl_norm pl_unit pl_index pl_e_ref]; unfold power_law_call; cbn [pl_norm pl_index pl_e_ref].
  - fold (sc c (pl_norm p)). apply mul_left, C.
  - fold (sc c n). apply mul_left, C.
  - fold (sc c (pl_norm p)). rewrite (mul_left c (pl_norm p)) by exact C. apply mul_left, C.
Qed.
Lemma brighter_unit c s : spectrum_unit (brighter c s) = spectrum_unit s.
Proof. destruct s; reflexivity. Qed.
Lemma brighter_weights c s g energies w : 0 < c -> calculate_event_weights energies (as_callable s) g = Ok w ->
  calculate_event_weights energies (as_callable (brighter c s)) g = Ok (map (fun x => nmul x (Fin c)) w).
Proof.
  intros C. unfold calculate_event_weights, as_callable. cbn [fst snd]. rewrite brighter_unit. destruct (unit_eqb _ _); [|discriminate]. intros H. injection H as <-. f_equal. rewrite map_map. apply map_ext. intros E.
  rewrite brighter_call by exact C. apply div_left, C.
Qed.
Lemma longer_simulation c s T r p : 0 < c -> from_simulation s T r = Ok p -> from_simulation s (c * T) r = Ok (mkPL (nmul (pl_norm p) (Fin (/ c))) (pl_unit p) (pl_index p) (pl_e_ref p)).
Proof.
  intros C. unfold from_simulation. destruct (if Rltb 0 (viewcone_max s - viewcone_min s) then _ else _) as [sa u]. unfold power_law_init. destruct (Rltb 0 (spectral_index s)); [discriminate|].
  intros H. injection H as <-. cbn [pl_norm pl_unit pl_index pl_e_ref]. f_equal. f_equal.
  set (d := nsub _ _). set (n := nmul (nmul _ _) _). replace (PI * (max_impact s * max_impact s) * (c * T) * sa) with (PI * (max_impact s * max_impact s) * T * sa * c) by ring.
  change (Fin (PI * (max_impact s * max_impact s) * T * sa * c)) with (sc c (Fin (PI * (max_impact s * max_impact s) * T * sa))). rewrite mul_left by exact C. apply div_right, C.
Qed.
Lemma longer_weights c t s T r p energies w : 0 < c -> from_simulation s T r = Ok p -> calculate_event_weights energies t (as_callable (PowerLaw p)) = Ok w ->
  exists p', from_simulation s (c * T) r = Ok p' /\ calculate_event_weights energies t (as_callable (PowerLaw p')) = Ok (map (fun x => nmul x (Fin c)) w).
Proof.
  intros C H W. eexists. split; [apply longer_simulation; eassumption|]. assert (C' : 0 < / c) by (apply Rinv_0_lt_compat; exact C).
  revert W. unfold calculate_event_weights, as_callable. cbn [fst snd spectrum_unit pl_unit]. destruct (unit_eqb _ _); [|discriminate]. intros W. injection W as <-. f_equal. rewrite map_map. apply map_ext. intros E.
  pose proof (brighter_call (/ c) (PowerLaw p) E C') as B. cbn [brighter] in B. rewrite B. fold (sc (/ c) (fst (call (PowerLaw p) E))). rewrite div_right by exact C'. rewrite Rinv_inv. reflexivity.
Qed.
(** ** statements about relative_sensitivity *)
Section Scalar.
Variables (br1 br2 : (R -> num) -> R -> R -> res R).
Hypotheses (S1 : brentq_sound br1) (S2 : brentq_sound br2).
Local Notation rel br N b a s m e := (relative_sensitivity1 br li_ma1 (Fin (N + a * b)) (Fin b) (Fin a) (Fin s) (Fin m) (Fin e)).
Lemma scalar_signal N1 N2 b a s m e r1 r2 : 0 < N1 -> N1 <= N2 -> 0 <= b -> 0 < a -> 0 < s ->
  rel br1 N1 b a s m e = Ok (Fin r1) -> rel br2 N2 b a s m e = Ok (Fin r2) -> r2 <= r1 + brentq_tol r1 + brentq_tol r2.
Proof. intros. eapply (trend br1 br2 N1 b a s m e r1 N2 b a s m e r2); eauto; try lra. intros. apply (det_signal N1 N2); auto. Qed.
Lemma scalar_background N b1 b2 a s m e r1 r2 : 0 < N -> 0 <= b2 -> b2 <= b1 -> 0 < a -> 0 < s -> 0 <= e ->
  rel br1 N b1 a s m e = Ok (Fin r1) -> rel br2 N b2 a s m e = Ok (Fin r2) -> r2 <= r1 + brentq_tol r1 + brentq_tol r2.
Proof. intros. eapply (trend br1 br2 N b1 a s m e r1 N b2 a s m e r2); eauto; try lra. intros. apply (det_background N b1); auto. Qed.
Lemma scalar_time c N b a s m e r1 r2 : 1 <= c -> 0 < N -> 0 <= b -> 0 < a -> 0 < s ->
  rel br1 N b a s m e = Ok (Fin r1) -> rel br2 (c * N) (c * b) a s m e = Ok (Fin r2) -> r2 <= r1 + brentq_tol r1 + brentq_tol r2.
Proof.
  intros. assert (0 < c * N) by (apply Rmult_lt_0_compat; lra). assert (0 <= c * b) by (apply Rmult_le_pos; lra).
  eapply (trend br1 br2 N b a s m e r1 (c * N) (c * b) a s m e r2); eauto; try lra. intros. apply det_time; auto.
Qed.
Lemma scalar_alpha N B a1 a2 s m e r1 r2 : 0 < N -> 0 <= B -> 0 < a2 -> a2 <= a1 -> 0 < s ->
  relative_sensitivity1 br1 li_ma1 (Fin (N + B)) (Fin (B / a1)) (Fin a1) (Fin s) (Fin m) (Fin e) = Ok (Fin r1) ->
  relative_sensitivity1 br2 li_ma1 (Fin (N + B)) (Fin (B / a2)) (Fin a2) (Fin s) (Fin m) (Fin e) = Ok (Fin r2) -> r2 <= r1 + brentq_tol r1 + brentq_tol r2.
Proof.
  intros P Q A1 A2 HS E1 E2. assert (Z : forall z, 0 < z -> 0 <= B / z) by (intros z Hz; apply Rmult_le_pos; [exact Q|left; apply Rinv_0_lt_compat; exact Hz]).
  pose proof (Z a1 ltac:(lra)). pose proof (Z a2 A1). replace (N + B) with (N + a1 * (B / a1)) in E1 by (field; lra). replace (N + B) with (N + a2 * (B / a2)) in E2 by (field; lra).
  eapply (trend br1 br2 N (B / a1) a1 s m e r1 N (B / a2) a2 s m e r2); eauto; try lra. intros. apply (det_alpha N B a1); auto.
Qed.
Lemma scalar_requirements N b a s1 m1 e1 s2 m2 e2 r1 r2 : 0 < N -> 0 <= b -> 0 < a -> 0 < s2 -> s2 <= s1 -> m2 <= m1 -> e2 <= e1 ->
  rel br1 N b a s1 m1 e1 = Ok (Fin r1) -> rel br2 N b a s2 m2 e2 = Ok (Fin r2) -> r2 <= r1 + brentq_tol r1 + brentq_tol r2.
Proof. intros. eapply (trend br1 br2 N b a s1 m1 e1 r1 N b a s2 m2 e2 r2); eauto; try lra. intros. eapply (det_requirements N b a s1 m1 e1); auto. Qed.
End Scalar.
(** ** NaN *)
Lemma bright_nan br m e : brentq_sound br -> brentq_converges br -> brentq_checks_signs br ->
  (exists r, relative_sensitivity1 br li_ma1 (Fin 1000) (Fin 0) (Fin (1/5)) (Fin 5) (Fin m) (Fin e) = Ok (Fin r)) /\
  relative_sensitivity1 br li_ma1 (Fin (1000 * 1000)) (Fin 0) (Fin (1/5)) (Fin 5) (Fin m) (Fin e) = Ok NaN.
Proof.
  intros H1 H2 H3. split.
  - destruct (c24_few br 1000 0 (1/5) m e) as (r & E & _); auto; try lra. eauto.
  - replace (1000 * 1000) with 1000000 by ring. apply c24_strong_source, H3.
Qed.
(** ** the flux *)
Lemma flux_same c f x1 x2 : 0 < c -> 0 <= f -> Rabs (c * x2 - x1) <= c * brentq_tol x2 + brentq_tol x1 -> Rabs (x2 * (f * c) - x1 * f) <= f * (c * brentq_tol x2 + brentq_tol x1).
Proof.
  intros C F H. replace (x2 * (f * c) - x1 * f) with (f * (c * x2 - x1)) by ring. rewrite Rabs_mult, (Rabs_right f) by lra. apply Rmult_le_compat_l; auto.
Qed.
Lemma flux_source br sw sp bw bp bins centers cuts alpha mn mx s m e : settings br bins centers cuts alpha mn mx s ->
  forall signal background c t1 t2 (source : spectrum), 0 < c -> sw = true -> valid_events sp bp signal background ->
  sensitivity_of br sw sp bw bp signal background bins centers cuts alpha mn mx s m e = Ok t1 ->
  sensitivity_of br sw sp bw bp (map (reweighted c) signal) background bins centers cuts alpha mn mx s m e = Ok t2 ->
  forall k x1 x2 E f, (k < List.length bins - 1)%nat -> cell t1 "relative_sensitivity" k (Fin x1) -> cell t2 "relative_sensitivity" k (Fin x2) ->
  fst (call source E) = Fin f -> 0 <= f ->
  exists f', fst (call (brighter c source) E) = Fin f' /\ Rabs (x2 * f' - x1 * f) <= f * (c * brentq_tol x2 + brentq_tol x1).
Proof.
  intros HS signal background c t1 t2 source C Es V T1 T2 k x1 x2 E f Hk K1 K2 F P. exists (f * c). split; [rewrite brighter_call, F by exact C; reflexivity|].
  destruct (scale_source br sw sp bw bp bins centers cuts alpha mn mx s m e HS signal background c t1 t2 C Es V T1 T2 k Hk) as (r1 & r2 & B & L1 & L2 & _ & _ & _ & H).
  apply flux_same; auto.
  assert (U : forall t r x, cell t "relative_sensitivity" k r -> cell t "relative_sensitivity" k (Fin x) -> r = Fin x).
  { intros t r x (l & G & N) (l' & G' & N'). rewrite G in G'. injection G' as <-. unfold entry in *. destruct l; try contradiction; [congruence|]. destruct N as (z & N & ->), N' as (z' & N' & E'). rewrite N in N'. injection N' as <-. congruence. }
  apply H; eapply U; eauto.
Qed.
