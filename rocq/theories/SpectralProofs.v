(** * SpectralProofs *)
From Coq Require Import Reals List Bool ZArith Lia Lra Permutation Sorted.
From Verif Require Import Num Numpy Lists Sort Binning BinningProofs Utils SpecSimulations Simulations SimulationsProofs SimulationsProofs2
  SpecSpectral Spectral.
Import ListNotations.
Open Scope R_scope.

Lemma Rpower_pos x y : 0 < Rpower x y.
Proof. apply exp_pos. Qed.
Lemma Rpower_div a b p : 0 < a -> 0 < b -> Rpower (a / b) p = Rpower a p * / Rpower b p.
Proof.
  intros Ha Hb. unfold Rpower. rewrite <- exp_Ropp, <- exp_plus. f_equal.
  unfold Rdiv. rewrite ln_mult, ln_Rinv by (auto; apply Rinv_0_lt_compat; auto). ring.
Qed.
Lemma Rpower_div_pos a b : 0 < a -> 0 < b -> 0 < a / b.
Proof. intros. apply Rmult_lt_0_compat; auto. apply Rinv_0_lt_compat; auto. Qed.
(** a power law with finite normalisation *)
Lemma pl_call_fin N u i r E : 0 < r -> 0 < E -> power_law_call (mkPL (Fin N) u i r) (Fin E) = Fin (N * Rpower (E / r) i).
Proof.
  intros Hr HE. unfold power_law_call. cbn [pl_norm pl_e_ref pl_index ndiv]. rsolve.
  rewrite npow_pos by (apply Rpower_div_pos; auto). reflexivity.
Qed.

(** ** C34 *)
Section FromSim.
Variables (s : sim_info) (T e_ref : R).
Hypotheses (Hmin : 0 < energy_min s) (Hmax : energy_min s < energy_max s) (Hidx : spectral_index s <= 0 /\ spectral_index s <> -1)
  (Himp : 0 < max_impact s) (HT : 0 < T) (Href : 0 < e_ref).
Let i := spectral_index s.
Let D := Rpower (energy_max s) (i + 1) - Rpower (energy_min s) (i + 1).
Let A := PI * (max_impact s * max_impact s).
Lemma D_nz : D <> 0.
Proof.
  unfold D, Rpower. intros E. assert (X : (i + 1) * ln (energy_max s) = (i + 1) * ln (energy_min s)) by (apply exp_inv; lra).
  apply Rmult_eq_reg_l in X; [|unfold i; lra]. assert (ln (energy_min s) < ln (energy_max s)) by (apply ln_increasing; auto). lra.
Qed.
Lemma A_pos : 0 < A.
Proof. unfold A. pose proof PI_RGT_0. apply Rmult_lt_0_compat; auto. apply Rmult_lt_0_compat; auto. Qed.
Definition sim_norm (om : R) : R := (i + 1) * Rpower e_ref i * IZR (n_showers s) / (A * T * om * D).
Lemma from_sim_gen om u : 0 < om ->
  (if Rltb 0 (viewcone_max s - viewcone_min s)
    then (cone_solid_angle (viewcone_max s) - cone_solid_angle (viewcone_min s), Diffuse)
    else (1, PointSource)) = (om, u) ->
  from_simulation s T e_ref = Ok (mkPL (Fin (sim_norm om)) u i e_ref).
Proof.
  intros Hom E. unfold from_simulation. rewrite E. rewrite !npow_pos by lra. fold i.
  cbn [nsub nneg nadd nmul nz]. unfold nz. cbn [nmul ndiv].
  pose proof A_pos as HA. pose proof D_nz as HD.
  assert (P : PI * (max_impact s * max_impact s) * T * om * (Rpower (energy_max s) (i + 1) + - Rpower (energy_min s) (i + 1)) <> 0).
  { fold A. change (A * T * om * D <> 0). assert (0 < A * T * om) by (apply Rmult_lt_0_compat; [apply Rmult_lt_0_compat|]; auto). clearbody A D. apply Rmult_integral_contrapositive. split; [lra|auto]. }
  apply Reqb_false in P. fold i in P. rewrite P.
  unfold power_law_init. replace (Rltb 0 i) with false by (symmetry; rcmp; unfold i; lra). reflexivity.
Qed.
Lemma sim_flux om E : 0 < E -> sim_norm om * Rpower (E / e_ref) i = (i + 1) * IZR (n_showers s) / (A * T * om * D) * Rpower E i.
Proof.
  intros HE. unfold sim_norm. rewrite Rpower_div by auto. pose proof (Rpower_pos e_ref i). unfold Rdiv. 
  replace ((i + 1) * Rpower e_ref i * IZR (n_showers s) * / (A * T * om * D) * (Rpower E i * / Rpower e_ref i))
    with ((i + 1) * IZR (n_showers s) * / (A * T * om * D) * Rpower E i * (Rpower e_ref i * / Rpower e_ref i)) by ring.
  rewrite Rinv_r by lra. ring.
Qed.
Lemma sim_primitive c : primitive_on positive (fun E => c * Rpower E i) (fun E => c * (Rpower E (i + 1) / (i + 1))).
Proof.
  intros x Hx. replace (c * Rpower x i) with (c * / (i + 1) * ((i + 1) * Rpower x (i + 1 - 1))).
  - replace (fun E => c * (Rpower E (i + 1) / (i + 1))) with (mult_real_fct (c * / (i + 1)) (fun E => Rpower E (i + 1))).
    + apply derivable_pt_lim_scal. apply derivable_pt_lim_power. auto.
    + unfold mult_real_fct. apply FunctionalExtensionality.functional_extensionality. intros y. unfold Rdiv. ring.
  - replace (i + 1 - 1) with i by ring. field. unfold i. lra.
Qed.
Lemma sim_integral om (fl P : R -> R) : 0 < om -> (forall E, 0 < E -> fl E = sim_norm om * Rpower (E / e_ref) i) ->
  primitive_on positive fl P ->
  (P (energy_max s) - P (energy_min s)) * A * T * om = IZR (n_showers s).
Proof.
  intros Hom Hf HP. pose proof D_nz as HD. pose proof A_pos as HA.
  set (c := (i + 1) * IZR (n_showers s) / (A * T * om * D)).
  assert (HP' : primitive_on positive (fun E => c * Rpower E i) P).
  { intros x Hx. unfold c. rewrite <- (sim_flux om) by auto. rewrite <- Hf by auto. auto. }
  assert (HI : P (energy_max s) - P (energy_min s) = c * (Rpower (energy_max s) (i + 1) / (i + 1)) - c * (Rpower (energy_min s) (i + 1) / (i + 1))).
  { apply (primitive_const positive (fun E => c * Rpower E i) (fun E => c * Rpower E i) P (fun E => c * (Rpower E (i + 1) / (i + 1))) (energy_min s) (energy_max s)); auto.
    - intros x Hx. rewrite Rmin_left in Hx by lra. unfold positive. lra.
    - apply sim_primitive. }
  rewrite HI. unfold c. assert (Hi1 : i + 1 <> 0) by (unfold i; lra).
  replace (Rpower (energy_max s) (i + 1)) with (D + Rpower (energy_min s) (i + 1)) by (unfold D; ring).
  clearbody A D. field. repeat split; lra.
Qed.
End FromSim.
Lemma c34_diffuse s T e_ref :
  0 < energy_min s -> energy_min s < energy_max s -> spectral_index s <= 0 -> spectral_index s <> -1 -> 0 < max_impact s -> 0 < T -> 0 < e_ref ->
  0 <= viewcone_min s -> viewcone_min s < viewcone_max s -> viewcone_max s <= PI ->
  exists p fl, from_simulation s T e_ref = Ok p /\ pl_index p = spectral_index s /\ pl_e_ref p = e_ref /\
    (forall E, 0 < E -> call (PowerLaw p) (Fin E) = (Fin (fl E), Diffuse)) /\
    (exists P, primitive_on positive fl P) /\
    forall P, primitive_on positive fl P ->
      (P (energy_max s) - P (energy_min s)) * (PI * (max_impact s * max_impact s)) * T * ring_sr (viewcone_min s) (viewcone_max s) = IZR (n_showers s).
Proof.
  intros H1 H2 H3a H3b H4 H5 H6 V0 V1 V2.
  assert (Hom : 0 < ring_sr (viewcone_min s) (viewcone_max s)).
  { unfold ring_sr. pose proof (cone_pos _ _ V0 V1 V2). pose proof PI_RGT_0. apply Rmult_lt_0_compat; lra. }
  assert (E : (if Rltb 0 (viewcone_max s - viewcone_min s)
    then (cone_solid_angle (viewcone_max s) - cone_solid_angle (viewcone_min s), Diffuse)
    else (1, PointSource)) = (ring_sr (viewcone_min s) (viewcone_max s), Diffuse)).
  { rsolve. f_equal. unfold cone_solid_angle, ring_sr. ring. }
  eexists _, (fun E => sim_norm s T e_ref (ring_sr (viewcone_min s) (viewcone_max s)) * Rpower (E / e_ref) (spectral_index s)).
  split; [apply (from_sim_gen s T e_ref H1 H2 (conj H3a H3b) H4 H5 H6 _ _ Hom E)|]. split; [reflexivity|]. split; [reflexivity|]. split.
  { intros E0 HE. cbn [call]. rewrite pl_call_fin by auto. reflexivity. }
  split.
  - eexists. intros x Hx. rewrite sim_flux by auto.
    match goal with |- derivable_pt_lim _ _ (?c * _) => apply (sim_primitive s (conj H3a H3b) c x Hx) end.
  - intros P HP. eapply (sim_integral s T e_ref H1 H2 (conj H3a H3b) H4 H5 H6); eauto. cbn. auto.
Qed.
Lemma c34_point s T e_ref :
  0 < energy_min s -> energy_min s < energy_max s -> spectral_index s <= 0 -> spectral_index s <> -1 -> 0 < max_impact s -> 0 < T -> 0 < e_ref ->
  viewcone_max s <= viewcone_min s ->
  exists p fl, from_simulation s T e_ref = Ok p /\ pl_index p = spectral_index s /\ pl_e_ref p = e_ref /\
    (forall E, 0 < E -> call (PowerLaw p) (Fin E) = (Fin (fl E), PointSource)) /\
    (exists P, primitive_on positive fl P) /\
    forall P, primitive_on positive fl P ->
      (P (energy_max s) - P (energy_min s)) * (PI * (max_impact s * max_impact s)) * T = IZR (n_showers s).
Proof.
  intros H1 H2 H3a H3b H4 H5 H6 V.
  assert (E : (if Rltb 0 (viewcone_max s - viewcone_min s)
    then (cone_solid_angle (viewcone_max s) - cone_solid_angle (viewcone_min s), Diffuse)
    else (1, PointSource)) = (1, PointSource)) by (rsolve; auto).
  eexists _, (fun E => sim_norm s T e_ref 1 * Rpower (E / e_ref) (spectral_index s)).
  split; [apply (from_sim_gen s T e_ref H1 H2 (conj H3a H3b) H4 H5 H6 _ _ Rlt_0_1 E)|]. split; [reflexivity|]. split; [reflexivity|]. split.
  { intros E0 HE. cbn [call]. rewrite pl_call_fin by auto. reflexivity. }
  split.
  - eexists. intros x Hx. rewrite sim_flux by auto.
    match goal with |- derivable_pt_lim _ _ (?c * _) => apply (sim_primitive s (conj H3a H3b) c x Hx) end.
  - intros P HP. rewrite <- (sim_integral s T e_ref H1 H2 (conj H3a H3b) H4 H5 H6 1 _ P Rlt_0_1 (fun _ _ => eq_refl) HP). ring.
Qed.
(** the flux does not depend on the reference energy *)
Lemma c34_e_ref s T r1 r2 E :
  0 < energy_min s -> energy_min s < energy_max s -> spectral_index s <= 0 -> spectral_index s <> -1 -> 0 < max_impact s -> 0 < T -> 0 < r1 -> 0 < r2 ->
  0 <= viewcone_min s -> viewcone_max s <= PI -> 0 < E ->
  exists p1 p2, from_simulation s T r1 = Ok p1 /\ from_simulation s T r2 = Ok p2 /\
    call (PowerLaw p1) (Fin E) = call (PowerLaw p2) (Fin E).
Proof.
  intros H1 H2 H3a H3b H4 H5 R1 R2 V0 V2 HE.
  assert (X : exists om u, 0 < om /\ (if Rltb 0 (viewcone_max s - viewcone_min s)
    then (cone_solid_angle (viewcone_max s) - cone_solid_angle (viewcone_min s), Diffuse)
    else (1, PointSource)) = (om, u)).
  { destruct (Rltb_spec 0 (viewcone_max s - viewcone_min s)) as [C|C].
    - eexists _, _. split; [|reflexivity]. unfold cone_solid_angle. pose proof (cone_pos (viewcone_min s) (viewcone_max s) V0 ltac:(lra) V2).
      pose proof PI_RGT_0. nra.
    - exists 1, PointSource. split; [lra|auto]. }
  destruct X as (om & u & Hom & X).
  eexists _, _. split; [apply (from_sim_gen s T r1 H1 H2 (conj H3a H3b) H4 H5 R1 om u Hom X)|]. split; [apply (from_sim_gen s T r2 H1 H2 (conj H3a H3b) H4 H5 R2 om u Hom X)|].
  cbn [call pl_unit]. rewrite !pl_call_fin by auto. rewrite !sim_flux by auto. reflexivity.
Qed.

(** ** C35 *)
Lemma c35_point p f mu sigma a b : pl_unit p = PointSource ->
  integrate_cone (PowerLaw p) a b = Err ValueError /\ integrate_cone (ExpGauss p f mu sigma) a b = Err ValueError.
Proof. intros H. cbn [integrate_cone]. unfold integrate_cone_pl. rewrite H. auto. Qed.
Lemma c35 p a b : pl_unit p = Diffuse -> pl_index p <= 0 ->
  exists q, integrate_cone (PowerLaw p) a b = Ok (PowerLaw q) /\ pl_index q = pl_index p /\ pl_e_ref q = pl_e_ref p /\
    pl_unit q = PointSource /\ pl_norm q = nmul (pl_norm p) (Fin (ring_sr a b)).
Proof.
  intros H Hi. cbn [integrate_cone]. unfold integrate_cone_pl. rewrite H. unfold power_law_init. rsolve. cbn [rbind].
  eexists. split; [reflexivity|]. cbn [pl_index pl_e_ref pl_unit pl_norm]. repeat split. f_equal. f_equal. unfold cone_solid_angle, ring_sr. ring.
Qed.
Lemma c35_flux N i r a b E : i <= 0 -> 0 < r -> 0 < E -> exists q, integrate_cone (PowerLaw (mkPL (Fin N) Diffuse i r)) a b = Ok q /\
  exists x, call (PowerLaw (mkPL (Fin N) Diffuse i r)) (Fin E) = (Fin x, Diffuse) /\ call q (Fin E) = (Fin (x * ring_sr a b), PointSource).
Proof.
  intros Hi Hr HE. destruct (c35 (mkPL (Fin N) Diffuse i r) a b eq_refl Hi) as (q & Hq & I & R & U & Nq). exists (PowerLaw q). split; auto.
  cbn [pl_norm nmul pl_index pl_e_ref] in *. destruct q as [n u i' r']. cbn [pl_norm pl_unit pl_index pl_e_ref] in *. subst.
  cbn [call pl_unit]. rewrite !pl_call_fin by auto. eexists. split; [reflexivity|]. do 2 f_equal. ring.
Qed.
Lemma c35_additive a b c : ring_sr a b + ring_sr b c = ring_sr a c.
Proof. unfold ring_sr. ring. Qed.
Lemma c35_positive a b : 0 <= a -> a < b -> b <= PI -> 0 < ring_sr a b.
Proof. intros A B C. unfold ring_sr. pose proof (cone_pos a b A B C). pose proof PI_RGT_0. apply Rmult_lt_0_compat; lra. Qed.
(** the bump is lost *)
Lemma c35_bump_lost p f mu sigma a b : integrate_cone (ExpGauss p f mu sigma) a b = integrate_cone (PowerLaw p) a b.
Proof. reflexivity. Qed.

(** ** C37 *)
Lemma c37_init N u i r : (i <= 0 -> power_law_init N u i r = Ok (mkPL N u i r)) /\ (0 < i -> power_law_init N u i r = Err ValueError).
Proof. unfold power_law_init. split; intros; rsolve; auto. Qed.
Lemma c37_ref N u i r : 0 < r -> call (PowerLaw (mkPL (Fin N) u i r)) (Fin r) = (Fin N, u).
Proof.
  intros H. cbn [call pl_unit]. rewrite pl_call_fin by auto. replace (r / r) with 1 by (field; lra). unfold Rpower. rewrite ln_1, Rmult_0_r, exp_0, Rmult_1_r. auto.
Qed.
Lemma c37_scaling N u i r c E : 0 < r -> 0 < c -> 0 < E -> exists x,
  call (PowerLaw (mkPL (Fin N) u i r)) (Fin E) = (Fin x, u) /\ call (PowerLaw (mkPL (Fin N) u i r)) (Fin (c * E)) = (Fin (Rpower c i * x), u) /\
  (0 < N -> 0 < x).
Proof.
  intros Hr Hc HE. cbn [call pl_unit]. rewrite !pl_call_fin by (auto; apply Rmult_lt_0_compat; auto). eexists. split; [reflexivity|]. split.
  - do 2 f_equal. replace (c * E / r) with (c * (E / r)) by (field; lra). rewrite <- Rpower_mult_distr by (auto; apply Rpower_div_pos; auto). ring.
  - intros HN. apply Rmult_lt_0_compat; auto. apply Rpower_pos.
Qed.
Lemma log10_div E r : 0 < E -> 0 < r -> nlog10 (ndiv (Fin E) (Fin r)) = Fin (log10 (E / r)).
Proof. intros. cbn [ndiv]. rsolve. unfold nlog10. pose proof (Rpower_div_pos E r ltac:(auto) ltac:(auto)). rsolve. reflexivity. Qed.
Lemma c37_log_parabola N u a b r E : 0 < r -> 0 < E ->
  call (LogParabola (Fin N) u a b r) (Fin E) = (Fin (N * Rpower (E / r) (a + b * log10 (E / r))), u).
Proof.
  intros Hr HE. cbn [call]. rewrite log10_div by auto. cbn [ndiv]. rsolve. cbn [nmul nadd npown]. rewrite npow_pos by (apply Rpower_div_pos; auto). reflexivity.
Qed.
Lemma c37_log_parabola_b0 N u a r E : 0 < r -> 0 < E ->
  call (LogParabola (Fin N) u a 0 r) (Fin E) = call (PowerLaw (mkPL (Fin N) u a r)) (Fin E).
Proof. intros. rewrite c37_log_parabola by auto. cbn [call pl_unit]. rewrite pl_call_fin by auto. rewrite Rmult_0_l, Rplus_0_r. reflexivity. Qed.
Lemma c37_bump N u i r f mu sigma E : 0 < r -> 0 < E -> sigma <> 0 -> exists x g,
  call (PowerLaw (mkPL (Fin N) u i r)) (Fin E) = (Fin x, u) /\
  call (ExpGauss (mkPL (Fin N) u i r) f mu sigma) (Fin E) = (Fin (x * (1 + f * (exp g - 1))), u) /\
  g = exp (- (1 / 2) * ((log10 (E / r) - mu) / sigma) ^ 2) /\ 0 < g <= 1.
Proof.
  intros Hr HE Hs. cbn [call pl_unit]. rewrite pl_call_fin by auto. cbn [pl_e_ref]. rewrite log10_div by auto. cbn [nsub nneg nadd ndiv].
  replace (Reqb sigma 0) with false by (symmetry; rcmp; auto). cbn [nmul nexp nsub nneg nadd]. eexists _, _. split; [reflexivity|]. split; [reflexivity|].
  split; [f_equal; unfold Rminus; ring|]. split; [apply exp_pos|]. rewrite <- exp_0 at 2.
  set (z := (log10 (E / r) + - mu) / sigma). assert (Hz : - (1 / 2) * (z * z) <= 0) by nra. destruct Hz as [Hz|Hz]; [left; apply exp_increasing; auto|right; f_equal; auto].
Qed.
(** ** C35, the bump is lost: a concrete spectrum *)
Lemma c35_bump_refuted : exists s q E x y, integrate_cone s 0 PI = Ok q /\
  call s (Fin E) = (Fin x, Diffuse) /\ call q (Fin E) = (Fin y, PointSource) /\ y < x * ring_sr 0 PI.
Proof.
  set (p := mkPL (Fin 1) Diffuse (-3) 1). destruct (c37_bump 1 Diffuse (-3) 1 1 0 1 1 ltac:(lra) ltac:(lra) ltac:(lra)) as (x & g & H1 & H2 & Hg & G).
  destruct (c35_flux 1 (-3) 1 0 PI 1 ltac:(lra) ltac:(lra) ltac:(lra)) as (q & Hq & x' & Hx' & Hy).
  assert (x = x') by congruence. subst x'.
  exists (ExpGauss p 1 0 1), q, 1, (x * (1 + 1 * (exp g - 1))), (x * ring_sr 0 PI). split; [exact Hq|]. split; [exact H2|]. split; [exact Hy|].
  assert (Hx : x = 1). { rewrite c37_ref in H1 by lra. congruence. }
  assert (1 < exp g) by (rewrite <- exp_0; apply exp_increasing; lra). assert (0 < ring_sr 0 PI) by (apply c35_positive; pose proof PI_RGT_0; lra). nra.
Qed.

(** ** C36 *)
Lemma c36 energies f g u : calculate_event_weights energies (f, u) (g, u) = Ok (map (fun e => ndiv (f e) (g e)) energies).
Proof. unfold calculate_event_weights. destruct u; reflexivity. Qed.
Lemma c36_units energies f g u v : u <> v -> calculate_event_weights energies (f, u) (g, v) = Err UnitConversionError.
Proof. intros H. unfold calculate_event_weights. destruct u, v; try reflexivity; congruence. Qed.
Lemma c36_chain energies (A B C : num -> num) u : (forall e, In e energies -> exists a b c, A e = Fin a /\ B e = Fin b /\ C e = Fin c /\ 0 < a /\ 0 < b /\ 0 < c) ->
  exists w1 w2 w3, calculate_event_weights energies (A, u) (B, u) = Ok (map Fin w1) /\ calculate_event_weights energies (B, u) (C, u) = Ok (map Fin w2) /\
    calculate_event_weights energies (A, u) (C, u) = Ok (map Fin w3) /\ w3 = zipwith Rmult w1 w2 /\
    (forall w, In w w1 -> 0 < w) /\ calculate_event_weights energies (A, u) (A, u) = Ok (map (fun _ => Fin 1) energies).
Proof.
  intros H. set (v := fun x : num => match x with Fin r => r | _ => 0 end).
  exists (map (fun e => v (A e) / v (B e)) energies), (map (fun e => v (B e) / v (C e)) energies), (map (fun e => v (A e) / v (C e)) energies).
  assert (G : forall X Y : num -> num, (forall e, In e energies -> exists a b, X e = Fin a /\ Y e = Fin b /\ 0 < b) ->
     calculate_event_weights energies (X, u) (Y, u) = Ok (map Fin (map (fun e => v (X e) / v (Y e)) energies))).
  { intros X Y HXY. rewrite c36. f_equal. rewrite map_map. apply map_ext_in. intros e He. destruct (HXY e He) as (a & b & -> & -> & Hb). unfold v. cbn [ndiv]. rsolve. auto. }
  split; [apply G; intros e He; destruct (H e He) as (a & b & c & ? & ? & ? & ? & ? & ?); exists a, b; tauto|].
  split; [apply G; intros e He; destruct (H e He) as (a & b & c & ? & ? & ? & ? & ? & ?); exists b, c; tauto|].
  split; [apply G; intros e He; destruct (H e He) as (a & b & c & ? & ? & ? & ? & ? & ?); exists a, c; tauto|].
  split; [|split].
  - clear G. induction energies as [|e l IH]; cbn [map zipwith]; auto. rewrite <- IH by (intros; apply H; right; auto). f_equal.
    destruct (H e (or_introl eq_refl)) as (a & b & c & -> & -> & -> & ? & ? & ?). unfold v. field. lra.
  - intros w Hw. apply in_map_iff in Hw as (e & <- & He). destruct (H e He) as (a & b & c & -> & -> & ? & ? & ? & ?). unfold v. apply Rpower_div_pos; auto.
  - rewrite G.
    + f_equal. rewrite map_map. apply map_ext_in. intros e He. destruct (H e He) as (a & b & c & -> & ? & ? & ? & ? & ?). unfold v. f_equal. field. lra.
    + intros e He. destruct (H e He) as (a & b & c & ? & ? & ? & ?). exists a, a. tauto.
Qed.
(** two power laws: the weight does not depend on how either is parametrised *)
Lemma c36_e_ref N u i r1 r2 E : 0 < r1 -> 0 < r2 -> 0 < E ->
  call (PowerLaw (mkPL (Fin N) u i r1)) (Fin E) = call (PowerLaw (mkPL (Fin (N * Rpower (r2 / r1) i)) u i r2)) (Fin E).
Proof.
  intros R1 R2 HE. cbn [call pl_unit]. rewrite !pl_call_fin by auto. do 2 f_equal. rewrite Rmult_assoc, Rpower_mult_distr by (apply Rpower_div_pos; auto).
  f_equal. f_equal. field. lra.
Qed.

(** ** C38 *)
Lemma le_fst_total a b : le_fst a b = true \/ le_fst b a = true.
Proof. unfold le_fst. rewrite !Rleb_true. lra. Qed.
Lemma le_fst_trans a b c : le_fst a b = true -> le_fst b c = true -> le_fst a c = true.
Proof. unfold le_fst. rewrite !Rleb_true. lra. Qed.
Definition ssorted := StronglySorted (fun p q : R * R => fst p < fst q).
Lemma sorted_strict l : NoDup (map fst l) -> StronglySorted (fun a b => le_fst a b = true) l -> ssorted l.
Proof.
  intros Hn H. induction H as [|a l Hs IH Hf]; [constructor|]. cbn in Hn. inversion Hn; subst. constructor; [apply IH; auto|].
  rewrite Forall_forall in *. intros x Hx. pose proof (Hf x Hx) as L. unfold le_fst in L. rcmp.
  assert (fst a <> fst x). { intros E. apply H1. rewrite E. apply in_map; auto. } lra.
Qed.
Lemma isort_strict pts : NoDup (map fst pts) -> ssorted (isort le_fst pts).
Proof.
  intros H. apply sorted_strict; [|apply isort_sorted; [apply le_fst_total|apply le_fst_trans]].
  eapply Permutation_NoDup; [|exact H]. apply Permutation_map, isort_perm.
Qed.
Lemma ssorted_nth l i j p q : ssorted l -> (i < j)%nat -> nth_error l i = Some p -> nth_error l j = Some q -> fst p < fst q.
Proof.
  intros H. revert i j. induction H as [|a l Hs IH Hf]; intros i j Hij Hi Hj; [destruct i; discriminate|].
  destruct j as [|j]; [lia|]. destruct i as [|i]; cbn [nth_error] in *.
  - injection Hi as <-. rewrite Forall_forall in Hf. apply Hf. eapply nth_error_In; eauto.
  - apply (IH i j); auto; lia.
Qed.
(** the number of knots below x splits the sorted table *)
Lemma below_split l x : ssorted l -> let i := length (filter (fun p => Rltb (fst p) x) l) in
  (forall j p, nth_error l j = Some p -> (fst p < x <-> (j < i)%nat)).
Proof.
  intros H. induction H as [|a l Hs IH Hf]; cbn zeta; intros j p Hj; [destruct j; discriminate|]. cbn [filter].
  destruct (Rltb_spec (fst a) x) as [C|C]; cbn [length].
  - destruct j as [|j]; cbn [nth_error] in Hj. { injection Hj as <-. split; [lia|auto]. } rewrite (IH j p Hj). lia.
  - assert (Hz : filter (fun p => Rltb (fst p) x) l = []).
    { destruct (filter _ l) as [|b t] eqn:E; auto. assert (Hb : In b (b :: t)) by (left; auto). rewrite <- E in Hb. apply filter_In in Hb as [B1 B2]. rcmp.
      rewrite Forall_forall in Hf. specialize (Hf b B1). lra. }
    rewrite Hz. cbn [length]. split; [|lia]. intros Hp. exfalso. destruct j as [|j]; cbn [nth_error] in Hj; [injection Hj as <-; lra|].
    rewrite Forall_forall in Hf. specialize (Hf p (nth_error_In _ _ Hj)). lra.
Qed.
Lemma interp1d_polygon pts x : NoDup (map fst pts) -> (2 <= length pts)%nat ->
  exists y, interp1d_extrapolate pts x = Some y /\ on_polygon pts x y.
Proof.
  intros Hn Hl. unfold interp1d_extrapolate. set (l := isort le_fst pts). pose proof (isort_strict pts Hn) as Hs. fold l in Hs.
  assert (Ll : length l = length pts) by apply isort_length.
  assert (Hin : forall p, In p pts <-> In p l) by (intros p; split; apply Permutation_in; [|symmetry]; apply isort_perm).
  pose proof (below_split l x Hs) as Hb. cbn zeta in Hb. set (i0 := length (filter _ l)) in *.
  assert (Li0 : (i0 <= length l)%nat) by (unfold i0; clear; induction l as [|a l IH]; cbn [filter length]; [lia|]; destruct (Rltb (fst a) x); cbn [length]; lia).
  set (i := Nat.min (Nat.max i0 1) (length l - 1)).
  destruct (nth_some_ex l (i - 1)) as [[x1 y1] Hp]; [lia|]. destruct (nth_some_ex l i) as [[x2 y2] Hq]; [lia|].
  rewrite Hp, Hq. eexists. split; [reflexivity|].
  assert (H12 : x1 < x2) by (apply (ssorted_nth l (i - 1) i (x1, y1) (x2, y2) Hs); auto; lia).
  exists x1, y1, x2, y2. repeat split; auto.
  - apply Hin. eapply nth_error_In; eauto.
  - apply Hin. eapply nth_error_In; eauto.
  - intros x3 y3 H3. apply Hin, In_nth_error in H3 as [j Hj].
    destruct (Nat.lt_trichotomy j (i - 1)) as [C|[C|C]].
    + left. left. apply (ssorted_nth l j (i - 1) _ _ Hs C Hj Hp).
    + subst j. rewrite Hp in Hj. injection Hj as <- <-. left. lra.
    + right. destruct (Nat.eq_dec j i) as [->|Hne]. { rewrite Hq in Hj. injection Hj as <- <-. lra. }
      left. apply (ssorted_nth l i j _ _ Hs ltac:(lia) Hq Hj).
  - destruct (Nat.eq_dec i0 0) as [Z|Z].
    + right. intros x3 y3 H3. apply Hin, In_nth_error in H3 as [j Hj]. assert (Ei : (i - 1 = 0)%nat) by lia. rewrite Ei in Hp.
      destruct j as [|j]. { rewrite Hp in Hj. injection Hj as <- <-. lra. } left. apply (ssorted_nth l 0 (S j) _ _ Hs ltac:(lia) Hp Hj).
    + left. assert (fst (x1, y1) < x) by (apply (Hb (i - 1)%nat (x1, y1) Hp); lia). cbn in *. lra.
  - destruct (Nat.eq_dec i0 (length l)) as [Z|Z].
    + right. intros x3 y3 H3. apply Hin, In_nth_error in H3 as [j Hj]. assert (Lj := nth_some_lt _ _ _ Hj).
      destruct (Nat.eq_dec j i) as [->|Hne]. { rewrite Hq in Hj. injection Hj as <- <-. lra. } left. apply (ssorted_nth l j i _ _ Hs ltac:(lia) Hj Hq).
    + left. destruct (Rle_dec x x2) as [|C]; auto. exfalso. apply Rnot_le_lt in C. assert ((i < i0)%nat) by (apply (Hb i (x2, y2) Hq); auto). lia.
  - unfold interp_line. cbn [fst snd]. field. lra.
Qed.
(** the polygon value is unique, passes through the points and stays between neighbours *)
Lemma polygon_knot pts x0 y0 y : NoDup (map fst pts) -> In (x0, y0) pts -> on_polygon pts x0 y -> y = y0.
Proof.
  intros Hn H0 (x1 & y1 & x2 & y2 & P1 & P2 & L & Hb & Hlo & Hhi & ->).
  assert (Hu : forall a b c, In (a, b) pts -> In (a, c) pts -> b = c).
  { clear -Hn. intros a b c H1 H2. induction pts as [|[u v] pts IH]; [destruct H1|]. cbn in Hn. inversion Hn; subst.
    destruct H1 as [E1|H1], H2 as [E2|H2]; try congruence; auto.
    - exfalso. apply H3. injection E1 as -> ->. apply (in_map fst _ _ H2).
    - exfalso. apply H3. injection E2 as -> ->. apply (in_map fst _ _ H1). }
  assert (E : x0 = x1 \/ x0 = x2).
  { destruct (Hb x0 y0 H0) as [B|B].
    - left. destruct Hlo as [A|A]; [lra|]. specialize (A x0 y0 H0). lra.
    - right. destruct Hhi as [A|A]; [lra|]. specialize (A x0 y0 H0). lra. }
  destruct E as [-> | ->].
  - rewrite (Hu _ _ _ H0 P1). field. lra.
  - rewrite (Hu _ _ _ H0 P2). field. lra.
Qed.
Lemma ln10 : 0 < ln 10.
Proof. rewrite <- ln_1. apply ln_increasing; lra. Qed.
Lemma log10_spec x : 0 < x -> log10_of x (log10 x).
Proof. intros H. unfold log10_of, log10, Rpower. pose proof ln10. replace (ln x / ln 10 * ln 10) with (ln x) by (field; lra). apply exp_ln; auto. Qed.
Lemma log10_inj x y : 0 < x -> 0 < y -> log10 x = log10 y -> x = y.
Proof. intros Hx Hy E. rewrite <- (log10_spec x Hx), <- (log10_spec y Hy), E. auto. Qed.
Lemma knot_unique (pts : list (R * R)) a b c : NoDup (map fst pts) -> In (a, b) pts -> In (a, c) pts -> b = c.
Proof.
  intros Hn H1 H2. induction pts as [|[u v] pts IH]; [destruct H1|]. cbn in Hn. inversion Hn; subst.
  destruct H1 as [E1|H1], H2 as [E2|H2]; try congruence; auto.
  - exfalso. apply H3. injection E1 as -> ->. apply (in_map fst _ _ H2).
  - exfalso. apply H3. injection E2 as -> ->. apply (in_map fst _ _ H1).
Qed.
Lemma polygon_unique pts pts' x y y' : NoDup (map fst pts) -> (forall p, In p pts <-> In p pts') ->
  on_polygon pts x y -> on_polygon pts' x y' -> y = y'.
Proof.
  intros Hn He (x1 & y1 & x2 & y2 & P1 & P2 & L & Hb & Hlo & Hhi & ->) (x3 & y3 & x4 & y4 & P3 & P4 & L' & Hb' & Hlo' & Hhi' & ->).
  rewrite <- He in P3, P4.
  assert (Hb2 : forall x3 y3, In (x3, y3) pts -> x3 <= x3 \/ x4 <= x3) by (intros; left; lra).
  destruct (Rtotal_order x1 x3) as [C|[C|C]].
  - destruct (Hb x3 y3 P3) as [B|B]; [lra|]. destruct Hlo' as [A|A]; [|specialize (A x1 y1 (proj1 (He _) P1)); lra].
    destruct Hhi as [A'|A']; [|specialize (A' x4 y4 P4); lra].
    assert (x = x2) by lra. assert (x3 = x2) by lra. subst. rewrite (knot_unique pts _ _ _ Hn P2 P3). field. lra.
  - subst x3. rewrite (knot_unique pts _ _ _ Hn P1 P3).
    assert (x2 = x4). { destruct (Hb x4 y4 P4) as [B|B]; [lra|]. destruct (Hb' x2 y2 (proj1 (He _) P2)) as [B'|B']; lra. }
    subst x4. rewrite (knot_unique pts _ _ _ Hn P2 P4). reflexivity.
  - destruct (Hb' x1 y1 (proj1 (He _) P1)) as [B|B]; [lra|]. destruct Hlo as [A|A]; [|specialize (A x3 y3 P3); lra].
    destruct Hhi' as [A'|A']; [|specialize (A' x2 y2 (proj1 (He _) P2)); lra].
    assert (x = x4) by lra. assert (x1 = x4) by lra. subst. rewrite (knot_unique pts _ _ _ Hn P4 P1). field. lra.
Qed.
Lemma polygon_between pts x y xa ya xb yb : NoDup (map fst pts) -> In (xa, ya) pts -> In (xb, yb) pts -> xa < xb ->
  (forall x3 y3, In (x3, y3) pts -> x3 <= xa \/ xb <= x3) -> xa <= x <= xb -> on_polygon pts x y ->
  Rmin ya yb <= y <= Rmax ya yb.
Proof.
  intros Hn Ha Hb L Hnb Hx Hp.
  assert (Hq : on_polygon pts x (ya + (x - xa) / (xb - xa) * (yb - ya))).
  { exists xa, ya, xb, yb. split; auto. split; auto. split; auto. split; auto. split; [left; lra|]. split; [left; lra|]. auto. }
  rewrite (polygon_unique pts pts x _ _ Hn (fun _ => iff_refl _) Hp Hq).
  set (t := (x - xa) / (xb - xa)).
  assert (T : 0 <= t <= 1).
  { unfold t. split; [apply Rmult_le_pos; [lra|left; apply Rinv_0_lt_compat; lra]|].
    apply (Rmult_le_reg_r (xb - xa)); [lra|]. unfold Rdiv. rewrite Rmult_assoc, Rinv_l by lra. lra. }
  unfold Rmin, Rmax. destruct (Rle_dec ya yb); nra.
Qed.

(** ** the table spectrum *)
Definition row_ok (le lf : bool) (ref : R) (row : R * R) : Prop := (le = true -> 0 < fst row) /\ (lf = true -> 0 < snd row).
Definition scale (lg : bool) (v : R) : R := if lg then log10 v else v.
Lemma scale_on lg v : (lg = true -> 0 < v) -> on_axis lg v (scale lg v).
Proof. intros H. destruct lg; cbn; auto. apply log10_spec; auto. Qed.
Lemma on_axis_scale lg v c : (lg = true -> 0 < v) -> on_axis lg v c -> c = scale lg v.
Proof.
  intros H. destruct lg; cbn; auto. unfold log10_of, log10. intros <-. unfold Rpower. rewrite ln_exp. pose proof ln10. field. lra.
Qed.
Lemma scale_lt lg a b : (lg = true -> 0 < a) -> a < b -> scale lg a < scale lg b.
Proof.
  intros H L. destruct lg; cbn; auto. unfold log10, Rdiv. apply Rmult_lt_compat_r; [apply Rinv_0_lt_compat, ln10|]. apply ln_increasing; auto.
Qed.
Lemma scale_le lg a b : (lg = true -> 0 < a) -> a <= b -> scale lg a <= scale lg b.
Proof. intros H [L| -> ]; [left; apply scale_lt; auto|lra]. Qed.
Definition table_points le lf ref (rows : list (R * R)) : list (R * R) := map (fun r => (scale le (fst r / ref), scale lf (snd r))) rows.
Lemma table_init_points le lf ref rows : table_init (map fst rows) (map snd rows) le lf ref = mkTable (table_points le lf ref rows) le lf ref.
Proof.
  unfold table_init, table_points. f_equal. induction rows as [|[a b] rows IH]; cbn [map]; [destruct le, lf; auto|].
  destruct le, lf; cbn [map combine fst snd scale] in *; f_equal; auto.
Qed.
Section Tab.
Variables (le lf : bool) (ref : R) (rows : list (R * R)).
Hypotheses (Href : 0 < ref) (Hok : forall e f, In (e, f) rows -> (le = true -> 0 < e) /\ (lf = true -> 0 < f)) (Hnd : NoDup (map fst rows)) (Hlen : (2 <= length rows)%nat).
Let div_pos e : (le = true -> 0 < e) -> le = true -> 0 < e / ref.
Proof. intros H E. apply Rpower_div_pos; auto. Qed.
Let div_lt a b : a < b -> a / ref < b / ref.
Proof. intros H. apply Rmult_lt_compat_r; auto. apply Rinv_0_lt_compat; auto. Qed.
Let pts := table_points le lf ref rows.
Lemma pts_in e f : In (e, f) rows -> In (scale le (e / ref), scale lf f) pts.
Proof. intros H. apply (in_map (fun r => (scale le (fst r / ref), scale lf (snd r))) _ _ H). Qed.
Lemma pts_inv x y : In (x, y) pts -> exists e f, In (e, f) rows /\ x = scale le (e / ref) /\ y = scale lf f.
Proof. intros H. apply in_map_iff in H as ((e & f) & E & H). injection E as <- <-. exists e, f. auto. Qed.
Lemma scale_inj a b : (le = true -> 0 < a) -> (le = true -> 0 < b) -> scale le (a / ref) = scale le (b / ref) -> a = b.
Proof.
  intros Ha Hb E. destruct (Rtotal_order a b) as [C|[C|C]]; auto; exfalso.
  - pose proof (scale_lt le _ _ (div_pos a Ha) (div_lt _ _ C)). lra.
  - pose proof (scale_lt le _ _ (div_pos b Hb) (div_lt _ _ C)). lra.
Qed.
Lemma pts_nodup : NoDup (map fst pts).
Proof.
  unfold pts, table_points. rewrite map_map. cbn [fst]. pose proof scale_inj as Hi. clear Hlen.
  induction rows as [|[e f] l IH]; cbn [map]; [constructor|]. cbn [map] in Hnd. inversion Hnd as [|? ? N1 N2]; subst. constructor.
  - intros H. apply in_map_iff in H as ((e' & f') & E & H). cbn [fst] in E. apply N1.
    assert (e' = e). { apply Hi; auto. { apply (Hok e' f'). right; auto. } { apply (Hok e f). left; auto. } } subst e'. apply (in_map fst _ _ H).
  - apply IH; auto. intros e' f' H. apply Hok. right; auto.
Qed.
Lemma table_value E : exists y, table_call (table_init (map fst rows) (map snd rows) le lf ref) E = Some (if lf then Rpower 10 y else y) /\
  on_polygon pts (scale le (E / ref)) y.
Proof.
  rewrite table_init_points. unfold table_call. cbn [ts_ref ts_log_energy ts_points ts_log_flux].
  destruct (interp1d_polygon pts (scale le (E / ref)) pts_nodup) as (y & Hy & Hp). { unfold pts, table_points. rewrite map_length. auto. }
  unfold scale in Hy at 1. fold pts. exists y. split; auto. destruct le; rewrite Hy; auto.
Qed.
Lemma c38 E : (le = true -> 0 < E) -> exists v x y points,
  table_call (table_init (map fst rows) (map snd rows) le lf ref) E = Some v /\
  on_axis le (E / ref) x /\ on_axis lf v y /\
  length points = length rows /\
  (forall i e f, nth_error rows i = Some (e, f) -> exists xi yi, nth_error points i = Some (xi, yi) /\ on_axis le (e / ref) xi /\ on_axis lf f yi) /\
  on_polygon points x y.
Proof.
  intros HE. destruct (table_value E) as (y & Hy & Hp). exists (if lf then Rpower 10 y else y), (scale le (E / ref)), y, pts.
  split; auto. split; [apply scale_on; auto|]. split; [destruct lf; cbn; auto; reflexivity|].
  split; [unfold pts, table_points; apply map_length|]. split; auto.
  intros i e f Hi. exists (scale le (e / ref)), (scale lf f). pose proof (Hok e f (nth_error_In _ _ Hi)) as [O1 O2]. split; [|split; apply scale_on; auto].
  apply (map_nth_error (fun r => (scale le (fst r / ref), scale lf (snd r))) _ _ Hi).
Qed.
Lemma unscale f : (lf = true -> 0 < f) -> (if lf then Rpower 10 (scale lf f) else scale lf f) = f.
Proof. intros H. destruct lf; cbn; auto. apply log10_spec; auto. Qed.
Lemma c38_knot e f : In (e, f) rows -> table_call (table_init (map fst rows) (map snd rows) le lf ref) e = Some f.
Proof.
  intros H. destruct (table_value e) as (y & -> & Hp). rewrite (polygon_knot pts _ (scale lf f) y pts_nodup (pts_in e f H) Hp).
  f_equal. apply unscale. apply (Hok e f H).
Qed.
Lemma c38_between e1 f1 e2 f2 E : In (e1, f1) rows -> In (e2, f2) rows -> e1 <= E <= e2 -> e1 < e2 ->
  (forall e f, In (e, f) rows -> e <= e1 \/ e2 <= e) ->
  exists v, table_call (table_init (map fst rows) (map snd rows) le lf ref) E = Some v /\ Rmin f1 f2 <= v <= Rmax f1 f2.
Proof.
  intros H1 H2 HE L Hn. destruct (table_value E) as (y & -> & Hp). eexists. split; [reflexivity|].
  pose proof (Hok _ _ H1) as [O1 O1']. pose proof (Hok _ _ H2) as [O2 O2'].
  assert (B : Rmin (scale lf f1) (scale lf f2) <= y <= Rmax (scale lf f1) (scale lf f2)).
  { apply (polygon_between pts (scale le (E / ref)) y (scale le (e1 / ref)) _ (scale le (e2 / ref)) _ pts_nodup (pts_in _ _ H1) (pts_in _ _ H2)); auto.
    - apply scale_lt; auto.
    - intros x3 y3 H3. apply pts_inv in H3 as (e & f & He & -> & ->). pose proof (Hok e f He) as [O3 _].
      destruct (Hn e f He) as [C|C]; [left|right]; (apply scale_le; [apply div_pos; auto|]); unfold Rdiv; apply Rmult_le_compat_r; auto; left; apply Rinv_0_lt_compat; auto.
    - split; (apply scale_le; [apply div_pos; intros Q; try (specialize (O1 Q)); auto; lra|]); unfold Rdiv; apply Rmult_le_compat_r; try lra; left; apply Rinv_0_lt_compat; auto. }
  destruct lf; cbn [scale] in *; auto.
  assert (M : forall a b, a <= b -> Rpower 10 a <= Rpower 10 b) by (intros a b Hab; apply Rle_Rpower; lra).
  rewrite <- (log10_spec f1), <- (log10_spec f2) by auto. unfold Rmin, Rmax in B.
  destruct (Rle_dec (log10 f1) (log10 f2)) as [C|C].
  - pose proof (M _ _ C). rewrite Rmin_left, Rmax_right by auto. split; apply M; lra.
  - assert (C' : log10 f2 <= log10 f1) by lra. pose proof (M _ _ C'). rewrite Rmin_right, Rmax_left by auto. split; apply M; lra.
Qed.
End Tab.
Lemma c38_order le lf ref rows rows' E : 0 < ref -> (forall e f, In (e, f) rows -> (le = true -> 0 < e) /\ (lf = true -> 0 < f)) ->
  NoDup (map fst rows) -> (2 <= length rows)%nat -> Permutation rows rows' ->
  table_call (table_init (map fst rows') (map snd rows') le lf ref) E = table_call (table_init (map fst rows) (map snd rows) le lf ref) E.
Proof.
  intros Hr Hok Hn Hl P.
  assert (P1 : forall r, In r rows <-> In r rows') by (intros r; split; apply Permutation_in; auto; symmetry; auto).
  destruct (table_value le lf ref rows Hr Hok Hn Hl E) as (y & -> & Hp).
  destruct (table_value le lf ref rows' Hr) with (E := E) as (y' & -> & Hp').
  - intros e f H. apply Hok, P1, H.
  - eapply Permutation_NoDup; [apply Permutation_map, P|auto].
  - rewrite <- (Permutation_length P). auto.
  - assert (Y : y = y'); [|subst; auto]. eapply (polygon_unique (table_points le lf ref rows) (table_points le lf ref rows')); eauto.
    + apply pts_nodup; auto.
    + intros p. unfold table_points. rewrite !in_map_iff. split; intros (r & A & B); exists r; split; auto; apply P1; auto.
Qed.

(** ** remaining: C34 edge cases, C36 and C37 for the library's own spectra *)
Lemma c34_index_minus_one s T e_ref : spectral_index s = -1 -> 0 < energy_min s -> 0 < energy_max s -> 0 < e_ref ->
  exists p, from_simulation s T e_ref = Ok p /\ pl_norm p = NaN.
Proof.
  intros Hi H1 H2 H3. unfold from_simulation. rewrite Hi. rewrite !npow_pos by auto. replace (-1 + 1) with 0 by ring.
  rewrite !Rpower_O by auto. destruct (if Rltb 0 (viewcone_max s - viewcone_min s) then _ else _) as [om u].
  unfold nz. cbn [nsub nneg nadd nmul].
  replace (1 + - (1)) with 0 by ring. rewrite ?Rmult_0_r, ?Rmult_0_l. cbn [ndiv].
  rsolve. unfold power_law_init. rsolve. eexists. split; reflexivity.
Qed.
Lemma c34_index_positive s T e_ref : 0 < spectral_index s -> from_simulation s T e_ref = Err ValueError.
Proof.
  intros Hi. unfold from_simulation. destruct (if Rltb 0 (viewcone_max s - viewcone_min s) then _ else _) as [om u].
  unfold power_law_init. rsolve. reflexivity.
Qed.
Lemma c36_e_ref_weights energies N1 N2 u i1 i2 r1 r2 r1' r2' : 0 < r1 -> 0 < r2 -> 0 < r1' -> 0 < r2' -> (forall e, In e energies -> exists E, e = Fin E /\ 0 < E) ->
  calculate_event_weights energies (as_callable (PowerLaw (mkPL (Fin N1) u i1 r1))) (as_callable (PowerLaw (mkPL (Fin N2) u i2 r2))) =
  calculate_event_weights energies (as_callable (PowerLaw (mkPL (Fin (N1 * Rpower (r1' / r1) i1)) u i1 r1'))) (as_callable (PowerLaw (mkPL (Fin (N2 * Rpower (r2' / r2) i2)) u i2 r2'))).
Proof.
  intros R1 R2 R1' R2' He. unfold as_callable. cbn [spectrum_unit pl_unit]. rewrite !c36. f_equal. apply map_ext_in. intros e Hin.
  destruct (He e Hin) as (E & -> & HE). rewrite (c36_e_ref N1 u i1 r1 r1' E), (c36_e_ref N2 u i2 r2 r2' E) by auto. reflexivity.
Qed.
Lemma c36_spectrum s E : fst (as_callable s) E = fst (call s E) /\ snd (as_callable s) = snd (call s E).
Proof. destruct s; cbn; auto. Qed.
Lemma c37_bump_law N u i r f mu sigma E : 0 < r -> 0 < E -> sigma <> 0 -> exists x y,
  call (PowerLaw (mkPL (Fin N) u i r)) (Fin E) = (Fin x, u) /\
  call (ExpGauss (mkPL (Fin N) u i r) f mu sigma) (Fin E) = (Fin y, u) /\
  (f = 0 -> y = x) /\ (0 < N -> 0 <= f -> x <= y) /\ (0 < N -> 0 < f -> x < y <= x * (1 + f * (exp 1 - 1))).
Proof.
  intros Hr HE Hs. destruct (c37_bump N u i r f mu sigma E Hr HE Hs) as (x & g & H1 & H2 & Hg & G).
  exists x, (x * (1 + f * (exp g - 1))). split; auto. split; auto.
  assert (E1 : 1 < exp g) by (rewrite <- exp_0; apply exp_increasing; lra).
  assert (E2 : exp g <= exp 1) by (destruct (proj2 G) as [C| -> ]; [left; apply exp_increasing; auto|lra]).
  assert (X : 0 < N -> 0 < x).
  { intros HN. cbn [call pl_unit] in H1. rewrite pl_call_fin in H1 by auto. assert (x = N * Rpower (E / r) i) by congruence. subst x. apply Rmult_lt_0_compat; auto. apply Rpower_pos. }
  split; [intros ->; ring|]. split.
  - intros HN Hf. specialize (X HN). assert (0 <= f * (exp g - 1)) by (apply Rmult_le_pos; lra). nra.
  - intros HN Hf. specialize (X HN). assert (0 < f * (exp g - 1)) by (apply Rmult_lt_0_compat; lra).
    assert (f * (exp g - 1) <= f * (exp 1 - 1)) by (apply Rmult_le_compat_l; lra). nra.
Qed.
Lemma c37_log_parabola_pos N u a b r E : 0 < N -> 0 < r -> 0 < E -> exists x, call (LogParabola (Fin N) u a b r) (Fin E) = (Fin x, u) /\ 0 < x.
Proof. intros. eexists. split; [apply c37_log_parabola; auto|]. apply Rmult_lt_0_compat; auto. apply Rpower_pos. Qed.

(** PowerLawWithExponentialGaussian as constructed *)
Lemma c37_exp_gauss N u i r f mu sigma :
  (0 < i -> exp_gauss_init (Fin N) u i r f mu sigma = Err ValueError) /\
  (i <= 0 -> 0 < r -> sigma <> 0 -> exists s, exp_gauss_init (Fin N) u i r f mu sigma = Ok s /\ forall E, 0 < E ->
     call s (Fin E) = (Fin (N * Rpower (E / r) i * (1 + f * (exp (exp (- (1 / 2) * ((log10 (E / r) - mu) / sigma) ^ 2)) - 1))), u)).
Proof.
  unfold exp_gauss_init, power_law_init. split.
  - intros H. rewrite (proj2 (Rltb_true 0 i) H). reflexivity.
  - intros H Hr Hs. replace (Rltb 0 i) with false by (symmetry; apply Rltb_false; lra). cbn [rbind]. eexists. split; [reflexivity|]. intros E HE.
    destruct (c37_bump N u i r f mu sigma E Hr HE Hs) as (x & g & H1 & H2 & Hg & G). rewrite H2, Hg.
    cbn [call pl_unit] in H1. rewrite pl_call_fin in H1 by auto. replace x with (N * Rpower (E / r) i) by congruence. reflexivity.
Qed.
