(** * SpectralUnitsProofs4: tables and the spectra of the module, with units *)
From Coq Require Import Reals ZArith Lra Lia String List Bool.
From Verif Require Import Num Numpy Sort Lists Utils Simulations Spectral SpectralProofs Quantities SpectralUnits SpecUnits SpectralUnitsProofs SpectralUnitsProofs2 SpectralUnitsProofs3.
Import ListNotations.
Open Scope R_scope.

Lemma energy_over u v : unit_of energy_dim u -> unit_of energy_dim v -> deqb (dmul (qu_dim u) (dpow (qu_dim v) (-1))) dnone = true.
Proof. intros [-> _] [-> _]. apply deqb_true. dims. Qed.
Lemma rel_tev e r su sr : r <> 0 -> 0 < su -> 0 < sr -> e / r * (su / sr) = e * (su / tev) / (r * (sr / tev)).
Proof. intros Hr Hu Hs. pose proof tev_pos. field. repeat split; lra. Qed.
Lemma table_ref x y le lf r e e' : e = e' / r -> table_call (table_init (map (fun e => e / r) x) y le lf 1) e = table_call (table_init x y le lf r) e'.
Proof.
  intros ->. unfold table_call, table_init. cbn [ts_ref ts_log_energy ts_log_flux ts_points].
  replace (map (fun z => z / 1) (map (fun z => z / r) x)) with (map (fun z => z / r) x) by (rewrite map_map; apply map_ext; intros; unfold Rdiv; rewrite Rinv_1, Rmult_1_r; auto).
  replace (e' / r / 1) with (e' / r) by (unfold Rdiv; rewrite Rinv_1, Rmult_1_r; auto). reflexivity.
Qed.
Theorem c68_table energies fluxes ue uf le lf r ur : unit_of energy_dim ue -> unit_of energy_dim ur -> r <> 0 ->
  exists t, qtable_init (mkCol energies ue) (mkCol fluxes uf) le lf (r, ur) = Ok t /\
    forall x u, unit_of energy_dim u ->
      qtable_call t (x, u) = Ok (option_map (fun y => (y, uf))
        (table_call (table_init (map (fun e => e * (qu_scale ue / tev)) energies) fluxes le lf (r * (qu_scale ur / tev))) (x * (qu_scale u / tev)))).
Proof.
  intros He Hr H0. unfold qtable_init. cbn [c_unit c_val snd fst]. rewrite energy_over by auto. eexists. split; [reflexivity|].
  intros x u Hu. unfold qtable_call. cbn [qt_ref snd fst qt_flux_unit qt_spectrum]. rewrite energy_over by auto. f_equal. f_equal.
  replace (map (fun e => e / r * (qu_scale ue / qu_scale ur)) energies) with (map (fun e => e / (r * (qu_scale ur / tev))) (map (fun e => e * (qu_scale ue / tev)) energies)).
  - apply table_ref. apply rel_tev; auto; [apply Hu|apply Hr].
  - rewrite map_map. apply map_ext. intros e. symmetry. apply rel_tev; auto; [apply He|apply Hr].
Qed.
Theorem c68_table_errors energies fluxes ue uf le lf r ur : qu_dim ue <> qu_dim ur ->
  qtable_init (mkCol energies ue) (mkCol fluxes uf) le lf (r, ur) = Err UnitConversionError.
Proof.
  intros H. unfold qtable_init. cbn [c_unit snd]. replace (deqb _ _) with false; auto. symmetry. apply deqb_false. intros E. apply H.
  destruct (qu_dim ue), (qu_dim ur). injection E. cbn. intros. f_equal; lra.
Qed.
Theorem c68_table_call_errors t x u : qu_dim u <> qu_dim (snd (qt_ref t)) -> qtable_call t (x, u) = Err UnitConversionError.
Proof.
  intros H. unfold qtable_call. cbn [snd]. replace (deqb _ _) with false; auto. symmetry. apply deqb_false. intros E. apply H.
  destruct (qu_dim u), (qu_dim (snd (qt_ref t))). injection E. cbn. intros. f_equal; lra.
Qed.

(** interpolation commutes with affine maps of the values *)
Lemma insert_map {A B} (le : A -> A -> bool) (le' : B -> B -> bool) (f : A -> B) : (forall a b, le' (f a) (f b) = le a b) ->
  forall a l, insert le' (f a) (map f l) = map f (insert le a l).
Proof. intros H a l. induction l as [|b l IH]; cbn; auto. rewrite H. destruct (le a b); cbn; auto. rewrite IH. auto. Qed.
Lemma isort_map {A B} (le : A -> A -> bool) (le' : B -> B -> bool) (f : A -> B) : (forall a b, le' (f a) (f b) = le a b) ->
  forall l, isort le' (map f l) = map f (isort le l).
Proof. intros H l. induction l as [|a l IH]; cbn; auto. rewrite IH. apply insert_map. auto. Qed.
Lemma filter_map_length {A B} (p : B -> bool) (q : A -> bool) (f : A -> B) : (forall a, p (f a) = q a) -> forall l, List.length (filter p (map f l)) = List.length (filter q l).
Proof. intros H l. induction l as [|a l IH]; cbn; auto. rewrite H. destruct (q a); cbn; auto. Qed.
Lemma interp_affine k c pts x :
  interp1d_extrapolate (map (fun p => (fst p, k * snd p + c)) pts) x = option_map (fun y => k * y + c) (interp1d_extrapolate pts x).
Proof.
  unfold interp1d_extrapolate. cbv zeta. rewrite (isort_map le_fst le_fst) by reflexivity.
  rewrite (filter_map_length _ (fun p => Rltb (fst p) x)) by reflexivity. rewrite map_length, !nth_error_map.
  destruct (nth_error (isort le_fst pts) _) as [p|]; cbn [option_map]; auto.
  destruct (nth_error (isort le_fst pts) _) as [q|]; cbn [option_map]; auto. f_equal. unfold interp_line. cbn [fst snd]. unfold Rdiv. ring.
Qed.
Lemma combine_map_snd {A} (x : list A) (y : list R) k c : combine x (map (fun v => k * v + c) y) = map (fun p => (fst p, k * snd p + c)) (combine x y).
Proof. revert y. induction x as [|a x IH]; intros [|b y]; cbn; auto. rewrite IH. auto. Qed.
Lemma table_flux_scale energies fluxes le lf r c e : 0 < c -> (lf = true -> Forall (fun f => 0 < f) fluxes) ->
  table_call (table_init energies (map (fun f => f * c) fluxes) le lf r) e = option_map (fun y => y * c) (table_call (table_init energies fluxes le lf r) e).
Proof.
  intros Hc Hp. unfold table_call, table_init. cbn [ts_ref ts_log_energy ts_log_flux ts_points]. destruct lf.
  - replace (map log10 (map (fun f => f * c) fluxes)) with (map (fun v => 1 * v + log10 c) (map log10 fluxes)).
    + rewrite combine_map_snd, interp_affine. destruct (interp1d_extrapolate _ _) as [y|]; cbn [option_map]; auto. f_equal.
      rewrite Rpower_plus, Rmult_1_l. f_equal. unfold Rpower, log10. replace (ln c / ln 10 * ln 10) with (ln c); [apply exp_ln; auto|].
      field. apply Rgt_not_eq. rewrite <- ln_1. apply ln_increasing; lra.
    + rewrite !map_map. apply map_ext_in. intros f Hf. specialize (Hp eq_refl). rewrite Forall_forall in Hp. specialize (Hp f Hf).
      unfold log10. rewrite ln_mult by auto. unfold Rdiv. ring.
  - replace (map (fun f => f * c) fluxes) with (map (fun v => c * v + 0) fluxes) by (apply map_ext; intros; ring).
    rewrite combine_map_snd, interp_affine. destruct (interp1d_extrapolate _ _) as [y|]; cbn [option_map]; auto. f_equal. ring.
Qed.
(** the same table in other units: the same fluxes *)
Lemma same_map f f' uf uf' : 0 < qu_scale uf -> 0 < qu_scale uf' -> Forall2 (fun a b => same_real (a, uf) (b, uf')) f f' ->
  f' = map (fun x => x * (qu_scale uf / qu_scale uf')) f.
Proof.
  intros S S'. induction 1 as [|a b l l' [_ H] _ IH]; auto. cbn [map]. cbn [fst snd] in H. f_equal; auto. apply (Rmult_eq_reg_r (qu_scale uf')); [|lra].
  rewrite <- H. field. lra.
Qed.
Theorem c68_table_same e f ue uf e' f' ue' uf' le lf r ur r' ur' x u x' u' :
  unit_of energy_dim ue -> unit_of energy_dim ue' -> unit_of energy_dim ur -> unit_of energy_dim ur' -> unit_of energy_dim u -> unit_of energy_dim u' ->
  0 < qu_scale uf -> 0 < qu_scale uf' -> qu_dim uf = qu_dim uf' -> r <> 0 -> (lf = true -> Forall (fun y => 0 < y) f) ->
  Forall2 (fun a b => same_real (a, ue) (b, ue')) e e' -> Forall2 (fun a b => same_real (a, uf) (b, uf')) f f' ->
  same_real (r, ur) (r', ur') -> same_real (x, u) (x', u') ->
  exists t t', qtable_init (mkCol e ue) (mkCol f uf) le lf (r, ur) = Ok t /\ qtable_init (mkCol e' ue') (mkCol f' uf') le lf (r', ur') = Ok t' /\
    ((qtable_call t (x, u) = Ok None /\ qtable_call t' (x', u') = Ok None) \/
     exists y y', qtable_call t (x, u) = Ok (Some (y, uf)) /\ qtable_call t' (x', u') = Ok (Some (y', uf')) /\ same_real (y, uf) (y', uf')).
Proof.
  intros He He' Hr Hr' Hu Hu' Sf Sf' Df H0 Hp Fe Ff [_ Er] [_ Ex]. cbn [fst snd] in Er, Ex. pose proof tev_pos as Tp.
  assert (H0' : r' <> 0). { intros ->. destruct Hr as [_ Hr]. rewrite Rmult_0_l in Er. apply Rmult_integral in Er. lra. }
  destruct (c68_table e f ue uf le lf r ur He Hr H0) as (t & Et & Ct). destruct (c68_table e' f' ue' uf' le lf r' ur' He' Hr' H0') as (t' & Et' & Ct').
  exists t, t'. split; auto. split; auto. rewrite (Ct x u Hu), (Ct' x' u' Hu').
  replace (r' * (qu_scale ur' / tev)) with (r * (qu_scale ur / tev)) by (unfold Rdiv; rewrite <- !Rmult_assoc, Er; auto).
  replace (x' * (qu_scale u' / tev)) with (x * (qu_scale u / tev)) by (unfold Rdiv; rewrite <- !Rmult_assoc, Ex; auto).
  replace (map (fun e => e * (qu_scale ue' / tev)) e') with (map (fun e => e * (qu_scale ue / tev)) e).
  2:{ rewrite (same_map e e' ue ue') by (auto; first [apply He|apply He']). rewrite map_map. apply map_ext. intros a. destruct He, He'. field. lra. }
  rewrite (same_map f f' uf uf') by auto. rewrite table_flux_scale by posr.
  destruct (table_call _ _) as [y|]; cbn [option_map]; [right|left; auto].
  exists y, (y * (qu_scale uf / qu_scale uf')). split; auto. split; auto. split; cbn [fst snd]; auto. field. lra.
Qed.
Theorem c68_from_table table le lf ref e f : column table "energy" = Ok e -> column table "flux" = Ok f -> from_table table le lf ref = qtable_init e f le lf ref.
Proof. intros He Hf. unfold from_table. rewrite He, Hf. reflexivity. Qed.
Lemma column_none table name : (forall c, ~ In (name, c) table) -> column table name = Err KeyError.
Proof.
  intros H. unfold column. destruct (find _ _) as [[n c]|] eqn:E; auto. apply find_some in E. cbn [fst] in E. destruct E as [Hin Eq]. apply String.eqb_eq in Eq. subst. exfalso. eapply H, Hin.
Qed.
Theorem c68_from_table_errors table le lf ref : (forall c, ~ In ("energy"%string, c) table) \/ ((exists c, column table "energy" = Ok c) /\ forall c, ~ In ("flux"%string, c) table) ->
  from_table table le lf ref = Err KeyError.
Proof.
  intros [H|[[c Hc] H]]; unfold from_table.
  - rewrite column_none by auto. reflexivity.
  - rewrite Hc. cbn [rbind]. rewrite column_none by auto. reflexivity.
Qed.

(** ** the spectra of the module *)
Lemma measured_pl x u i y v k N r : i <= 0 -> in_flux_unit (Fin x) (udiv one_ u) k (Fin N) -> in_tev (Fin y) v (Fin r) ->
  exists q, q_power_law (per x u) i (Qty (mkQ (Fin y) v)) = Ok q /\ measures (PowerLaw (mkPL (Fin N) k i r)) q.
Proof.
  intros Hi Hn Hr. eexists. split.
  - unfold per. apply c68_init. split; auto. do 2 eexists. split; [reflexivity|]. split; [reflexivity|]. cbn [q_unit]. split; [exists k; apply Hn|]. split; [apply Hr|reflexivity].
  - cbn [measures pl_unit pl_norm pl_index pl_e_ref q_val q_unit]. auto.
Qed.
Lemma TeV_unit : unit_of energy_dim TeV.
Proof. split; [reflexivity|]. rewrite TeV_scale. apply tev_pos. Qed.
Lemma one_TeV : in_tev (Fin 1) TeV (Fin 1).
Proof. split; [apply TeV_unit|]. cbn [nmul]. f_equal. rewrite TeV_scale. pose proof tev_pos. field. lra. Qed.
Lemma one_GeV : in_tev (Fin 1) GeV (Fin (1 / 1000)).
Proof. split; [split; [reflexivity|cbn; unfold eV_in_J; lra]|]. cbn [nmul]. f_equal. cbn. unfold eV_in_J, tev. field. Qed.
Lemma per_flux x u k N : dpow (qu_dim u) (-1) = flux_dim k -> 0 < qu_scale u -> N = x / qu_scale u * tev -> in_flux_unit (Fin x) (udiv one_ u) k (Fin N).
Proof.
  intros D S ->. split; [split|].
  - unfold udiv. cbn [qu_dim one_]. rewrite D. destruct k; dims.
  - cbn. unfold Rdiv. rewrite Rmult_1_l. apply Rinv_0_lt_compat. auto.
  - cbn [nmul]. f_equal. cbn. field. lra.
Qed.
Ltac scale_pos := cbn; unfold eV_in_J; lra.
Theorem c68_crab_hegra : exists q, CRAB_HEGRA = Ok q /\ measures (PowerLaw (mkPL (Fin (283 / 10 ^ 9)) PointSource (- (262 / 100)) 1)) q.
Proof. apply measured_pl; [lra| |apply one_TeV]. apply per_flux; [dims|scale_pos|]. cbn. unfold eV_in_J, tev. field. Qed.
Theorem c68_pdg : exists q, PDG_ALL_PARTICLE = Ok q /\ measures (PowerLaw (mkPL (Fin (18 * 10 ^ 6)) Diffuse (- (27 / 10)) (1 / 1000))) q.
Proof. apply measured_pl; [lra| |apply one_GeV]. apply per_flux; [dims|scale_pos|]. cbn. unfold eV_in_J, tev. field. Qed.
Theorem c68_proton : exists q, IRFDOC_PROTON_SPECTRUM = Ok q /\ measures (PowerLaw (mkPL (Fin (98 / 10 ^ 3)) Diffuse (- (262 / 100)) 1)) q.
Proof. apply measured_pl; [lra| |apply one_TeV]. apply per_flux; [dims|scale_pos|]. cbn. unfold eV_in_J, tev. field. Qed.
Theorem c68_crab_magic : exists q, CRAB_MAGIC_JHEAP2015 = Ok q /\ measures (LogParabola (Fin (323 / 10 ^ 9)) PointSource (- (247 / 100)) (- (24 / 100)) 1) q.
Proof.
  assert (N : in_flux_unit (Fin (323 / 10 ^ 13)) (udiv one_ (umul (umul TeV (umul cm cm)) second)) PointSource (Fin (323 / 10 ^ 9))).
  { apply per_flux; [dims|scale_pos|]. cbn. unfold eV_in_J, tev. field. }
  eexists. split.
  - apply c68_init_log_parabola. do 2 eexists. split; [reflexivity|]. split; [reflexivity|]. split; [eexists; apply N|]. split; reflexivity.
  - cbn [measures q_val q_unit]. split; [exact N|]. split; auto. split; auto. apply one_TeV.
Qed.
Theorem c68_electron : exists q, IRFDOC_ELECTRON_SPECTRUM = Ok q /\
  measures (ExpGauss (mkPL (Fin (2385 / 10 ^ 8)) Diffuse (- (343 / 100)) 1) (195 / 100) (- (101 / 1000)) (741 / 1000)) q.
Proof.
  assert (N : in_flux_unit (Fin (2385 / 10 ^ 12)) (udiv one_ (umul (umul (umul TeV (umul cm cm)) second) sr)) Diffuse (Fin (2385 / 10 ^ 8))).
  { apply per_flux; [dims|scale_pos|]. cbn. unfold eV_in_J, tev. field. }
  eexists. split.
  - apply c68_init_exp_gauss. split; [lra|]. do 2 eexists. split; [reflexivity|]. split; [reflexivity|]. split; [eexists; apply N|]. split; reflexivity.
  - cbn [measures pl_unit pl_norm pl_index pl_e_ref q_val q_unit]. split; [exact N|]. split; auto. split; auto. apply one_TeV.
Qed.
