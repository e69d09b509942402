(** * SpectralUnitsProofs3: from_simulation, tables and the spectra of the module, with units *)
From Coq Require Import Reals ZArith Lra Lia String List Bool.
From Verif Require Import Num Numpy Sort Lists Utils Simulations Spectral SpectralProofs Quantities SpectralUnits SpecUnits SpectralUnitsProofs SpectralUnitsProofs2.
Import ListNotations.
Open Scope R_scope.

(** ** from_simulation *)
Lemma Rpower_pos x p : 0 < Rpower x p.
Proof. unfold Rpower. apply exp_pos. Qed.
Lemma pos_of_scaled x c : 0 < c -> 0 < x * c -> 0 < x.
Proof. intros Hc H. destruct (Rle_or_lt x 0) as [L|L]; auto. nra. Qed.
Lemma npow_pos x p : 0 < x -> npow (Fin x) p = Fin (Rpower x p).
Proof. intros H. cbn [npow]. rsolve. auto. Qed.
Lemma Rpower_quot x y p : 0 < x -> 0 < y -> Rpower (x / y) p = Rpower x p / Rpower y p.
Proof.
  intros Hx Hy. unfold Rdiv. rewrite <- Rpower_mult_distr; auto using Rinv_0_lt_compat. f_equal.
  unfold Rpower. rewrite ln_Rinv by auto. rewrite <- exp_Ropp. f_equal. lra.
Qed.
Lemma flux_unit_ok k : unit_of (flux_dim k) match k with PointSource => POINT_SOURCE_FLUX_UNIT | Diffuse => DIFFUSE_FLUX_UNIT end.
Proof. destruct k; split; auto using point_dim, diffuse_dim; rewrite ?point_scale, ?diffuse_scale; posr. Qed.
Lemma delta_ok xM sM xm sm p : 0 < xM -> 0 < xm -> unit_of energy_dim sM -> unit_of energy_dim sm ->
  qsub (qpow (mkQ (Fin xM) sM) p) (qpow (mkQ (Fin xm) sm) p) =
  Ok (mkQ (Fin (Rpower xM p - Rpower xm p * (Rpower (qu_scale sm) p / Rpower (qu_scale sM) p))) (upow sM p)).
Proof.
  intros HM Hm [DM SM] [Dm Sm]. unfold qsub, to_value, qpow. cbn [q_unit q_val upow qu_dim]. rewrite DM, Dm, deqb_refl. cbn [rbind].
  rewrite !npow_pos by auto. reflexivity.
Qed.
Lemma width_ok xM uM xm um vM vm : in_si angle_dim xM uM vM -> in_si angle_dim xm um vm ->
  exists w, qsub (mkQ (Fin xM) uM) (mkQ (Fin xm) um) = Ok (mkQ (Fin w) uM) /\ Rltb 0 w = Rltb 0 (vM - vm).
Proof.
  intros [[DM SM] ->] [[Dm Sm] ->]. exists (xM - xm * (qu_scale um / qu_scale uM)). split.
  - unfold qsub, to_value. cbn [q_unit q_val]. rewrite DM, Dm, deqb_refl. reflexivity.
  - replace (xM * qu_scale uM - xm * qu_scale um) with ((xM - xm * (qu_scale um / qu_scale uM)) * qu_scale uM) by (field; lra).
    generalize (xM - xm * (qu_scale um / qu_scale uM)). intros w. destruct (Rltb_spec 0 w) as [L|L]; symmetry; [apply Rltb_true; nra|apply Rltb_false; nra].
Qed.
Lemma dim_ratio k i A u v : d_angle A = match k with PointSource => 0 | Diffuse => 2 end -> d_length A = 0 -> d_mass A = 0 -> d_time A = 0 ->
  qu_dim u = energy_dim -> qu_dim v = energy_dim ->
  forall T I, qu_dim T = time_dim -> qu_dim I = length_dim ->
  dmul (dpow (qu_dim u) i) (dpow (dmul (dmul (dmul (dmul (qu_dim I) (qu_dim I)) (qu_dim T)) A) (dpow (qu_dim v) (i + 1))) (-1)) = flux_dim k.
Proof. intros Ha Hl Hm Ht -> -> T I -> ->. destruct A. cbn in *. subst. destruct k; dims. Qed.
Theorem c68_from_simulation s q xt ut T xe ue E : sim_measures s q -> 0 < energy_min s -> 0 < energy_max s -> 0 < E ->
  in_si time_dim xt ut T -> in_tev (Fin xe) ue (Fin E) ->
  match from_simulation s T E with
  | Ok p => exists n, q_from_simulation q (Qty (mkQ (Fin xt) ut)) (Qty (mkQ (Fin xe) ue)) = Ok (QPowerLaw n (pl_index p) (mkQ (Fin xe) ue)) /\
      measures (PowerLaw p) (QPowerLaw n (pl_index p) (mkQ (Fin xe) ue)) /\
      q_unit n = match pl_unit p with PointSource => POINT_SOURCE_FLUX_UNIT | Diffuse => DIFFUSE_FLUX_UNIT end
  | Err e => q_from_simulation q (Qty (mkQ (Fin xt) ut)) (Qty (mkQ (Fin xe) ue)) = Err e
  end.
Proof.
  intros (Hn & Hi & [Um Em] & [UM EM] & Himp & Hvm & HvM) Pm PM PE [Ut ->] [Ue Ee].
  destruct q as [qn [xm um] [xM uM] [xi ui] qi [am wm] [aM wM]]. cbn [qs_n_showers qs_energy_min qs_energy_max qs_max_impact qs_index qs_viewcone_min qs_viewcone_max fst snd] in *. subst qn qi.
  cbn [nmul] in Em, EM, Ee. injection Em as Em. injection EM as EM. injection Ee as Ee.
  pose proof tev_pos as Tp.
  assert (0 < xm) by (rewrite Em in Pm; eapply pos_of_scaled; [|exact Pm]; destruct Um; posr).
  assert (0 < xM) by (rewrite EM in PM; eapply pos_of_scaled; [|exact PM]; destruct UM; posr).
  assert (0 < xe) by (rewrite Ee in PE; eapply pos_of_scaled; [|exact PE]; destruct Ue; posr).
  unfold q_from_simulation. cbn [quantity_input existsb q_unit]. replace (qu_dim hour) with time_dim by reflexivity. rewrite (proj1 Ut), deqb_refl. cbn [orb rbind].
  rewrite TeV_dim, (proj1 Ue), deqb_refl. cbn [orb rbind].
  cbn [qs_n_showers qs_energy_min qs_energy_max qs_max_impact qs_index qs_viewcone_min qs_viewcone_max]. unfold qty. cbn [fst snd].
  set (i := spectral_index s) in *.
  destruct (width_ok _ _ _ _ _ _ HvM Hvm) as (w & -> & Hw). cbn [rbind q_val nlt]. rewrite Hw.
  rewrite (delta_ok _ _ _ _ _ H0 H UM Um).
  unfold from_simulation. cbv zeta. fold i.
  set (om := if Rltb 0 (viewcone_max s - viewcone_min s) then cone_solid_angle (viewcone_max s) - cone_solid_angle (viewcone_min s) else 1).
  set (k := if Rltb 0 (viewcone_max s - viewcone_min s) then Diffuse else PointSource).
  set (fu := match k with PointSource => POINT_SOURCE_FLUX_UNIT | Diffuse => DIFFUSE_FLUX_UNIT end).
  set (ou := match k with PointSource => one_ | Diffuse => sr end).
  match goal with |- context [rbind ?X _] => assert (OM : X = Ok (mkQ (Fin om) ou, fu)) end.
  { subst om fu ou. unfold k. destruct (Rltb 0 (viewcone_max s - viewcone_min s)); [|reflexivity].
    rewrite (cone_ok _ _ _ HvM), (cone_ok _ _ _ Hvm). cbn [rbind]. rewrite sub_sr. reflexivity. }
  rewrite OM. clear OM. cbn [rbind fst snd].
  match goal with |- context [let '(a, b) := ?X in _] => replace X with (om, k) by (subst om k; destruct (Rltb 0 (viewcone_max s - viewcone_min s)); reflexivity) end.
  cbv beta iota.
  set (d := Rpower xM (i + 1) - Rpower xm (i + 1) * (Rpower (qu_scale um) (i + 1) / Rpower (qu_scale uM) (i + 1))).
  set (nom := nmul (nmul (Fin (i + 1)) (npow (Fin E) i)) (Simulations.nz (n_showers s))).
  set (den := nmul (Fin (PI * (max_impact s * max_impact s) * (xt * qu_scale ut) * om)) (nsub (npow (Fin (energy_max s)) (i + 1)) (npow (Fin (energy_min s)) (i + 1)))).
  destruct (flux_unit_ok k) as [Df Sf]. fold fu in Df, Sf.
  match goal with |- context [to_unit ?X fu] => assert (N : to_unit X fu = Ok (mkQ (ndiv nom den) fu)) end.
  { unfold to_unit, to_value. unfold qdiv, qtimes, qpow, qmul. cbn [q_unit q_val upow umul udiv qu_dim].
    rewrite Df. rewrite (dim_ratio k i); try apply UM; try apply Ue; try apply Ut; try apply Himp; try (unfold ou; destruct k; reflexivity).
    rewrite deqb_refl. cbn [rbind]. f_equal. f_equal. cbn [umul upow udiv qu_scale].
    destruct Um as [Dm Sm], UM as [DM SM], Ue as [De Se], Ut as [Dt St], Himp as [[DI SI] EI].
    assert (So : qu_scale ou = 1) by (unfold ou; destruct k; reflexivity).
    assert (Ff : qu_scale fu = / tev) by (unfold fu; destruct k; [apply point_scale|apply diffuse_scale]).
    set (A := qu_scale ui * qu_scale ui * qu_scale ut * qu_scale ou).
    assert (HA : 0 < A) by (unfold A; rewrite So; posr; lra).
    replace (Rpower (qu_scale ue) i / (A * Rpower (qu_scale uM) (i + 1)) / qu_scale fu)
      with ((Rpower (qu_scale ue) i / Rpower tev i) / (A * (Rpower (qu_scale uM) (i + 1) / Rpower tev (i + 1)))).
    2:{ rewrite Ff. rewrite (Rpower_plus i 1 tev), Rpower_1 by auto. pose proof (Rpower_pos tev i). pose proof (Rpower_pos (qu_scale uM) (i + 1)). field. repeat split; lra. }
    rewrite div_convert. 2:{ apply Rdiv_lt_0_compat; apply Rpower_pos. } 2:{ apply Rmult_lt_0_compat; auto. apply Rdiv_lt_0_compat; apply Rpower_pos. }
    rewrite !npow_pos by auto. cbn [nmul Simulations.nz]. unfold Simulations.nz. cbn [nmul]. f_equal.
    - unfold nom. rewrite npow_pos by auto. unfold Simulations.nz. cbn [nmul]. f_equal. rewrite Ee.
      replace (Rpower (xe * (qu_scale ue / tev)) i) with (Rpower xe i * (Rpower (qu_scale ue) i / Rpower tev i)); [lra|].
      rewrite <- Rpower_quot by auto. apply Rpower_mult_distr; posr.
    - unfold den. rewrite !npow_pos by auto. unfold nsub. cbn [nneg nadd nmul]. f_equal. rewrite EI, EM, Em.
      rewrite <- !Rpower_mult_distr by posr. rewrite !Rpower_quot by auto. unfold d, A. rewrite So.
      pose proof (Rpower_pos tev (i + 1)). pose proof (Rpower_pos (qu_scale uM) (i + 1)). field. split; lra. }
  rewrite N. clear N. cbn [rbind]. unfold power_law_init. destruct (Rltb_spec 0 i) as [L|L].
  - pose proof (c68_init_errors (Qty (mkQ (ndiv nom den) fu)) i (Qty (mkQ (Fin xe) ue))) as X. cbv iota beta in X. apply X; auto; [exists k; exact Df|apply Ue].
  - exists (mkQ (ndiv nom den) fu). cbn [pl_index pl_unit measures pl_norm pl_e_ref q_val q_unit]. split; [|split].
    + apply c68_init. split; [lra|]. do 2 eexists. split; [reflexivity|]. split; [reflexivity|]. split; [exists k; exact Df|]. split; [apply Ue|reflexivity].
    + split; [|split; auto].
      * split; [split; auto|]. replace (qu_scale fu) with (/ tev) by (unfold fu; destruct k; symmetry; [apply point_scale|apply diffuse_scale]).
        rewrite Rinv_l by lra. clear. destruct (ndiv nom den) as [x| | |]; cbn [nmul]; rewrite ?inf_signed_pos by lra; auto. f_equal. lra.
      * split; auto. cbn [nmul]. f_equal. auto.
    + reflexivity.
Qed.
