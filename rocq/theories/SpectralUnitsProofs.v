(** * SpectralUnitsProofs: spectra with units *)
From Coq Require Import Reals List Bool ZArith Lra Lia String.
From Verif Require Import Num Numpy Sort Lists Utils Simulations Spectral SpectralProofs Quantities SpectralUnits SpecUnits.
Import ListNotations.
Open Scope R_scope.

Lemma deqb_true a b : deqb a b = true <-> a = b.
Proof.
  destruct a, b. unfold deqb. cbn. rewrite !andb_true_iff, !Reqb_true. split; [intros (((-> & ->) & ->) & ->); auto|intros H; injection H; auto].
Qed.
Lemma deqb_refl a : deqb a a = true.
Proof. apply deqb_true. auto. Qed.
Lemma deqb_false a b : deqb a b = false <-> a <> b.
Proof. rewrite <- deqb_true. destruct (deqb a b); split; congruence. Qed.
Lemma dim_eq a b : d_length a = d_length b -> d_mass a = d_mass b -> d_time a = d_time b -> d_angle a = d_angle b -> a = b.
Proof. destruct a, b. cbn. intros -> -> -> ->. auto. Qed.
Ltac dims := apply dim_eq; cbn; lra.
Lemma tev_pos : 0 < tev. Proof. unfold tev. lra. Qed.
Lemma TeV_scale : qu_scale TeV = tev. Proof. cbn. unfold eV_in_J, tev. lra. Qed.
Lemma TeV_dim : qu_dim TeV = energy_dim. Proof. reflexivity. Qed.
Lemma point_dim : qu_dim POINT_SOURCE_FLUX_UNIT = flux_dim PointSource. Proof. dims. Qed.
Lemma diffuse_dim : qu_dim DIFFUSE_FLUX_UNIT = flux_dim Diffuse. Proof. dims. Qed.
Lemma point_scale : qu_scale POINT_SOURCE_FLUX_UNIT = / tev.
Proof. unfold POINT_SOURCE_FLUX_UNIT, udiv. cbn [qu_scale]. rewrite TeV_scale. cbn. pose proof tev_pos. field. lra. Qed.
Lemma diffuse_scale : qu_scale DIFFUSE_FLUX_UNIT = / tev.
Proof. unfold DIFFUSE_FLUX_UNIT, udiv at 1. cbn [qu_scale]. rewrite point_scale. cbn. pose proof tev_pos. field. lra. Qed.

Ltac posr := repeat match goal with
  | |- 0 < _ * _ => apply Rmult_lt_0_compat
  | |- 0 < _ / _ => apply Rdiv_lt_0_compat
  | |- 0 < / _ => apply Rinv_0_lt_compat
  | |- 0 < tev => apply tev_pos
  end; auto.
(** scaling with positive numbers *)
Lemma inf_signed_pos c b : 0 < c -> inf_signed c b = if b then PInf else NInf.
Proof. intros H. unfold inf_signed. rsolve. auto. Qed.
Lemma div_convert x y c d : 0 < c -> 0 < d -> nmul (ndiv x y) (Fin (c / d)) = ndiv (nmul x (Fin c)) (nmul y (Fin d)).
Proof.
  intros Hc Hd. assert (Hcd : 0 < c / d) by posr.
  assert (Z : forall a k, 0 < k -> Reqb (a * k) 0 = Reqb a 0).
  { intros a k Hk. destruct (Reqb_spec a 0) as [->|N]; [apply Reqb_true; lra|]. apply Reqb_false. intros H. apply Rmult_integral in H. lra. }
  assert (P : forall a k, 0 < k -> Rltb 0 (a * k) = Rltb 0 a).
  { intros a k Hk. destruct (Rltb_spec 0 a) as [L|L]; [apply Rltb_true; apply Rmult_lt_0_compat; lra|apply Rltb_false; nra]. }
  assert (Q : forall a k, 0 < k -> Rltb (a * k) 0 = Rltb a 0).
  { intros a k Hk. destruct (Rltb_spec a 0) as [L|L]; [apply Rltb_true; nra|apply Rltb_false; nra]. }
  destruct x as [a| | |], y as [b| | |]; cbn [ndiv nmul]; rewrite ?(inf_signed_pos c), ?(inf_signed_pos d), ?(inf_signed_pos (c / d)) by auto; cbn [ndiv nmul]; auto;
    rewrite ?Z, ?P, ?Q by auto.
  - destruct (Reqb_spec b 0) as [E|E].
    + destruct (Reqb a 0); [reflexivity|]. destruct (Rltb 0 a); cbn [nmul]; rewrite inf_signed_pos by auto; auto.
    + cbn [nmul]. f_equal. field. lra.
  - f_equal. lra.
  - f_equal. lra.
  - destruct (Rltb b 0); cbn [nmul]; rewrite inf_signed_pos by auto; auto.
  - destruct (Rltb b 0); cbn [nmul]; rewrite inf_signed_pos by auto; auto.
Qed.
Lemma nmul_swap a b c : 0 < c -> nmul (nmul a b) (Fin c) = nmul (nmul a (Fin c)) b.
Proof.
  intros Hc. assert (I : forall a s, inf_signed (a * c) s = inf_signed a s).
  { intros r s. unfold inf_signed.
    replace (Reqb (r * c) 0) with (Reqb r 0); [|symmetry; destruct (Reqb_spec r 0) as [->|N]; [apply Reqb_true; lra|apply Reqb_false; intros H; apply Rmult_integral in H; lra]].
    replace (Rltb 0 (r * c)) with (Rltb 0 r); [auto|]. symmetry. destruct (Rltb_spec 0 r) as [L|L]; [apply Rltb_true; nra|apply Rltb_false; nra]. }
  assert (J : forall r s, nmul (inf_signed r s) (Fin c) = inf_signed r s).
  { intros r s. unfold inf_signed. destruct (Reqb r 0); [reflexivity|]. destruct (Rltb 0 r), s; cbn [nmul]; rewrite inf_signed_pos by auto; auto. }
  destruct a as [a| | |], b as [b| | |]; cbn [nmul]; rewrite ?inf_signed_pos by auto; cbn [nmul]; rewrite ?J, ?I; auto.
  - f_equal. lra.
  - rewrite (inf_signed_pos c) by auto. reflexivity.
  - rewrite (inf_signed_pos c) by auto. reflexivity.
Qed.
Lemma nmul_assoc_fin a c d : 0 < c -> 0 < d -> nmul (nmul a (Fin c)) (Fin d) = nmul a (Fin (c * d)).
Proof. intros Hc Hd. destruct a; cbn [nmul]; rewrite ?inf_signed_pos by auto; cbn [nmul]; rewrite ?inf_signed_pos by posr; auto. f_equal. lra. Qed.

Lemma energy_ratio u v : unit_of energy_dim u -> unit_of energy_dim v -> qu_dim (udiv u v) = dnone /\ qu_scale (udiv u v) = (qu_scale u / tev) / (qu_scale v / tev).
Proof.
  intros [D1 S1] [D2 S2]. split.
  - unfold udiv. cbn [qu_dim]. rewrite D1, D2. dims.
  - cbn [udiv qu_scale]. pose proof tev_pos. field. lra.
Qed.
Lemma relative_energy_ok energies u n r r0 : unit_of energy_dim u -> in_tev n r (Fin r0) ->
  relative_energy (mkQA energies u) (mkQ n r) = Ok (map (fun e => ndiv (nmul e (Fin (qu_scale u / tev))) (Fin r0)) energies).
Proof.
  intros Hu [Hr Er]. destruct (energy_ratio u r Hu Hr) as [D S]. unfold relative_energy. cbn [qa_unit qa_val q_unit q_val]. rewrite D, deqb_refl, S. f_equal.
  apply map_ext. intros e. destruct Hu as [_ Hu], Hr as [_ Hr]. rewrite div_convert by posr. rewrite <- Er. reflexivity.
Qed.
Lemma call_unit_const s : forall e, snd (call s e) = spectrum_unit s.
Proof. intros e. destruct s; reflexivity. Qed.
Definition norm_unit (q : qspectrum) : qunit := match q with QPowerLaw n _ _ | QLogParabola n _ _ _ | QExpGauss n _ _ _ _ _ => q_unit n end.
Lemma qcall_ok s q energies u : measures s q -> unit_of energy_dim u ->
  unit_of (flux_dim (spectrum_unit s)) (norm_unit q) /\
  exists values, qcall q (AQty (mkQA energies u)) = Ok (mkQA values (norm_unit q)) /\
    map (fun f => nmul f (Fin (qu_scale (norm_unit q) * tev))) values = map (fun e => fst (call s (nmul e (Fin (qu_scale u / tev))))) energies.
Proof.
  intros M Hu.
  assert (A : array_input TeV (AQty (mkQA energies u)) = Ok (mkQA energies u)).
  { cbn [array_input qa_unit]. destruct Hu as [-> _]. rewrite TeV_dim, deqb_refl. auto. }
  unfold qcall. rewrite A. cbn [rbind].
  destruct s as [p|norm k a b r|p f mu sigma], q as [n i e|n a' b' e|n i e f' mu' sigma']; try contradiction; cbn [measures] in M; cbn [norm_unit spectrum_unit].
  - destruct M as ((Hk & En) & -> & He). split; auto. destruct e as [ev eu]. cbn [q_val q_unit] in *. rewrite (relative_energy_ok _ _ _ _ _ Hu He). cbn [rbind].
    eexists. split; [reflexivity|]. rewrite !map_map. apply map_ext. intros x. cbn [call fst]. unfold power_law_call.
    rewrite nmul_swap by (destruct Hk; posr). rewrite En. reflexivity.
  - destruct M as ((Hk & En) & -> & -> & He). split; auto. destruct e as [ev eu]. cbn [q_val q_unit] in *. rewrite (relative_energy_ok _ _ _ _ _ Hu He). cbn [rbind].
    eexists. split; [reflexivity|]. rewrite !map_map. apply map_ext. intros x. cbn [call fst].
    rewrite nmul_swap by (destruct Hk; posr). rewrite En. reflexivity.
  - destruct M as ((Hk & En) & -> & He & -> & -> & ->). split; auto. destruct e as [ev eu]. cbn [q_val q_unit] in *. rewrite (relative_energy_ok _ _ _ _ _ Hu He). cbn [rbind].
    eexists. split; [reflexivity|]. rewrite !map_map. apply map_ext. intros x. cbn [call fst]. unfold power_law_call.
    rewrite nmul_swap by (destruct Hk; posr). rewrite nmul_swap by (destruct Hk; posr). rewrite En. reflexivity.
Qed.
Lemma map_eq_nth {A B C} (f : A -> C) (g : B -> C) l l' : map f l = map g l' -> List.length l = List.length l' /\
  forall i a b, nth_error l i = Some a -> nth_error l' i = Some b -> f a = g b.
Proof.
  intros H. split; [rewrite <- (map_length f), H, map_length; auto|]. intros i a b Ha Hb.
  apply (map_nth_error f) in Ha. apply (map_nth_error g) in Hb. congruence.
Qed.
Theorem c68_call s q energies u : measures s q -> unit_of energy_dim u ->
  exists values v, qcall q (AQty (mkQA energies u)) = Ok (mkQA values v) /\ List.length values = List.length energies /\
    forall i e f, nth_error energies i = Some e -> nth_error values i = Some f -> forall E, in_tev e u E ->
      in_flux_unit f v (snd (call s E)) (fst (call s E)).
Proof.
  intros M Hu. destruct (qcall_ok s q energies u M Hu) as (Hn & values & E & Em). exists values, (norm_unit q). split; auto.
  destruct (map_eq_nth _ _ _ _ Em) as [L H]. split; auto. intros i e f He Hf x [_ ->]. split; [rewrite call_unit_const; auto|]. symmetry. apply (H i); auto.
Qed.
Theorem c68_same s q q' energies energies' u u' : measures s q -> measures s q' -> unit_of energy_dim u -> unit_of energy_dim u' ->
  Forall2 (fun e e' => same_quantity e u e' u') energies energies' ->
  exists values v values' v', qcall q (AQty (mkQA energies u)) = Ok (mkQA values v) /\ qcall q' (AQty (mkQA energies' u')) = Ok (mkQA values' v') /\
    Forall2 (fun f f' => same_quantity f v f' v') values values'.
Proof.
  intros M M' Hu Hu' HF.
  destruct (qcall_ok s q energies u M Hu) as ([Hn Sn] & values & E & Em). destruct (qcall_ok s q' energies' u' M' Hu') as ([Hn' Sn'] & values' & E' & Em').
  exists values, (norm_unit q), values', (norm_unit q'). split; auto. split; auto.
  assert (X : map (fun e => fst (call s (nmul e (Fin (qu_scale u / tev))))) energies = map (fun e => fst (call s (nmul e (Fin (qu_scale u' / tev))))) energies').
  { clear - HF Hu Hu'. destruct Hu as [_ Hu], Hu' as [_ Hu']. induction HF as [|a b l l' [_ H] HF IH]; auto. cbn [map]. f_equal; auto.
    unfold Rdiv. rewrite <- !nmul_assoc_fin by posr. rewrite H. reflexivity. }
  rewrite X, <- Em' in Em. clear - Em Hn Sn Hn' Sn'. revert values' Em. induction values as [|a l IH]; intros [|b l'] H; try discriminate; constructor.
  - split; [congruence|]. cbn [map] in H. injection H as H _. rewrite <- !nmul_assoc_fin in H by posr.
    pose proof tev_pos. apply (f_equal (fun x => nmul x (Fin (/ tev)))) in H. rewrite !nmul_assoc_fin in H by posr.
    rewrite <- !Rmult_assoc, !Rmult_assoc in H. rewrite Rinv_r in H by lra. rewrite !Rmult_1_r in H. exact H.
  - apply IH. injection H as _ H. exact H.
Qed.
Lemma flux_check n : quantity_input [DIFFUSE_FLUX_UNIT; POINT_SOURCE_FLUX_UNIT] (Qty n) = Ok n <-> exists k, qu_dim (q_unit n) = flux_dim k.
Proof.
  cbn [quantity_input existsb]. rewrite diffuse_dim, point_dim, orb_false_r.
  destruct (deqb (qu_dim (q_unit n)) (flux_dim Diffuse)) eqn:E1; cbn [orb].
  - split; [|auto]. intros _. exists Diffuse. apply deqb_true; auto.
  - destruct (deqb (qu_dim (q_unit n)) (flux_dim PointSource)) eqn:E2.
    + split; [|auto]. intros _. exists PointSource. apply deqb_true; auto.
    + split; [discriminate|]. intros [[|] H]; apply deqb_true in H; congruence.
Qed.
Lemma flux_check_bad n : (forall k, qu_dim (q_unit n) <> flux_dim k) -> quantity_input [DIFFUSE_FLUX_UNIT; POINT_SOURCE_FLUX_UNIT] (Qty n) = Err UnitsError.
Proof.
  intros H. cbn [quantity_input existsb]. rewrite diffuse_dim, point_dim, orb_false_r.
  rewrite (proj2 (deqb_false _ _) (H Diffuse)), (proj2 (deqb_false _ _) (H PointSource)). reflexivity.
Qed.
Lemma energy_check e : quantity_input [TeV] (Qty e) = if deqb (qu_dim (q_unit e)) energy_dim then Ok e else Err UnitsError.
Proof. cbn [quantity_input existsb]. rewrite TeV_dim, orb_false_r. reflexivity. Qed.
