(** * SimulationsProofs2: the statements C30, C31, C33 *)
From Coq Require Import Reals List Bool ZArith Lia Lra.
From Verif Require Import Num Numpy Lists Binning Utils SpecSimulations Simulations SimulationsProofs.
Import ListNotations.
Open Scope R_scope.

(** ** C30 *)
Lemma c30_length s bins : length (calculate_n_showers_per_energy s bins) = (length bins - 1)%nat.
Proof. apply adj_length. Qed.
Lemma c30_bin s bins k lo hi :
  0 < energy_min s -> energy_min s < energy_max s -> spectral_index s < -1 ->
  nth_error bins k = Some lo -> nth_error bins (S k) = Some hi ->
  energy_bin lo hi -> ~ overhangs (energy_min s) (energy_max s) lo hi ->
  exists v, nth_error (calculate_n_showers_per_energy s bins) k = Some (Fin (IZR (n_showers s) * v)) /\
    share positive (power_law (spectral_index s)) (energy_min s) (energy_max s) lo hi v /\ 0 <= v <= 1.
Proof.
  intros H1 H2 H3 Ha Hb He Ho. exists (part s lo hi). unfold calculate_n_showers_per_energy.
  rewrite (adj_nth _ _ _ _ _ Ha Hb), energy_integral_eq by auto. split; [reflexivity|]. split; [apply part_share; auto|].
  apply part_bounds; auto. apply He.
Qed.
Lemma nan_free_low x a : nle x (Fin a) = true -> is_nan x = false.
Proof. destruct x; auto. Qed.
Lemma c30_total s bins :
  0 < energy_min s -> energy_min s < energy_max s -> spectral_index s < -1 ->
  covers bins (energy_min s) (energy_max s) ->
  (forall k lo hi, nth_error bins k = Some lo -> nth_error bins (S k) = Some hi ->
     energy_bin lo hi /\ ~ overhangs (energy_min s) (energy_max s) lo hi) ->
  nsum (calculate_n_showers_per_energy s bins) = Fin (IZR (n_showers s)).
Proof.
  intros H1 H2 H3 ((f & Hf & Hf') & (l & Hl & Hl')) Hb. unfold calculate_n_showers_per_energy.
  pose (q := fun x => Rpower (into (energy_min s) (energy_max s) x) (spectral_index s + 1)).
  pose (D := Rpower (energy_max s) (spectral_index s + 1) - Rpower (energy_min s) (spectral_index s + 1)).
  rewrite (zipwith_ext_nth _ (fun a b => Fin (IZR (n_showers s) / D * (q b - q a)))).
  - rewrite (telescope q _ bins f l Hf Hl). f_equal.
    pose proof (part_all s H1 H2 H3 f l) as P. 
    assert (part s f l = (q l - q f) / D) as E by reflexivity. rewrite E in P. 
    replace (IZR (n_showers s) / D * (q l - q f)) with (IZR (n_showers s) * ((q l - q f) / D)) by (unfold Rdiv; ring).
    rewrite P; auto; [ring|]. eapply nan_free_low; eauto.
  - intros i a b Ha Hb'. apply bl_inv in Ha. rewrite tl_nth in Hb'. destruct (Hb i a b Ha Hb') as [E1 E2].
    rewrite energy_integral_eq by auto. unfold nz. cbn [nmul]. f_equal. unfold part. fold (q b) (q a) D. unfold Rdiv. ring.
Qed.
Lemma c30_merge s a b c :
  0 < energy_min s -> energy_min s < energy_max s -> spectral_index s < -1 ->
  energy_bin a b -> energy_bin b c -> ~ overhangs (energy_min s) (energy_max s) a c ->
  exists x y, calculate_n_showers_per_energy s [a; b; c] = [Fin x; Fin y] /\
    calculate_n_showers_per_energy s [a; c] = [Fin (x + y)].
Proof.
  intros H1 H2 H3 Hab Hbc Ho. destruct Hab as [A1 A2], Hbc as [B1 B2].
  assert (Oab : ~ overhangs (energy_min s) (energy_max s) a b).
  { intros [O1 O2]. apply Ho. split; auto. eapply nlt_le_trans; eauto. }
  assert (Obc : ~ overhangs (energy_min s) (energy_max s) b c).
  { intros [O1 O2]. apply Ho. split; auto. eapply nle_lt_trans; eauto. }
  exists (IZR (n_showers s) * part s a b), (IZR (n_showers s) * part s b c).
  unfold calculate_n_showers_per_energy. cbn [but_last tl zipwith].
  rewrite !energy_integral_eq; auto; try (split; auto; fail).
  - unfold nz. cbn [nmul]. split; [reflexivity|]. rewrite <- (part_add s a b c). do 2 f_equal. ring.
  - split; auto. eapply nle_trans; eauto.
Qed.
Lemma c30_outside s bins k lo hi : energy_min s <= energy_max s ->
  nth_error bins k = Some lo -> nth_error bins (S k) = Some hi -> nle lo hi = true ->
  nle hi (Fin (energy_min s)) = true \/ nle (Fin (energy_max s)) lo = true ->
  nth_error (calculate_n_showers_per_energy s bins) k = Some (Fin 0).
Proof.
  intros Hm Ha Hb Hle Ho. unfold calculate_n_showers_per_energy. rewrite (adj_nth _ _ _ _ _ Ha Hb). f_equal.
  assert (E : energy_integral s lo hi = Fin 0).
  { unfold energy_integral, ngt, nge. destruct Ho as [Ho|Ho].
    - rewrite Ho. rewrite (nle_not_lt hi (Fin (energy_min s)) Ho). cbn [andb].
      rewrite (nle_not_lt hi (Fin (energy_max s))). { cbn [andb]. destruct (nle (Fin (energy_max s)) lo); reflexivity. }
      eapply nle_trans; [exact Ho|]. cbn [nle]. rcmp. lra.
    - rewrite Ho. rewrite (nle_not_lt _ _ Ho), !andb_false_r.
      rewrite (nle_not_lt (Fin (energy_min s)) lo). { rewrite andb_false_r. reflexivity. }
      eapply nle_trans; [|exact Ho]. cbn [nle]. rcmp. lra. }
  rewrite E. unfold nz. cbn [nmul]. f_equal. ring.
Qed.
(** the exception: a bin that sticks out on both sides gets more showers than simulated *)
Lemma c30_overhang s lo hi : (0 < n_showers s)%Z ->
  0 < energy_min s -> energy_min s < energy_max s -> spectral_index s < -1 ->
  overhangs (energy_min s) (energy_max s) lo (Fin hi) ->
  exists x, calculate_n_showers_per_energy s [lo; Fin hi] = [Fin x] /\ IZR (n_showers s) < x.
Proof.
  intros Hn H1 H2 H3 Ho. unfold calculate_n_showers_per_energy. cbn [but_last tl zipwith].
  rewrite energy_integral_overhang by auto. unfold nz. cbn [nmul]. eexists. split; [reflexivity|].
  destruct Ho as [_ Ho]. cbn [nlt] in Ho. rcmp.
  pose proof (overhang_too_many s H1 H2 H3 hi Ho) as P. apply IZR_lt in Hn. 
  rewrite <- (Rmult_1_r (IZR (n_showers s))) at 1. apply Rmult_lt_compat_l; auto.
Qed.

(** ** C33 *)
Lemma c33 n emin emax impact index vmin vmax :
  (index <= -1 -> simulated_events_info n emin emax impact index vmin vmax = Ok (mkSim n emin emax impact index vmin vmax)) /\
  (-1 < index -> simulated_events_info n emin emax impact index vmin vmax = Err ValueError).
Proof. unfold simulated_events_info. split; intros H; rsolve; auto. Qed.
(** index -1 is accepted, but every bin inside the simulated range is NaN *)
Lemma c33_minus_one n emin emax impact vmin vmax lo hi : 0 < emin -> emin <= lo -> lo < hi -> hi <= emax ->
  exists s, simulated_events_info n emin emax impact (-1) vmin vmax = Ok s /\
    calculate_n_showers_per_energy s [Fin lo; Fin hi] = [NaN].
Proof.
  intros H0 H1 H2 H3. unfold simulated_events_info. rsolve. eexists. split; [reflexivity|].
  unfold calculate_n_showers_per_energy, energy_integral. cbn [but_last tl zipwith energy_min energy_max spectral_index n_showers].
  unfold ngt, nge. cbn [nle nlt]. rsolve. cbn [andb].
  unfold powerlaw_pdf_integral. rewrite !npow_pos by lra. replace (-1 + 1) with 0 by ring. rewrite !Rpower_O by lra.
  cbn [nsub nneg nadd ndiv]. replace (1 + - (1)) with 0 by ring. rsolve. cbn [nmul]. unfold inf_signed. rsolve. unfold nz. reflexivity.
Qed.

(** ** C31 *)
Section Fov.
Variables (vmin vmax : R).
Hypotheses (H0 : 0 <= vmin) (H1 : vmin < vmax) (H2 : vmax <= PI).
Definition ring_part (lo hi : R) : R :=
  (cos (into vmin vmax (Fin lo)) - cos (into vmin vmax (Fin hi))) / (cos vmin - cos vmax).
Lemma cone_pos : 0 < cos vmin - cos vmax.
Proof. pose proof (cos_decreasing_1 vmin vmax). lra. Qed.
Lemma viewcone_bin_eq lo hi : lo <= hi -> viewcone_bin vmin vmax lo hi = Fin (ring_part lo hi).
Proof.
  intros H. unfold viewcone_bin, ring_part. pose proof cone_pos as HC. cbn [ndiv]. rsolve. cbn [nmul into]. f_equal.
  destruct (Rleb_spec vmin hi) as [C1|C1]; cbn [andb].
  - destruct (Rleb_spec lo vmax) as [C2|C2].
    + assert (E1 : (if Rltb vmin lo then lo else vmin) = Rmax vmin (Rmin vmax lo)).
      { rewrite Rmin_right by lra. destruct (Rltb_spec vmin lo); [rewrite Rmax_right|rewrite Rmax_left]; lra. }
      assert (E2 : (if Rltb hi vmax then hi else vmax) = Rmax vmin (Rmin vmax hi)).
      { destruct (Rltb_spec hi vmax); [rewrite Rmin_right, Rmax_right|rewrite Rmin_left, Rmax_right]; lra. }
      rewrite E1, E2. unfold Rdiv. ring.
    + rewrite !Rmin_left, !Rmax_right by lra. unfold Rdiv. ring.
  - rewrite !Rmin_right by lra. rewrite !Rmax_left by lra. unfold Rdiv. ring.
Qed.
Lemma ring_share lo hi : share everywhere per_solid_angle vmin vmax (Fin lo) (Fin hi) (ring_part lo hi).
Proof.
  pose proof cone_pos as HC. exists (fun x => - cos x). split; [|split].
  - intros x _. unfold per_solid_angle. replace (sin x) with (- - sin x) by ring. 
    apply (derivable_pt_lim_opp cos). apply derivable_pt_lim_cos.
  - lra.
  - unfold ring_part. field. lra.
Qed.
Lemma ring_bounds lo hi : lo <= hi -> 0 <= ring_part lo hi <= 1.
Proof.
  intros H. pose proof cone_pos as HC.
  pose proof (into_bounds vmin vmax (Fin lo) ltac:(lra)) as B1. pose proof (into_bounds vmin vmax (Fin hi) ltac:(lra)) as B2.
  assert (M : into vmin vmax (Fin lo) <= into vmin vmax (Fin hi)) by (cbn [into]; apply Rle_max_compat_l, Rle_min_compat_l; lra).
  assert (Hc : forall a b, 0 <= a -> a <= b -> b <= PI -> cos b <= cos a).
  { intros a b Ha [Hab | ->] Hb; [|lra]. left. apply cos_decreasing_1; lra. }
  pose proof (Hc (into vmin vmax (Fin lo)) (into vmin vmax (Fin hi)) ltac:(lra) M ltac:(lra)).
  pose proof (Hc vmin (into vmin vmax (Fin lo)) ltac:(lra) ltac:(lra) ltac:(lra)).
  pose proof (Hc (into vmin vmax (Fin hi)) vmax ltac:(lra) ltac:(lra) ltac:(lra)).
  unfold ring_part. split.
  - apply Rmult_le_pos; [lra|]. left. apply Rinv_0_lt_compat; auto.
  - apply (Rmult_le_reg_r (cos vmin - cos vmax)); [lra|]. unfold Rdiv. rewrite Rmult_assoc, Rinv_l by lra. lra.
Qed.
End Fov.

Lemma c31_point_like s bins : calculate_n_showers_per_fov s bins = Err ValueError <-> viewcone_min s = viewcone_max s.
Proof.
  unfold calculate_n_showers_per_fov, viewcone_pdf_integral. destruct (Reqb_spec (viewcone_max s - viewcone_min s) 0); cbn [rbind]; split; intros H; auto; try lra.
  discriminate.
Qed.
Lemma c31_bin s bins : 0 <= viewcone_min s -> viewcone_min s < viewcone_max s -> viewcone_max s <= PI ->
  exists out, calculate_n_showers_per_fov s bins = Ok out /\ length out = (length bins - 1)%nat /\
    forall k lo hi, nth_error bins k = Some lo -> nth_error bins (S k) = Some hi -> lo <= hi ->
      exists v, nth_error out k = Some (Fin (IZR (n_showers s) * v)) /\
        share everywhere per_solid_angle (viewcone_min s) (viewcone_max s) (Fin lo) (Fin hi) v /\ 0 <= v <= 1.
Proof.
  intros H0 H1 H2. unfold calculate_n_showers_per_fov, viewcone_pdf_integral. 
  replace (Reqb (viewcone_max s - viewcone_min s) 0) with false by (symmetry; rcmp; lra). cbn [rbind].
  eexists. split; [reflexivity|]. split; [rewrite map_length; apply adj_length|].
  intros k lo hi Ha Hb Hle. exists (ring_part (viewcone_min s) (viewcone_max s) lo hi).
  rewrite (map_nth_some _ _ _ _ (adj_nth _ _ _ _ _ Ha Hb)), viewcone_bin_eq by auto.
  split; [reflexivity|]. split; [apply ring_share; auto|apply ring_bounds; auto].
Qed.
Lemma c31_total s bins first last : 0 <= viewcone_min s -> viewcone_min s < viewcone_max s -> viewcone_max s <= PI ->
  nth_error bins 0 = Some first -> nth_error bins (length bins - 1) = Some last ->
  first <= viewcone_min s -> viewcone_max s <= last ->
  (forall k lo hi, nth_error bins k = Some lo -> nth_error bins (S k) = Some hi -> lo <= hi) ->
  exists out, calculate_n_showers_per_fov s bins = Ok out /\ nsum out = Fin (IZR (n_showers s)).
Proof.
  intros H0 H1 H2 Hf Hl Hf' Hl' Hb. unfold calculate_n_showers_per_fov, viewcone_pdf_integral. 
  replace (Reqb (viewcone_max s - viewcone_min s) 0) with false by (symmetry; rcmp; lra). cbn [rbind].
  eexists. split; [reflexivity|]. pose proof (cone_pos _ _ H0 H1 H2) as HC.
  pose (q := fun x => - (IZR (n_showers s)) * cos (into (viewcone_min s) (viewcone_max s) (Fin x)) / (cos (viewcone_min s) - cos (viewcone_max s))).
  replace (map (nmul (nz (n_showers s))) (zipwith (viewcone_bin (viewcone_min s) (viewcone_max s)) (but_last bins) (tl bins)))
    with (map Fin (zipwith (fun a b => q b - q a) (but_last bins) (tl bins))).
  - rewrite nsum_fin. f_equal. rewrite (rtotal_telescope q bins first last Hf Hl). unfold q. cbn [into].
    rewrite (Rmin_left _ last), (Rmax_right _ (viewcone_max s)) by lra. rewrite (Rmin_right _ first), (Rmax_left (viewcone_min s) first) by lra. field. lra.
  - apply nth_ext_eq; [rewrite !map_length, !adj_length; auto|]. intros k x y Hx Hy.
    apply map_nth_inv in Hx as (x' & Hx & ->). apply map_nth_inv in Hy as (y' & Hy & ->).
    apply adj_inv in Hx as (a & b & Ha & Hb' & ->). rewrite (adj_nth _ _ _ _ _ Ha Hb') in Hy. injection Hy as <-.
    rewrite viewcone_bin_eq by (try lra; eapply Hb; eauto). unfold nz. cbn [nmul]. f_equal. unfold q, ring_part. field. lra.
Qed.
(** energies and offsets are independent *)
Lemma c31_grid s ebins fbins : (n_showers s <> 0)%Z ->
  0 < energy_min s -> energy_min s < energy_max s -> spectral_index s < -1 ->
  0 <= viewcone_min s -> viewcone_min s < viewcone_max s -> viewcone_max s <= PI ->
  exists out, calculate_n_showers_per_energy_and_fov s ebins fbins = Ok out /\ length out = (length ebins - 1)%nat /\
    (forall row, In row out -> length row = (length fbins - 1)%nat) /\
    forall k j e e' f f', nth_error ebins k = Some e -> nth_error ebins (S k) = Some e' ->
      nth_error fbins j = Some f -> nth_error fbins (S j) = Some f' ->
      energy_bin e e' -> ~ overhangs (energy_min s) (energy_max s) e e' -> f <= f' ->
      exists row v w, nth_error out k = Some row /\ nth_error row j = Some (Fin (IZR (n_showers s) * v * w)) /\
        share positive (power_law (spectral_index s)) (energy_min s) (energy_max s) e e' v /\
        share everywhere per_solid_angle (viewcone_min s) (viewcone_max s) (Fin f) (Fin f') w.
Proof.
  intros Hn E0 E1 E2 F0 F1 F2. unfold calculate_n_showers_per_energy_and_fov.
  destruct (c31_bin s fbins F0 F1 F2) as (fo & Ef & Lf & Hf). rewrite Ef. cbn [rbind].
  eexists. split; [reflexivity|]. split; [rewrite map_length; apply c30_length|]. split.
  { intros row Hr. apply in_map_iff in Hr as (x & <- & _). rewrite map_length; auto. }
  intros k j e e' f f' Ha Ha' Hb Hb' He Ho Hff.
  destruct (c30_bin s ebins k e e' E0 E1 E2 Ha Ha' He Ho) as (v & Hv & Sv & _). destruct (Hf j f f' Hb Hb' Hff) as (w & Hw & Sw & _).
  eexists _, v, w. split; [apply map_nth_some; exact Hv|]. split; [|auto].
  rewrite (map_nth_some _ _ _ _ Hw). unfold nz. cbn [nmul ndiv]. apply not_0_IZR in Hn. rsolve.
  replace (Reqb (IZR (n_showers s)) 0) with false by (symmetry; rcmp; auto). do 2 f_equal. field. auto.
Qed.
