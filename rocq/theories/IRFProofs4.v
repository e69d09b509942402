(** * IRFProofs4: effective area (C42) *)
From Coq Require Import String Reals List Bool ZArith Arith Lia Lra.
From Verif Require Import Num Numpy Lists SpecBinning Table Binning BinningProofs HistProofs Utils SpecUtils SpecSimulations Simulations SimulationsProofs SimulationsProofs2 SimulationsProofs3
  Tensor TensorProofs SpecIRF IRF IRFProofs IRFProofs2 IRFProofs3.
Import ListNotations.
Open Scope R_scope.

Lemma bshape_rev_same s : bshape_rev s s = Some s.
Proof. induction s as [|n s IH]; cbn; auto. rewrite bdim_same, IH. auto. Qed.
Lemma bidx_same s ix : index_of s ix -> bidx s ix = ix.
Proof.
  intros H. unfold bidx. assert (E : length ix = length s) by (clear -H; induction H; cbn; auto). rewrite E, Nat.sub_diag. cbn [skipn]. clear E.
  induction H as [|i d ix s Hi H IH]; cbn; auto. rewrite IH, ixd by auto. auto.
Qed.
Lemma tbin_same f a b : shape a = shape b -> exists out, tbin f a b = Ok out /\ shape out = shape a /\
  forall ix, index_of (shape a) ix -> at_ out ix = f (at_ a ix) (at_ b ix).
Proof.
  intros E. unfold tbin, bshape. rewrite <- E, bshape_rev_same, rev_involutive. eexists. split; [reflexivity|]. split; auto.
  intros ix H. cbn [at_]. rewrite bidx_same by auto. auto.
Qed.
Lemma area_value k n area : 0 <= k -> 0 <= n -> 0 < area -> collection_area k n area (nmul (ndiv (Fin k) (Fin n)) (Fin area)).
Proof.
  intros Hk Hn Ha. destruct (Req_dec n 0) as [E|E].
  - right. subst n. destruct (Req_dec k 0) as [E|E].
    + left. rewrite E. cbn. rsolve. auto.
    + right. split; auto. split; [lra|]. cbn. apply Reqb_false in E. rewrite E, (proj2 (Reqb_true 0 0) eq_refl).
      rewrite (proj2 (Rltb_true 0 k)) by (apply Reqb_false in E; lra). cbn [nmul]. unfold inf_signed. rsolve. auto.
  - left. assert (0 < n) by lra. split; auto. rewrite ndiv_fin by auto. cbn [nmul]. exists (k / n * area). split; auto. split; [field; auto|].
    assert (0 <= k / n) by (apply Rmult_le_pos; auto; left; apply Rinv_0_lt_compat; auto). split; [apply Rmult_le_pos; lra|].
    intros Hkn. assert (k / n <= 1) by (apply (Rmult_le_reg_r n); auto; unfold Rdiv; rewrite Rmult_assoc, Rinv_l; lra). 
    rewrite <- (Rmult_1_l area) at 2. apply Rmult_le_compat_r; lra.
Qed.
Lemma c42_value selected simulated area : shape selected = shape simulated -> 0 < area ->
  exists out, effective_area selected simulated area = Ok out /\ shape out = shape selected /\
  forall ix k n, index_of (shape selected) ix -> at_ selected ix = Fin k -> at_ simulated ix = Fin n -> 0 <= k -> 0 <= n ->
    collection_area k n area (at_ out ix).
Proof.
  intros E Ha. unfold effective_area. destruct (tbin_same ndiv _ _ E) as (o & -> & So & Ho). cbn [rbind]. eexists. split; [reflexivity|]. split; auto.
  intros ix k n Hi Hk Hn K N. cbn [at_ tmap]. rewrite Ho, Hk, Hn by auto. apply area_value; auto.
Qed.
Lemma impact_pos s : max_impact s <> 0 -> 0 < impact_area s.
Proof. intros H. unfold impact_area. pose proof PI_RGT_0. assert (0 < max_impact s * max_impact s) by nra. apply Rmult_lt_0_compat; auto. Qed.
Lemma nth_of {A} (l : list A) k x d : nth_error l k = Some x -> nth k l d = x.
Proof. apply nth_error_nth. Qed.
Definition esim (s : sim_info) : Prop := 0 < energy_min s /\ energy_min s < energy_max s /\ spectral_index s < -1.
Lemma eshare_range s e e' v : 0 < energy_min s -> energy_min s < energy_max s -> spectral_index s < -1 ->
  energy_bin e e' -> ~ overhangs (energy_min s) (energy_max s) e e' ->
  share positive (power_law (spectral_index s)) (energy_min s) (energy_max s) e e' v -> 0 <= v <= 1.
Proof.
  intros A B C D E F. destruct (c30_bin s [e; e'] 0 e e' A B C eq_refl eq_refl D E) as (w & _ & Sw & Hw).
  replace v with w; auto. eapply (share_unique positive); [| |exact Sw|exact F]; [lra|]. intros x Hx. unfold positive. lra.
Qed.
Lemma fshare_range s f f' v : 0 <= viewcone_min s -> viewcone_min s < viewcone_max s -> viewcone_max s <= PI -> f <= f' ->
  share everywhere per_solid_angle (viewcone_min s) (viewcone_max s) (Fin f) (Fin f') v -> 0 <= v <= 1.
Proof.
  intros A B C D F. destruct (c31_bin s [f; f'] A B C) as (out & _ & _ & H). destruct (H 0%nat f f' eq_refl eq_refl D) as (w & _ & Sw & Hw).
  replace v with w; auto. eapply (share_unique everywhere); [| |exact Sw|exact F]; [lra|]. intros x Hx. exact I.
Qed.
Lemma weight_number_C2 x1 x2 e1 e2 evs i j : nondecreasing e1 -> (2 <= length e1)%nat -> nondecreasing e2 -> (2 <= length e2)%nat ->
  (i < length e1 - 1)%nat -> (j < length e2 - 1)%nat ->
  exists m, number_of (fun e => in_hist_bin e1 i (x1 e) /\ in_hist_bin e2 j (x2 e)) evs m /\ C2 x1 x2 e1 e2 unweighted evs i j = INR m.
Proof.
  intros. exists (count (fun e => m1 x1 e1 i e && m2 x2 e2 j e) evs). split.
  - apply number_of_count. intros e _. apply cell2; auto; exact unweighted.
  - rewrite C2_eq. apply wsum_one.
Qed.
Lemma of_lists3_shape l n1 n2 n3 : shape3 l n1 n2 n3 -> (0 < n1)%nat -> (0 < n2)%nat -> shape (of_lists3 l) = [n1; n2; n3].
Proof.
  intros [H1 H2] P1 P2. destruct l as [|m l]; [cbn in H1; lia|]. destruct (H2 m (or_introl eq_refl)) as [H3 H4].
  destruct m as [|r m]; [cbn in H3; lia|]. cbn [shape of_lists3 hd]. rewrite H1, H3, (H4 r (or_introl eq_refl)). auto.
Qed.
Lemma of_lists3_at l i j k x : entry3 l i j k x -> at_ (of_lists3 l) [i; j; k] = x.
Proof. intros (m & r & A & B & C). cbn. rewrite (nth_error_nth _ _ _ A), (nth_error_nth _ _ _ B), (nth_error_nth _ _ _ C). auto. Qed.
Section Per.
Variables (s : sim_info) (ebins : list num).
Hypotheses (Hn : (0 < n_showers s)%Z) (Hi : max_impact s <> 0) (E0 : 0 < energy_min s) (E1 : energy_min s < energy_max s) (E2 : spectral_index s < -1)
  (He : nondecreasing ebins) (Le : (2 <= length ebins)%nat).
Let Nz : 0 < IZR (n_showers s). Proof. apply (IZR_lt 0). auto. Qed.
Lemma c42_energy events : exists out, effective_area_per_energy events s ebins = Ok out /\ shape out = [(length ebins - 1)%nat] /\
  forall k lo hi, nth_error ebins k = Some lo -> nth_error ebins (S k) = Some hi -> energy_bin lo hi -> ~ overhangs (energy_min s) (energy_max s) lo hi ->
  exists m v, number_of (fun e => in_hist_bin ebins k (ev_x e)) (et_rows events) m /\
    share positive (power_law (spectral_index s)) (energy_min s) (energy_max s) lo hi v /\
    collection_area (INR m) (IZR (n_showers s) * v) (PI * (max_impact s * max_impact s)) (at_ out [k]).
Proof.
  unfold effective_area_per_energy. destruct (c04 events ebins "true_energy"%string He Le) as (t & n & -> & G & (Ln & Hh) & _). cbn [rbind]. rewrite G.
  destruct (c42_value (vec (map nz n)) (vec (calculate_n_showers_per_energy s ebins)) (impact_area s)) as (out & Eo & So & Ho).
  - cbn [shape vec]. rewrite map_length, c30_length, Ln. auto.
  - apply impact_pos; auto.
  - exists out. split; auto. cbn [shape vec] in So. rewrite map_length, Ln in So. split; auto.
    intros k lo hi Hlo Hhi Hb Hov. destruct (c30_bin s ebins k lo hi E0 E1 E2 Hlo Hhi Hb Hov) as (v & Ev & Sv & Rv).
    assert (Lk := nth_some_lt _ _ _ Hhi).
    destruct (nth_some_ex n k) as [c Ec]; [lia|]. destruct (Hh k c Ec) as (m & Em & Nm). subst c. exists m, v. split; auto. split; auto.
    apply Ho.
    + cbn [shape vec]. rewrite map_length, Ln. constructor; auto. lia.
    + cbn [at_ vec]. rewrite (nth_of _ _ _ _ (map_nth_some nz _ _ _ Ec)). unfold nz. rewrite INR_IZR_INZ. auto.
    + cbn [at_ vec]. apply nth_of. auto.
    + apply pos_INR.
    + apply Rmult_le_pos; lra.
Qed.
Hypotheses (F0 : 0 <= viewcone_min s) (F1 : viewcone_min s < viewcone_max s) (F2 : viewcone_max s <= PI).
Variables (evs : list dl2) (fbins : list R).
Hypotheses (Hf : increasing fbins) (Lf : (2 <= length fbins)%nat).
Let Lf' : (2 <= length (map Fin fbins))%nat. Proof. rewrite map_length. auto. Qed.
Let Hf' := inc_nondec fbins Hf.
Lemma to_rad_nth l k x : nth_error l k = Some x -> nth_error (to_rad l) k = Some (deg x).
Proof. intros H. unfold to_rad. exact (map_nth_some (fun y => y * degree) _ _ _ H). Qed.
Lemma deg_le a b : a <= b -> deg a <= deg b.
Proof. intros H. unfold deg. pose proof PI_RGT_0. apply Rmult_le_compat_r; lra. Qed.
Lemma hd_in {A} (l : list A) d : l <> [] -> In (hd d l) l.
Proof. destruct l; [congruence|left; auto]. Qed.
Lemma c42_fov : exists out, effective_area_per_energy_and_fov evs s ebins fbins = Ok out /\
  shape out = [(length ebins - 1)%nat; (length fbins - 1)%nat] /\
  forall k j e e' f f', nth_error ebins k = Some e -> nth_error ebins (S k) = Some e' -> nth_error fbins j = Some f -> nth_error fbins (S j) = Some f' ->
  energy_bin e e' -> ~ overhangs (energy_min s) (energy_max s) e e' ->
  exists m v w, number_of (fun ev => in_hist_bin ebins k (true_energy ev) /\ in_hist_bin (map Fin fbins) j (true_fov_offset ev)) evs m /\
    share positive (power_law (spectral_index s)) (energy_min s) (energy_max s) e e' v /\
    share everywhere per_solid_angle (viewcone_min s) (viewcone_max s) (Fin (deg f)) (Fin (deg f')) w /\
    collection_area (INR m) (IZR (n_showers s) * v * w) (PI * (max_impact s * max_impact s)) (at_ out [k; j]).
Proof.
  unfold effective_area_per_energy_and_fov. assert (Nz0 : (n_showers s <> 0)%Z) by lia.
  destruct (c31_grid s ebins (to_rad fbins) Nz0 E0 E1 E2 F0 F1 F2) as (sim & -> & L1 & L2 & Hs). cbn [rbind].
  change [(true_energy, ebins); (true_fov_offset, map Fin fbins)] with (dims2 true_energy true_fov_offset ebins (map Fin fbins)).
  rewrite hist2 by auto. cbn [rbind]. rewrite map_length. unfold to_rad in L2. rewrite map_length in L2.
  assert (Hd : length (hd [] sim) = (length fbins - 1)%nat) by (apply L2, hd_in; intros Z; rewrite Z in L1; cbn in L1; lia).
  match goal with |- context[effective_area ?a ?b ?c] => destruct (c42_value a b c) as (out & Eo & So & Ho) end.
  - cbn [shape of_lists2]. rewrite L1, Hd. auto.
  - apply impact_pos; auto.
  - exists out. split; auto. split; auto. intros k j e e' f f' A1 A2 B1 B2 Hb Hov.
    pose proof (nth_some_lt _ _ _ A2). pose proof (nth_some_lt _ _ _ B2). assert (Hff := Hf _ _ _ B1 B2).
    destruct (Hs k j e e' (deg f) (deg f') A1 A2 (to_rad_nth _ _ _ B1) (to_rad_nth _ _ _ B2) Hb Hov) as (row & v & w & R1 & R2 & Sv & Sw).
    { apply deg_le. lra. }
    destruct (weight_number_C2 true_energy true_fov_offset ebins (map Fin fbins) evs k j) as (m & Nm & Em); auto; [lia|rewrite map_length; lia|].
    exists m, v, w. repeat (split; [auto; fail|]). apply Ho.
    + cbn [shape]. repeat constructor; lia.
    + cbn [at_]. fold (C2 true_energy true_fov_offset ebins (map Fin fbins) unweighted evs k j). rewrite Em. auto.
    + cbn [at_ of_lists2]. rewrite (nth_of _ _ _ _ R1). apply nth_of. auto.
    + apply pos_INR.
    + assert (0 <= v <= 1) by (eapply eshare_range; eauto). assert (0 <= w <= 1) by (eapply fshare_range; [..|exact Sw]; auto; apply deg_le; lra).
      repeat apply Rmult_le_pos; lra.
Qed.
Lemma c42_polar pbins : increasing pbins -> (2 <= length pbins)%nat ->
  exists out, effective_area_3d_polar evs s ebins fbins pbins = Ok out /\
  shape out = [(length ebins - 1)%nat; (length fbins - 1)%nat; (length pbins - 1)%nat] /\
  forall k j i e e' f f', nth_error ebins k = Some e -> nth_error ebins (S k) = Some e' -> nth_error fbins j = Some f -> nth_error fbins (S j) = Some f' ->
  (i < length pbins - 1)%nat -> energy_bin e e' -> ~ overhangs (energy_min s) (energy_max s) e e' ->
  exists m v w, number_of (fun ev => in_hist_bin ebins k (true_energy ev) /\ in_hist_bin (map Fin fbins) j (true_fov_offset ev) /\ in_hist_bin (map Fin pbins) i (true_fov_pa ev)) evs m /\
    share positive (power_law (spectral_index s)) (energy_min s) (energy_max s) e e' v /\
    share everywhere per_solid_angle (viewcone_min s) (viewcone_max s) (Fin (deg f)) (Fin (deg f')) w /\
    collection_area (INR m) (IZR (n_showers s) * v * w / INR (length pbins - 1)) (PI * (max_impact s * max_impact s)) (at_ out [k; j; i]).
Proof.
  intros Hp Lp. unfold effective_area_3d_polar. assert (Nz0 : (n_showers s <> 0)%Z) by lia.
  destruct (c32_polar s ebins (to_rad fbins) pbins Nz0 E0 E1 E2 F0 F1 F2) as (sim & -> & L1 & Hs). cbn [rbind].
  change [(true_energy, ebins); (true_fov_offset, map Fin fbins); (true_fov_pa, map Fin pbins)] with (dims3 true_energy true_fov_offset true_fov_pa ebins (map Fin fbins) (map Fin pbins)).
  assert (Lp' : (2 <= length (map Fin pbins))%nat) by (rewrite map_length; auto). pose proof (inc_nondec pbins Hp) as Hp'.
  rewrite hist3 by auto. cbn [rbind]. rewrite !map_length. unfold to_rad in L1. rewrite map_length in L1.
  match goal with |- context[effective_area ?a ?b ?c] => destruct (c42_value a b c) as (out & Eo & So & Ho) end.
  - rewrite (of_lists3_shape _ _ _ _ L1) by lia. auto.
  - apply impact_pos; auto.
  - exists out. split; auto. split; auto. intros k j i e e' f f' A1 A2 B1 B2 Li Hb Hov.
    pose proof (nth_some_lt _ _ _ A2). pose proof (nth_some_lt _ _ _ B2). assert (Hff := Hf _ _ _ B1 B2).
    destruct (Hs k j i e e' (deg f) (deg f') A1 A2 (to_rad_nth _ _ _ B1) (to_rad_nth _ _ _ B2) Li Hb Hov) as (v & w & R1 & Sv & Sw).
    { apply deg_le. lra. }
    destruct (C3_number true_energy true_fov_offset true_fov_pa ebins (map Fin fbins) (map Fin pbins) evs k j i) as (m & Nm & Em); auto; try (rewrite map_length; lia); try lia.
    exists m, v, w. repeat (split; [auto; fail|]). apply Ho.
    + cbn [shape]. repeat constructor; lia.
    + cbn [at_]. fold (C3 true_energy true_fov_offset true_fov_pa ebins (map Fin fbins) (map Fin pbins) unweighted evs k j i). rewrite Em. auto.
    + apply of_lists3_at. auto.
    + apply pos_INR.
    + assert (0 <= v <= 1) by (eapply eshare_range; eauto). assert (0 <= w <= 1) by (eapply fshare_range; [..|exact Sw]; auto; apply deg_le; lra).
      assert (0 < INR (length pbins - 1)) by (apply lt_0_INR; lia).
      unfold Rdiv. repeat apply Rmult_le_pos; try lra. left. apply Rinv_0_lt_compat. auto.
Qed.
(** lon/lat: the simulated histogram has its field-of-view axes in the other order *)
Variables (lon lat : list R) (n : nat).
Hypotheses (Hlon : increasing lon) (Llon : (2 <= length lon)%nat) (Hlat : increasing lat) (Llat : (2 <= length lat)%nat) (Hsub : (0 < n)%nat).
Let Llon' : (2 <= length (map Fin lon))%nat. Proof. rewrite map_length. auto. Qed.
Let Llat' : (2 <= length (map Fin lat))%nat. Proof. rewrite map_length. auto. Qed.
Let Hlon' := inc_nondec lon Hlon.
Let Hlat' := inc_nondec lat Hlat.
Lemma c42_lonlat_error : length lon <> length lat -> length lon <> 2%nat -> length lat <> 2%nat ->
  forall sim, calculate_n_showers_3d_lonlat s ebins degree degree lon lat n = Ok sim ->
  effective_area_3d_lonlat evs s ebins lon lat n = Err ValueError.
Proof.
  intros N1 N2 N3 sim Es. unfold effective_area_3d_lonlat. rewrite Es. cbn [rbind].
  change [(true_energy, ebins); (true_fov_lon, map Fin lon); (true_fov_lat, map Fin lat)] with (dims3 true_energy true_fov_lon true_fov_lat ebins (map Fin lon) (map Fin lat)).
  rewrite hist3 by auto. cbn [rbind]. rewrite !map_length.
  destruct (c32_lonlat_any s ebins degree degree lon lat n sim ltac:(lia) Hsub E0 E1 E2 F0 F1 F2 Es) as (Sh & _).
  unfold effective_area, tbin. rewrite (of_lists3_shape _ _ _ _ Sh) by lia. unfold bshape. cbn [shape rev app bshape_rev].
  replace (bdim (length lat - 1) (length lon - 1)) with (@None nat); [reflexivity|].
  unfold bdim. destruct (Nat.eqb_spec (length lat - 1) (length lon - 1)), (Nat.eqb_spec (length lat - 1) 1), (Nat.eqb_spec (length lon - 1) 1); try lia. auto.
Qed.
Lemma c42_lonlat_square sim : length lon = length lat -> calculate_n_showers_3d_lonlat s ebins degree degree lon lat n = Ok sim ->
  exists out, effective_area_3d_lonlat evs s ebins lon lat n = Ok out /\
  forall k j i N, (k < length ebins - 1)%nat -> (j < length lon - 1)%nat -> (i < length lat - 1)%nat ->
    entry3 sim k j i (Fin N) -> 0 <= N ->
    exists m, number_of (fun ev => in_hist_bin ebins k (true_energy ev) /\ in_hist_bin (map Fin lon) j (true_fov_lon ev) /\ in_hist_bin (map Fin lat) i (true_fov_lat ev)) evs m /\
      collection_area (INR m) N (PI * (max_impact s * max_impact s)) (at_ out [k; j; i]).
Proof.
  intros Hsq Es. unfold effective_area_3d_lonlat. rewrite Es. cbn [rbind].
  change [(true_energy, ebins); (true_fov_lon, map Fin lon); (true_fov_lat, map Fin lat)] with (dims3 true_energy true_fov_lon true_fov_lat ebins (map Fin lon) (map Fin lat)).
  rewrite hist3 by auto. cbn [rbind]. rewrite !map_length.
  destruct (c32_lonlat_any s ebins degree degree lon lat n sim ltac:(lia) Hsub E0 E1 E2 F0 F1 F2 Es) as (Sh & _).
  match goal with |- context[effective_area ?a ?b ?c] => destruct (c42_value a b c) as (out & Eo & So & Ho) end.
  - rewrite (of_lists3_shape _ _ _ _ Sh) by lia. cbn [shape]. rewrite Hsq. auto.
  - apply impact_pos; auto.
  - exists out. split; auto. intros k j i N Lk Lj Li HN PN.
    destruct (C3_number true_energy true_fov_lon true_fov_lat ebins (map Fin lon) (map Fin lat) evs k j i) as (m & Nm & Em); auto; try (rewrite map_length; lia).
    exists m. split; auto. apply Ho.
    + cbn [shape]. repeat constructor; lia.
    + cbn [at_]. fold (C3 true_energy true_fov_lon true_fov_lat ebins (map Fin lon) (map Fin lat) unweighted evs k j i). rewrite Em. auto.
    + apply of_lists3_at. auto.
    + apply pos_INR.
    + auto.
Qed.
End Per.
