(** * Properties: cuts never increase the effective area or the background (C90) *)
From Coq Require Import String Reals List Bool ZArith Lia Lra Permutation.
From Verif Require Import Num Numpy Table Binning SpecBinning Utils SpecUtils SpecSimulations Simulations Tensor SpecIRF IRF Cuts SpecCuts CutsProofs CutsProofs2 CutsProofs3 SpecTrend SpecSelection SelectionProofs.
Import ListNotations.
Open Scope R_scope.

(** what remains after a selection is contained in what was there before; selections can be chained *)
Theorem C90_selection : forall (A : Type) (mask : list bool) (l l1 l2 : list A),
  contained (kept mask l) l /\ (contained l1 l2 -> contained l2 l -> contained l1 l).
Proof. intros A mask l l1 l2. split; [apply kept_all|apply contained_trans]. Qed.
Print Assumptions C90_selection.
(** a tighter cut (every value that passes it passes the other cut of the same bin, too) keeps a subset of the events *)
Theorem C90_tighter_cut : forall (A : Type) (events : list A) q values xs low high u op cuts1 cuts mask1,
  Forall2 (fun c1 c => forall x, op x c1 = true -> op x c = true) cuts1 cuts ->
  evaluate_binned_cut q values xs low high u cuts1 op = Ok mask1 ->
  exists mask, evaluate_binned_cut q values xs low high u cuts op = Ok mask /\ contained (kept mask1 events) (kept mask events).
Proof.
  intros A events q values xs low high u op cuts1 cuts mask1 H E. destruct (cut_tighter q values xs low high u op cuts1 cuts mask1 H E) as (m & Em & Hm).
  exists m. split; [exact Em|]. apply kept_contained. exact Hm.
Qed.
Print Assumptions C90_tighter_cut.
(** tables of counts: no bin grows *)
Theorem C90_histogram : forall small large hw hp hw' hp' edges key, nondecreasing edges -> (2 <= List.length edges)%nat -> contained small large ->
  exists t1 t n1 n, create_histogram_table (mkEvents small hw' hp') edges key = Ok t1 /\ create_histogram_table (mkEvents large hw hp) edges key = Ok t /\
  getitem t1 "n" = Some (CZ n1) /\ getitem t "n" = Some (CZ n) /\ List.length n1 = List.length n /\
  forall k c1 c, nth_error n1 k = Some c1 -> nth_error n k = Some c -> (0 <= c1 <= c)%Z.
Proof. exact hist_selected. Qed.
Print Assumptions C90_histogram.
Theorem C90_histogram_weighted : forall small large hp edges key, nondecreasing edges -> (2 <= List.length edges)%nat -> contained small large ->
  (forall e, In e large -> 0 <= ev_w e) -> (hp = true -> forall e, In e large -> ev_p e <> "weighted"%string) ->
  exists t1 t n1 n, create_histogram_table (mkEvents small true hp) edges key = Ok t1 /\ create_histogram_table (mkEvents large true hp) edges key = Ok t /\
  getitem t1 "n_weighted" = Some (CN (map Fin n1)) /\ getitem t "n_weighted" = Some (CN (map Fin n)) /\ List.length n1 = List.length n /\
  forall k c1 c, nth_error n1 k = Some c1 -> nth_error n k = Some c -> 0 <= c1 <= c.
Proof. exact hist_selected_w. Qed.
Print Assumptions C90_histogram_weighted.
(** effective areas: the ratio is the fraction of the events of the bin that were kept *)
Theorem C90_area_per_energy : forall s ebins,
  (0 < n_showers s)%Z -> max_impact s <> 0 -> 0 < energy_min s -> energy_min s < energy_max s -> spectral_index s < -1 ->
  nondecreasing ebins -> (2 <= List.length ebins)%nat -> forall small large hw hp hw' hp', contained small large ->
  exists out1 out, effective_area_per_energy (mkEvents small hw' hp') s ebins = Ok out1 /\ effective_area_per_energy (mkEvents large hw hp) s ebins = Ok out /\ shape out1 = shape out /\
  forall k lo hi, nth_error ebins k = Some lo -> nth_error ebins (S k) = Some hi -> energy_bin lo hi -> ~ overhangs (energy_min s) (energy_max s) lo hi ->
  exists m1 m, number_of (fun e => in_hist_bin ebins k (ev_x e)) small m1 /\ number_of (fun e => in_hist_bin ebins k (ev_x e)) large m /\
    efficiency m1 m (at_ out1 [k]) (at_ out [k]).
Proof. exact area_selected_energy. Qed.
Print Assumptions C90_area_per_energy.
Theorem C90_area_per_energy_and_fov : forall s ebins,
  (0 < n_showers s)%Z -> max_impact s <> 0 -> 0 < energy_min s -> energy_min s < energy_max s -> spectral_index s < -1 ->
  nondecreasing ebins -> (2 <= List.length ebins)%nat -> 0 <= viewcone_min s -> viewcone_min s < viewcone_max s -> viewcone_max s <= PI ->
  forall small large fbins, contained small large -> increasing fbins -> (2 <= List.length fbins)%nat ->
  exists out1 out, effective_area_per_energy_and_fov small s ebins fbins = Ok out1 /\ effective_area_per_energy_and_fov large s ebins fbins = Ok out /\ shape out1 = shape out /\
  forall k j e e', nth_error ebins k = Some e -> nth_error ebins (S k) = Some e' -> (j < List.length fbins - 1)%nat -> energy_bin e e' -> ~ overhangs (energy_min s) (energy_max s) e e' ->
  exists m1 m, number_of (fun ev => in_hist_bin ebins k (true_energy ev) /\ in_hist_bin (map Fin fbins) j (true_fov_offset ev)) small m1 /\
    number_of (fun ev => in_hist_bin ebins k (true_energy ev) /\ in_hist_bin (map Fin fbins) j (true_fov_offset ev)) large m /\
    efficiency m1 m (at_ out1 [k; j]) (at_ out [k; j]).
Proof. exact area_selected_fov. Qed.
Print Assumptions C90_area_per_energy_and_fov.
Theorem C90_area_3d_polar : forall s ebins,
  (0 < n_showers s)%Z -> max_impact s <> 0 -> 0 < energy_min s -> energy_min s < energy_max s -> spectral_index s < -1 ->
  nondecreasing ebins -> (2 <= List.length ebins)%nat -> 0 <= viewcone_min s -> viewcone_min s < viewcone_max s -> viewcone_max s <= PI ->
  forall small large fbins, contained small large -> increasing fbins -> (2 <= List.length fbins)%nat -> forall pbins, increasing pbins -> (2 <= List.length pbins)%nat ->
  exists out1 out, effective_area_3d_polar small s ebins fbins pbins = Ok out1 /\ effective_area_3d_polar large s ebins fbins pbins = Ok out /\ shape out1 = shape out /\
  forall k j i e e', nth_error ebins k = Some e -> nth_error ebins (S k) = Some e' -> (j < List.length fbins - 1)%nat -> (i < List.length pbins - 1)%nat ->
  energy_bin e e' -> ~ overhangs (energy_min s) (energy_max s) e e' ->
  exists m1 m, number_of (fun ev => in_hist_bin ebins k (true_energy ev) /\ in_hist_bin (map Fin fbins) j (true_fov_offset ev) /\ in_hist_bin (map Fin pbins) i (true_fov_pa ev)) small m1 /\
    number_of (fun ev => in_hist_bin ebins k (true_energy ev) /\ in_hist_bin (map Fin fbins) j (true_fov_offset ev) /\ in_hist_bin (map Fin pbins) i (true_fov_pa ev)) large m /\
    efficiency m1 m (at_ out1 [k; j; i]) (at_ out [k; j; i]).
Proof. exact area_selected_polar. Qed.
Print Assumptions C90_area_3d_polar.
(** square lon/lat grids (C42), wherever the simulated number of showers is a number *)
Theorem C90_area_3d_lonlat : forall s ebins,
  (0 < n_showers s)%Z -> max_impact s <> 0 -> 0 < energy_min s -> energy_min s < energy_max s -> spectral_index s < -1 ->
  nondecreasing ebins -> (2 <= List.length ebins)%nat -> 0 <= viewcone_min s -> viewcone_min s < viewcone_max s -> viewcone_max s <= PI ->
  forall small large, contained small large -> forall lon lat n sim, increasing lon -> (2 <= List.length lon)%nat -> increasing lat -> (2 <= List.length lat)%nat -> (0 < n)%nat ->
  List.length lon = List.length lat -> calculate_n_showers_3d_lonlat s ebins degree degree lon lat n = Ok sim ->
  exists out1 out, effective_area_3d_lonlat small s ebins lon lat n = Ok out1 /\ effective_area_3d_lonlat large s ebins lon lat n = Ok out /\
  forall k j i N, (k < List.length ebins - 1)%nat -> (j < List.length lon - 1)%nat -> (i < List.length lat - 1)%nat -> entry3 sim k j i (Fin N) -> 0 <= N ->
  exists m1 m, number_of (fun ev => in_hist_bin ebins k (true_energy ev) /\ in_hist_bin (map Fin lon) j (true_fov_lon ev) /\ in_hist_bin (map Fin lat) i (true_fov_lat ev)) small m1 /\
    number_of (fun ev => in_hist_bin ebins k (true_energy ev) /\ in_hist_bin (map Fin lon) j (true_fov_lon ev) /\ in_hist_bin (map Fin lat) i (true_fov_lat ev)) large m /\
    efficiency m1 m (at_ out1 [k; j; i]) (at_ out [k; j; i]).
Proof. exact area_selected_lonlat. Qed.
Print Assumptions C90_area_3d_lonlat.
(** background rates: in the ratio of the weights *)
Theorem C90_background_2d : forall small large ebins fbins t_obs, contained small large -> (forall ev, In ev large -> 0 <= weight ev) ->
  increasing ebins -> (2 <= List.length ebins)%nat -> angles fbins -> (2 <= List.length fbins)%nat -> 0 < t_obs ->
  exists out1 out, background_2d small (map Fin ebins) fbins t_obs = Ok out1 /\ background_2d large (map Fin ebins) fbins t_obs = Ok out /\ shape out1 = shape out /\
  forall i j, (i < List.length ebins - 1)%nat -> (j < List.length fbins - 1)%nat -> exists W1 W,
    weight_of weight (fun ev => in_hist_bin (map Fin ebins) i (reco_energy ev) /\ in_hist_bin (map Fin fbins) j (reco_fov_offset ev)) small W1 /\
    weight_of weight (fun ev => in_hist_bin (map Fin ebins) i (reco_energy ev) /\ in_hist_bin (map Fin fbins) j (reco_fov_offset ev)) large W /\
    rate_of_selection W1 W (at_ out1 [i; j]) (at_ out [i; j]).
Proof. exact background_selected_2d. Qed.
Print Assumptions C90_background_2d.
Theorem C90_background_3d : forall small large ebins lon lat t_obs, contained small large -> (forall ev, In ev large -> 0 <= weight ev) ->
  increasing ebins -> (2 <= List.length ebins)%nat -> increasing lon -> (2 <= List.length lon)%nat -> latitudes lat -> (2 <= List.length lat)%nat -> 0 < t_obs ->
  uniform lon -> List.length lon = List.length lat \/ List.length lon = 2%nat ->
  exists out1 out, background_3d_lonlat small (map Fin ebins) lon lat t_obs = Ok out1 /\ background_3d_lonlat large (map Fin ebins) lon lat t_obs = Ok out /\ shape out1 = shape out /\
  forall i j k, (i < List.length ebins - 1)%nat -> (j < List.length lon - 1)%nat -> (k < List.length lat - 1)%nat -> exists W1 W,
    weight_of weight (fun ev => in_hist_bin (map Fin ebins) i (reco_energy ev) /\ in_hist_bin (map Fin lon) j (reco_fov_lon ev) /\ in_hist_bin (map Fin lat) k (reco_fov_lat ev)) small W1 /\
    weight_of weight (fun ev => in_hist_bin (map Fin ebins) i (reco_energy ev) /\ in_hist_bin (map Fin lon) j (reco_fov_lon ev) /\ in_hist_bin (map Fin lat) k (reco_fov_lat ev)) large W /\
    rate_of_selection W1 W (at_ out1 [i; j; k]) (at_ out [i; j; k]).
Proof. exact background_selected_3d. Qed.
Print Assumptions C90_background_3d.

(** concrete cases: two of three events kept; a tighter cut; a quarter of the area *)
Example C90_example_contained : contained (kept [true; false; true] [1; 2; 3]) [1; 2; 3] /\ kept [true; false; true] [1; 2; 3] = [1; 3].
Proof. split; [apply kept_all|reflexivity]. Qed.
Example C90_example_tighter : Forall2 (fun c1 c => forall x, nle x c1 = true -> nle x c = true) [Fin 1; Fin 2] [Fin 2; PInf].
Proof.
  repeat constructor; intros [x| | |]; cbn; auto; try discriminate. unfold Rleb. destruct (Rle_dec x 1), (Rle_dec x 2); auto; lra.
Qed.
Example C90_example_cut : exists m, evaluate_binned_cut true [Fin 1; Fin 5] (raw [Fin 0; Fin 1]) [Fin 0; Fin 1] [Fin 1; Fin 2] None [Fin 1; Fin 2] nle = Ok m.
Proof.
  destruct (c14 [Fin 1; Fin 5] [Fin 0; Fin 1] [Fin 0; Fin 1] [Fin 1; Fin 2] [Fin 1; Fin 2] nle) as (m & H & _); [discriminate|..|reflexivity|reflexivity|exists m; exact H].
  - split; auto. intros [|[|i]] a b Ha Hb; simpl in *; try discriminate; try (destruct i; discriminate). congruence.
  - split; [simpl; intuition; subst; reflexivity|].
    intros [|[|i]] a b Ha Hb; simpl in *; try discriminate; try (destruct i; discriminate);
      injection Ha as <-; injection Hb as <-; simpl; rsolve; reflexivity.
Qed.
Example C90_example_efficiency : efficiency 1 4 (Fin 25) (Fin 100) /\ efficiency 0 2 NaN PInf /\ rate_of_selection 1 4 (Fin 3) (Fin 12).
Proof.
  split; [|split].
  - split; [lia|]. left. exists 25, 100. cbn. repeat split; lra.
  - split; [lia|]. right; right; right. repeat split; auto.
  - split; [lra|]. exists 3, 12. repeat split; lra.
Qed.
