(** * Properties of pyirf/irf (C42-C47) *)
From Coq Require Import String Reals List Bool ZArith Lia Lra.
From Verif Require Import Num Numpy Table Binning SpecBinning BinningProofs2 BinningWitness Utils SpecUtils SpecSimulations Simulations Tensor SpecIRF IRF
  IRFProofs IRFProofs2 IRFProofs3 IRFProofs4 IRFProofs5.
Import ListNotations.
Open Scope R_scope.
Ltac inc := intros [|[|[|[|?]]]] a b Ha Hb; cbn in Ha, Hb; try discriminate; inversion Ha; inversion Hb; subst; lra.

(** ** C42 *)
Theorem C42_effective_area : forall selected simulated area,
  shape selected = shape simulated -> 0 < area ->
  exists out, effective_area selected simulated area = Ok out /\ shape out = shape selected /\
  forall ix k n, index_of (shape selected) ix -> at_ selected ix = Fin k -> at_ simulated ix = Fin n -> 0 <= k -> 0 <= n ->
    collection_area k n area (at_ out ix).
Proof. exact c42_value. Qed.
Print Assumptions C42_effective_area.
(** selected events per bin over simulated showers per bin (their share of the spectrum, C30) *)
Theorem C42_per_energy : forall s ebins,
  (0 < n_showers s)%Z -> max_impact s <> 0 -> 0 < energy_min s -> energy_min s < energy_max s -> spectral_index s < -1 ->
  nondecreasing ebins -> (2 <= List.length ebins)%nat ->
  forall events,
  exists out, effective_area_per_energy events s ebins = Ok out /\ shape out = [(List.length ebins - 1)%nat] /\
  forall k lo hi, nth_error ebins k = Some lo -> nth_error ebins (S k) = Some hi -> energy_bin lo hi -> ~ overhangs (energy_min s) (energy_max s) lo hi ->
  exists m v, number_of (fun e => in_hist_bin ebins k (ev_x e)) (et_rows events) m /\
    share positive (power_law (spectral_index s)) (energy_min s) (energy_max s) lo hi v /\
    collection_area (INR m) (IZR (n_showers s) * v) (PI * (max_impact s * max_impact s)) (at_ out [k]).
Proof. exact c42_energy. Qed.
Print Assumptions C42_per_energy.
Theorem C42_per_energy_and_fov : forall s ebins evs fbins,
  (0 < n_showers s)%Z -> max_impact s <> 0 -> 0 < energy_min s -> energy_min s < energy_max s -> spectral_index s < -1 ->
  nondecreasing ebins -> (2 <= List.length ebins)%nat ->
  0 <= viewcone_min s -> viewcone_min s < viewcone_max s -> viewcone_max s <= PI ->
  increasing fbins -> (2 <= List.length fbins)%nat ->
  exists out, effective_area_per_energy_and_fov evs s ebins fbins = Ok out /\
  shape out = [(List.length ebins - 1)%nat; (List.length fbins - 1)%nat] /\
  forall k j e e' f f', nth_error ebins k = Some e -> nth_error ebins (S k) = Some e' -> nth_error fbins j = Some f -> nth_error fbins (S j) = Some f' ->
  energy_bin e e' -> ~ overhangs (energy_min s) (energy_max s) e e' ->
  exists m v w, number_of (fun ev => in_hist_bin ebins k (true_energy ev) /\ in_hist_bin (map Fin fbins) j (true_fov_offset ev)) evs m /\
    share positive (power_law (spectral_index s)) (energy_min s) (energy_max s) e e' v /\
    share everywhere per_solid_angle (viewcone_min s) (viewcone_max s) (Fin (deg f)) (Fin (deg f')) w /\
    collection_area (INR m) (IZR (n_showers s) * v * w) (PI * (max_impact s * max_impact s)) (at_ out [k; j]).
Proof. intros; apply c42_fov; auto. Qed.
Print Assumptions C42_per_energy_and_fov.
Theorem C42_3d_polar : forall s ebins evs fbins,
  (0 < n_showers s)%Z -> max_impact s <> 0 -> 0 < energy_min s -> energy_min s < energy_max s -> spectral_index s < -1 ->
  nondecreasing ebins -> (2 <= List.length ebins)%nat ->
  0 <= viewcone_min s -> viewcone_min s < viewcone_max s -> viewcone_max s <= PI ->
  increasing fbins -> (2 <= List.length fbins)%nat ->
  forall pbins,
  increasing pbins -> (2 <= List.length pbins)%nat ->
  exists out, effective_area_3d_polar evs s ebins fbins pbins = Ok out /\
  shape out = [(List.length ebins - 1)%nat; (List.length fbins - 1)%nat; (List.length pbins - 1)%nat] /\
  forall k j i e e' f f', nth_error ebins k = Some e -> nth_error ebins (S k) = Some e' -> nth_error fbins j = Some f -> nth_error fbins (S j) = Some f' ->
  (i < List.length pbins - 1)%nat -> energy_bin e e' -> ~ overhangs (energy_min s) (energy_max s) e e' ->
  exists m v w, number_of (fun ev => in_hist_bin ebins k (true_energy ev) /\ in_hist_bin (map Fin fbins) j (true_fov_offset ev) /\ in_hist_bin (map Fin pbins) i (true_fov_pa ev)) evs m /\
    share positive (power_law (spectral_index s)) (energy_min s) (energy_max s) e e' v /\
    share everywhere per_solid_angle (viewcone_min s) (viewcone_max s) (Fin (deg f)) (Fin (deg f')) w /\
    collection_area (INR m) (IZR (n_showers s) * v * w / INR (List.length pbins - 1)) (PI * (max_impact s * max_impact s)) (at_ out [k; j; i]).
Proof. intros; apply c42_polar; auto. Qed.
Print Assumptions C42_3d_polar.
(** lon/lat with different numbers of bins: no effective area, ValueError *)
Theorem C42_lonlat_shape_refuted : forall s ebins evs lon lat n,
  (0 < n_showers s)%Z -> max_impact s <> 0 -> 0 < energy_min s -> energy_min s < energy_max s -> spectral_index s < -1 ->
  nondecreasing ebins -> (2 <= List.length ebins)%nat ->
  0 <= viewcone_min s -> viewcone_min s < viewcone_max s -> viewcone_max s <= PI ->
  increasing lon -> (2 <= List.length lon)%nat -> increasing lat -> (2 <= List.length lat)%nat -> (0 < n)%nat ->
  List.length lon <> List.length lat -> List.length lon <> 2%nat -> List.length lat <> 2%nat ->
  forall sim, calculate_n_showers_3d_lonlat s ebins degree degree lon lat n = Ok sim ->
  effective_area_3d_lonlat evs s ebins lon lat n = Err ValueError.
Proof. intros; eapply c42_lonlat_error; eauto. Qed.
Print Assumptions C42_lonlat_shape_refuted.
(** square grids: the events of lon bin j and lat bin i are divided by the showers simulated in lat bin j and lon bin i
    (axis order of calculate_n_showers_3d_lonlat, C32_lonlat_any_grid) *)
Theorem C42_lonlat_transposed_refuted : forall s ebins evs lon lat n,
  (0 < n_showers s)%Z -> max_impact s <> 0 -> 0 < energy_min s -> energy_min s < energy_max s -> spectral_index s < -1 ->
  nondecreasing ebins -> (2 <= List.length ebins)%nat ->
  0 <= viewcone_min s -> viewcone_min s < viewcone_max s -> viewcone_max s <= PI ->
  increasing lon -> (2 <= List.length lon)%nat -> increasing lat -> (2 <= List.length lat)%nat -> (0 < n)%nat ->
  forall sim,
  List.length lon = List.length lat -> calculate_n_showers_3d_lonlat s ebins degree degree lon lat n = Ok sim ->
  exists out, effective_area_3d_lonlat evs s ebins lon lat n = Ok out /\
  forall k j i N, (k < List.length ebins - 1)%nat -> (j < List.length lon - 1)%nat -> (i < List.length lat - 1)%nat ->
    entry3 sim k j i (Fin N) -> 0 <= N ->
    exists m, number_of (fun ev => in_hist_bin ebins k (true_energy ev) /\ in_hist_bin (map Fin lon) j (true_fov_lon ev) /\ in_hist_bin (map Fin lat) i (true_fov_lat ev)) evs m /\
      collection_area (INR m) N (PI * (max_impact s * max_impact s)) (at_ out [k; j; i]).
Proof. intros; eapply c42_lonlat_square; eauto. Qed.
Print Assumptions C42_lonlat_transposed_refuted.
Example C42_example : let s := mkSim 1000 1 10 100 (-2) 0 (PI / 18) in
  (0 < n_showers s)%Z /\ max_impact s <> 0 /\ 0 < energy_min s /\ energy_min s < energy_max s /\ spectral_index s < -1 /\
  0 <= viewcone_min s /\ viewcone_min s < viewcone_max s /\ viewcone_max s <= PI /\ nondecreasing (map Fin [1; 3; 10]) /\ increasing [0; 1; 5] /\
  energy_bin (Fin 1) (Fin 3) /\ ~ overhangs (energy_min s) (energy_max s) (Fin 1) (Fin 3).
Proof.
  pose proof PI_RGT_0. cbn. repeat (split; [auto; try lia; try lra; fail|]). split; [apply (inc_nondec [1; 3; 10]); inc|]. split; [inc|].
  split; [split; cbn; rsolve; auto|]. intros [A _]. cbn in A. revert A. rsolve. discriminate.
Qed.
Example C42_example_values : collection_area 3 10 100 (Fin 30) /\ collection_area 0 0 100 NaN /\ collection_area 2 0 100 PInf.
Proof. split; [left; split; [lra|]; exists 30; repeat split; lra|]. split; right; [left|right]; repeat split; lra. Qed.
(** an event table for the following *)
Definition ev0 (t r : R) : dl2 := mkDL2 (Fin t) (Fin r) (Fin 1) (Fin (1 / 10)) (Fin 0) (Fin 0) (Fin 0) (Fin 1) (Fin (1 / 2)) (Fin (1 / 2)) 2.
Lemma in0 a b x : a <= x < b -> in_hist_bin [Fin a; Fin b] 0 (Fin x).
Proof. intros H. left. exists (Fin a), (Fin b). cbn. rsolve. auto. Qed.

(** ** C43 *)
(** integrates to 1 over migration, or is 0 *)
Theorem C43_normalised : forall evs ebins fbins mig,
  nondecreasing ebins -> (2 <= List.length ebins)%nat -> nondecreasing fbins -> (2 <= List.length fbins)%nat ->
  increasing mig -> (2 <= List.length mig)%nat ->
  exists out, energy_dispersion evs ebins fbins (map Fin mig) = Ok out /\
  shape out = [(List.length ebins - 1)%nat; (List.length mig - 1)%nat; (List.length fbins - 1)%nat] /\
  forall i k, (i < List.length ebins - 1)%nat -> (k < List.length fbins - 1)%nat ->
    exists d, List.length d = (List.length mig - 1)%nat /\
      (forall j v, nth_error d j = Some v -> at_ out [i; j; k] = Fin v /\ 0 <= v) /\
      ((exists e, In e evs /\ in_hist_bin ebins i (true_energy e) /\
          in_range (map Fin mig) (ndiv (reco_energy e) (true_energy e)) /\ in_hist_bin fbins k (true_fov_offset e)) ->
       integral_over width mig d = 1) /\
      ((forall e, In e evs -> ~ (in_hist_bin ebins i (true_energy e) /\
          in_range (map Fin mig) (ndiv (reco_energy e) (true_energy e)) /\ in_hist_bin fbins k (true_fov_offset e))) ->
       forall v, In v d -> v = 0).
Proof. intros; apply c43; auto. Qed.
Print Assumptions C43_normalised.
Theorem C43_value : forall evs ebins fbins mig,
  nondecreasing ebins -> (2 <= List.length ebins)%nat -> nondecreasing fbins -> (2 <= List.length fbins)%nat ->
  increasing mig -> (2 <= List.length mig)%nat ->
  forall i j k,
  (i < (List.length ebins - 1)%nat)%nat -> (j < (List.length mig - 1)%nat)%nat -> (k < (List.length fbins - 1)%nat)%nat ->
  exists out n m a b, energy_dispersion evs ebins fbins (map Fin mig) = Ok out /\
    number_of (fun e => in_hist_bin ebins i (true_energy e) /\ in_hist_bin (map Fin mig) j (ndiv (reco_energy e) (true_energy e)) /\ in_hist_bin fbins k (true_fov_offset e)) evs n /\
    number_of (fun e => in_hist_bin ebins i (true_energy e) /\ in_range (map Fin mig) (ndiv (reco_energy e) (true_energy e)) /\ in_hist_bin fbins k (true_fov_offset e)) evs m /\
    nth_error mig j = Some a /\ nth_error mig (S j) = Some b /\
    ((0 < m)%nat -> at_ out [i; j; k] = Fin (INR n / INR m / (b - a))).
Proof. intros; apply c43_value; auto. Qed.
Print Assumptions C43_value.
Example C43_example : increasing [1 / 5; 1; 5] /\ exists e, In e [ev0 2 3] /\ in_hist_bin [Fin 1; Fin 10] 0 (true_energy e) /\
  in_hist_bin (map Fin [1 / 5; 1; 5]) 1 (ndiv (reco_energy e) (true_energy e)) /\ in_hist_bin [Fin 0; Fin 5] 0 (true_fov_offset e).
Proof.
  split; [inc|]. exists (ev0 2 3). split; [left; auto|]. split; [apply in0; lra|]. split; [|apply in0; lra].
  left. exists (Fin 1), (Fin 5). cbn. rsolve. cbn. rsolve. auto.
Qed.
(** ** C44 *)
(** rows are probability distributions, or 0 *)
Theorem C44_migration_matrix : forall evs ebins rbins fbins,
  nondecreasing ebins -> (2 <= List.length ebins)%nat -> nondecreasing rbins -> (2 <= List.length rbins)%nat ->
  nondecreasing fbins -> (2 <= List.length fbins)%nat ->
  exists out, energy_migration_matrix evs ebins rbins fbins = Ok out /\
  shape out = [(List.length ebins - 1)%nat; (List.length rbins - 1)%nat; (List.length fbins - 1)%nat] /\
  forall i k, (i < List.length ebins - 1)%nat -> (k < List.length fbins - 1)%nat ->
    exists d, List.length d = (List.length rbins - 1)%nat /\
      (forall j v, nth_error d j = Some v -> at_ out [i; j; k] = Fin v /\ 0 <= v <= 1) /\
      ((exists e, In e evs /\ in_hist_bin ebins i (true_energy e) /\ in_range rbins (reco_energy e) /\ in_hist_bin fbins k (true_fov_offset e)) ->
       total d = 1) /\
      ((forall e, In e evs -> ~ (in_hist_bin ebins i (true_energy e) /\ in_range rbins (reco_energy e) /\ in_hist_bin fbins k (true_fov_offset e))) ->
       forall v, In v d -> v = 0).
Proof. intros; apply c44; auto. Qed.
Print Assumptions C44_migration_matrix.
Theorem C44_value : forall evs ebins rbins fbins,
  nondecreasing ebins -> (2 <= List.length ebins)%nat -> nondecreasing rbins -> (2 <= List.length rbins)%nat ->
  nondecreasing fbins -> (2 <= List.length fbins)%nat ->
  forall i j k,
  (i < (List.length ebins - 1)%nat)%nat -> (j < (List.length rbins - 1)%nat)%nat -> (k < (List.length fbins - 1)%nat)%nat ->
  exists out n m, energy_migration_matrix evs ebins rbins fbins = Ok out /\
    number_of (fun e => in_hist_bin ebins i (true_energy e) /\ in_hist_bin rbins j (reco_energy e) /\ in_hist_bin fbins k (true_fov_offset e)) evs n /\
    number_of (fun e => in_hist_bin ebins i (true_energy e) /\ in_range rbins (reco_energy e) /\ in_hist_bin fbins k (true_fov_offset e)) evs m /\
    ((0 < m)%nat -> at_ out [i; j; k] = Fin (INR n / INR m)).
Proof. intros; apply c44_value; auto. Qed.
Print Assumptions C44_value.
(** [P]: the probabilities of the migration bins for the new true energy bin.  If they are not all 0: the row sums to 1 if the
    reconstructed range covers the migration range; a bin between two migration edges (times the central true energy) gets exactly the
    probability between them; bins outside get 0.  Last clause: without any probability a row gets a phantom probability of 1 when the
    reconstructed range reaches beyond the migration range *)
Theorem C44_dispersion_to_migration : forall itp,
  passes_through_knots itp -> forall (disp : nat -> nat -> nat -> R) nfov te mig nt reco,
  increasing te -> (3 <= List.length te)%nat -> increasing mig -> (3 <= List.length mig)%nat ->
  (forall i e e', nth_error nt i = Some e -> nth_error nt (S i) = Some e' -> 0 < e + e') ->
  exists out, energy_dispersion_to_migration itp disp (List.length te - 1)%nat (List.length mig - 1)%nat nfov te mig nt reco = Ok out /\
  shape3 out (List.length nt - 1) nfov (List.length reco - 1) /\
  forall i k e e', nth_error nt i = Some e -> nth_error nt (S i) = Some e' -> (k < nfov)%nat ->
    exists plane r P, nth_error out i = Some plane /\ nth_error plane k = Some r /\ List.length P = (List.length mig - 1)%nat /\
      (* the resampled probabilities of the migration bins *)
      (forall j, (j < (List.length mig - 1)%nat)%nat -> exists slice, resample_histogram1d itp false (map (fun h => disp h j k * (nth (S j) mig 0 - nth j mig 0)) (seq 0 (List.length te - 1)%nat)) (map Fin te) (map Fin nt) = Ok slice /\ nth_error slice i = nth_error P j) /\
      (forall u v j, nth_error te u = Some e -> nth_error te v = Some e' -> (j < (List.length mig - 1)%nat)%nat ->
         nth_error P j = Some (between u v (map (fun h => disp h j k * (nth (S j) mig 0 - nth j mig 0)) (seq 0 (List.length te - 1)%nat)))) /\
      (total P <> 0 -> reco <> [] -> hd 0 reco <= (e + e') / 2 * hd 0 mig -> (e + e') / 2 * last mig 0 <= last reco 0 -> total r = 1) /\
      (total P <> 0 -> forall n a b u v, nth_error reco n = Some ((e + e') / 2 * a) -> nth_error reco (S n) = Some ((e + e') / 2 * b) ->
         nth_error mig u = Some a -> nth_error mig v = Some b -> nth_error r n = Some (between u v P / total P)) /\
      (total P <> 0 -> forall n a b, nth_error reco n = Some a -> nth_error reco (S n) = Some b ->
         (a <= (e + e') / 2 * hd 0 mig /\ b <= (e + e') / 2 * hd 0 mig) \/ ((e + e') / 2 * last mig 0 <= a /\ (e + e') / 2 * last mig 0 <= b) ->
         nth_error r n = Some 0) /\
      ((forall x, In x P -> x = 0) -> forall a b, reco = [a; b] -> a = (e + e') / 2 * hd 0 mig -> (e + e') / 2 * last mig 0 < b -> r = [1]).
Proof. exact to_mig_any. Qed.
Print Assumptions C44_dispersion_to_migration.
Theorem C44_empty_refuted : forall itp, passes_through_knots itp -> forall te mig hi,
  increasing te -> (3 <= List.length te)%nat -> (forall e, In e te -> 0 < e) -> increasing mig -> (3 <= List.length mig)%nat -> 0 < hd 0 mig ->
  let c := (nth 0 te 0 + nth 1 te 0) / 2 in c * last mig 0 < hi ->
  exists out plane, energy_dispersion_to_migration itp (fun _ _ _ => 0) (List.length te - 1) (List.length mig - 1) 1 te mig te [c * hd 0 mig; hi] = Ok out /\
    nth_error out 0 = Some plane /\ nth_error plane 0 = Some [1].
Proof.
  intros itp Hi te mig hi Ht Lt Pt Hm Lm Pm c Hc.
  destruct (nth_error te 0) as [e|] eqn:E0; [|apply nth_error_None in E0; lia]. destruct (nth_error te 1) as [e'|] eqn:E1; [|apply nth_error_None in E1; lia].
  destruct (to_mig_any itp Hi (fun _ _ _ => 0) 1 te mig te [c * hd 0 mig; hi] Ht Lt Hm Lm) as (out & Eo & _ & H).
  { intros i a b A B. apply nth_error_In in A, B. apply Pt in A, B. lra. }
  destruct (H 0%nat 0%nat e e' E0 E1 ltac:(lia)) as (plane & r & P & H1 & H2 & LP & _ & HP & _ & _ & _ & Z).
  exists out, plane. split; auto. split; auto. rewrite H2. f_equal. assert (Ec : c = (e + e') / 2) by (unfold c; rewrite (nth_error_nth _ _ _ E0), (nth_error_nth _ _ _ E1); auto).
  apply (Z) with (a := c * hd 0 mig) (b := hi); auto; try (rewrite <- Ec; auto).
  intros x Hx. apply In_nth_error in Hx as (j & Hj). assert (j < List.length P)%nat by (apply nth_error_Some; congruence).
  rewrite (HP 0%nat 1%nat j E0 E1) in Hj by lia. assert (Q : forall n m, total (firstn m (map (fun _ : nat => 0 * (nth (S j) mig 0 - nth j mig 0)) (seq n (List.length te - 1)))) = 0).
  { clear. intros n m. generalize (List.length te - 1)%nat. intros l. revert n m. induction l as [|l IH]; intros n [|m]; cbn; auto. rewrite IH. ring. }
  unfold between in Hj. rewrite !Q in Hj. inversion Hj. lra.
Qed.
Print Assumptions C44_empty_refuted.
Example C44_example : exists itp, passes_through_knots itp /\ increasing [1; 2; 4] /\ increasing [1 / 2; 1; 2] /\
  (3 / 2 * hd 0 [1 / 2; 1; 2] = 3 / 4) /\ (3 / 2 * last [1 / 2; 1; 2] 0 = 3).
Proof. exists some_itp. split; [apply some_itp_passes|]. split; [inc|]. split; [inc|]. cbn. lra. Qed.
(** ** C45 *)
(** integrates to 1 over solid angle, or is 0 *)
Theorem C45_normalised : forall evs ebins fbins sbins,
  nondecreasing ebins -> (2 <= List.length ebins)%nat -> nondecreasing fbins -> (2 <= List.length fbins)%nat ->
  angles sbins -> (2 <= List.length sbins)%nat ->
  exists out, psf_table evs ebins sbins fbins = Ok out /\
  shape out = [(List.length ebins - 1)%nat; (List.length fbins - 1)%nat; (List.length sbins - 1)%nat] /\
  forall i j, (i < List.length ebins - 1)%nat -> (j < List.length fbins - 1)%nat ->
    exists d, List.length d = (List.length sbins - 1)%nat /\
      (forall k v, nth_error d k = Some v -> at_ out [i; j; k] = Fin v /\ 0 <= v) /\
      ((exists e, In e evs /\ in_hist_bin ebins i (true_energy e) /\ in_hist_bin fbins j (true_fov_offset e) /\ in_range (map Fin sbins) (theta e)) ->
       integral_over ring_deg sbins d = 1) /\
      ((forall e, In e evs -> ~ (in_hist_bin ebins i (true_energy e) /\ in_hist_bin fbins j (true_fov_offset e) /\ in_range (map Fin sbins) (theta e))) ->
       forall v, In v d -> v = 0).
Proof. intros; apply c45; auto. Qed.
Print Assumptions C45_normalised.
Theorem C45_value : forall evs ebins fbins sbins,
  nondecreasing ebins -> (2 <= List.length ebins)%nat -> nondecreasing fbins -> (2 <= List.length fbins)%nat ->
  angles sbins -> (2 <= List.length sbins)%nat ->
  forall i j k,
  (i < (List.length ebins - 1)%nat)%nat -> (j < (List.length fbins - 1)%nat)%nat -> (k < (List.length sbins - 1)%nat)%nat ->
  exists out n m a b, psf_table evs ebins sbins fbins = Ok out /\
    number_of (fun e => in_hist_bin ebins i (true_energy e) /\ in_hist_bin fbins j (true_fov_offset e) /\ in_hist_bin (map Fin sbins) k (theta e)) evs n /\
    number_of (fun e => in_hist_bin ebins i (true_energy e) /\ in_hist_bin fbins j (true_fov_offset e) /\ in_range (map Fin sbins) (theta e)) evs m /\
    nth_error sbins k = Some a /\ nth_error sbins (S k) = Some b /\
    ((0 < m)%nat -> at_ out [i; j; k] = Fin (INR n / INR m / ring_deg a b)).
Proof. intros; apply c45_value; auto. Qed.
Print Assumptions C45_value.
Example C45_example : angles [0; 1 / 5; 1] /\ exists e, In e [ev0 2 3] /\ in_hist_bin [Fin 1; Fin 10] 0 (true_energy e) /\
  in_hist_bin [Fin 0; Fin 5] 0 (true_fov_offset e) /\ in_hist_bin (map Fin [0; 1 / 5; 1]) 0 (theta e).
Proof.
  split; [split; [inc|]; intros x Hx; cbn in Hx; intuition lra|]. exists (ev0 2 3). split; [left; auto|]. split; [apply in0; lra|]. split; [apply in0; lra|].
  left. exists (Fin 0), (Fin (1 / 5)). cbn. rsolve. auto.
Qed.
(** ** C46 *)
(** rate x energy width x observation time x solid angle = weight of the events in the bin *)
Theorem C46_bin : forall evs ebins fbins t_obs,
  increasing ebins -> (2 <= List.length ebins)%nat -> angles fbins -> (2 <= List.length fbins)%nat -> 0 < t_obs ->
  exists out, background_2d evs (map Fin ebins) fbins t_obs = Ok out /\ shape out = [(List.length ebins - 1)%nat; (List.length fbins - 1)%nat] /\
  forall i j e e' f f', nth_error ebins i = Some e -> nth_error ebins (S i) = Some e' -> nth_error fbins j = Some f -> nth_error fbins (S j) = Some f' ->
    exists rate W, at_ out [i; j] = Fin rate /\
      weight_of weight (fun ev => in_hist_bin (map Fin ebins) i (reco_energy ev) /\ in_hist_bin (map Fin fbins) j (reco_fov_offset ev)) evs W /\
      rate * (e' - e) * t_obs * ring_deg f f' = W.
Proof. intros; apply c46_bin; auto. Qed.
Print Assumptions C46_bin.
(** integrated over all bins: the weight of the events inside the binning *)
Theorem C46_total : forall evs ebins fbins t_obs,
  increasing ebins -> (2 <= List.length ebins)%nat -> angles fbins -> (2 <= List.length fbins)%nat -> 0 < t_obs ->
  exists out rows W, background_2d evs (map Fin ebins) fbins t_obs = Ok out /\
  List.length rows = (List.length ebins - 1)%nat /\
  (forall i row, nth_error rows i = Some row -> List.length row = (List.length fbins - 1)%nat /\ forall j v, nth_error row j = Some v -> at_ out [i; j] = Fin v) /\
  weight_of weight (fun ev => in_range (map Fin ebins) (reco_energy ev) /\ in_range (map Fin fbins) (reco_fov_offset ev)) evs W /\
  integral_over width ebins (map (integral_over ring_deg fbins) rows) * t_obs = W.
Proof. intros; apply c46_total; auto. Qed.
Print Assumptions C46_total.
Example C46_example : increasing [1; 3; 10] /\ angles [0; 2; 5] /\ in_hist_bin (map Fin [1; 3; 10]) 1 (reco_energy (ev0 2 3)) /\
  weight_of weight (fun ev => in_hist_bin [Fin 1; Fin 10] 0 (reco_energy ev)) [ev0 2 3] (2 + 0).
Proof.
  split; [inc|]. split; [split; [inc|]; intros x Hx; cbn in Hx; intuition lra|]. split; [left; exists (Fin 3), (Fin 10); cbn; rsolve; auto|].
  apply (wo_yes weight _ (ev0 2 3)); [apply in0; lra|constructor].
Qed.
(** ** C47 *)
(** uniform longitude bins, as many as latitude bins (or a single one) *)
Theorem C47_bin : forall evs ebins lon lat t_obs,
  increasing ebins -> (2 <= List.length ebins)%nat -> increasing lon -> (2 <= List.length lon)%nat ->
  latitudes lat -> (2 <= List.length lat)%nat -> 0 < t_obs ->
  uniform lon -> List.length lon = List.length lat \/ List.length lon = 2%nat ->
  exists out, background_3d_lonlat evs (map Fin ebins) lon lat t_obs = Ok out /\ shape out = [(List.length ebins - 1)%nat; (List.length lon - 1)%nat; (List.length lat - 1)%nat] /\
  forall i j k e e' l l' b b', nth_error ebins i = Some e -> nth_error ebins (S i) = Some e' -> nth_error lon j = Some l -> nth_error lon (S j) = Some l' ->
    nth_error lat k = Some b -> nth_error lat (S k) = Some b' ->
    exists rate W, at_ out [i; j; k] = Fin rate /\
      weight_of weight (fun ev => in_hist_bin (map Fin ebins) i (reco_energy ev) /\ in_hist_bin (map Fin lon) j (reco_fov_lon ev) /\ in_hist_bin (map Fin lat) k (reco_fov_lat ev)) evs W /\
      rate * (e' - e) * t_obs * rectangle_deg l l' b b' = W.
Proof. intros; apply c47_bin; auto. Qed.
Print Assumptions C47_bin.
Theorem C47_total : forall evs ebins lon lat t_obs,
  increasing ebins -> (2 <= List.length ebins)%nat -> increasing lon -> (2 <= List.length lon)%nat ->
  latitudes lat -> (2 <= List.length lat)%nat -> 0 < t_obs ->
  uniform lon -> List.length lon = List.length lat \/ List.length lon = 2%nat ->
  exists out (cube : list (list (list R))) W, background_3d_lonlat evs (map Fin ebins) lon lat t_obs = Ok out /\
  shape3 cube (List.length ebins - 1) (List.length lon - 1) (List.length lat - 1) /\
  (forall i j k v, entry3 cube i j k v -> at_ out [i; j; k] = Fin v) /\
  weight_of weight (fun ev => in_range (map Fin ebins) (reco_energy ev) /\ in_range (map Fin lon) (reco_fov_lon ev) /\ in_range (map Fin lat) (reco_fov_lat ev)) evs W /\
  integral_over width ebins (map (fun plane => integral_over (fun a b => deg b - deg a) lon (map (integral_over (fun a b => sin (deg b) - sin (deg a)) lat) plane)) cube) * t_obs = W.
Proof. intros; apply c47_total; auto. Qed.
Print Assumptions C47_total.
(** other square grids: wrong by the ratio of two longitude widths *)
Theorem C47_nonuniform_refuted : forall evs ebins lon lat t_obs,
  increasing ebins -> (2 <= List.length ebins)%nat -> increasing lon -> (2 <= List.length lon)%nat ->
  latitudes lat -> (2 <= List.length lat)%nat -> 0 < t_obs ->
  List.length lon = List.length lat ->
  exists out, background_3d_lonlat evs (map Fin ebins) lon lat t_obs = Ok out /\
  forall i j k e e' l l' b b' lk lk', nth_error ebins i = Some e -> nth_error ebins (S i) = Some e' -> nth_error lon j = Some l -> nth_error lon (S j) = Some l' ->
    nth_error lat k = Some b -> nth_error lat (S k) = Some b' -> nth_error lon k = Some lk -> nth_error lon (S k) = Some lk' ->
    exists rate W, at_ out [i; j; k] = Fin rate /\
      weight_of weight (fun ev => in_hist_bin (map Fin ebins) i (reco_energy ev) /\ in_hist_bin (map Fin lon) j (reco_fov_lon ev) /\ in_hist_bin (map Fin lat) k (reco_fov_lat ev)) evs W /\
      rate * (e' - e) * t_obs * rectangle_deg l l' b b' = W * ((l' - l) / (lk' - lk)).
Proof. intros; apply c47_square; auto. Qed.
Print Assumptions C47_nonuniform_refuted.
(** different numbers of longitude and latitude bins: ValueError *)
Theorem C47_shape_error_refuted : forall evs ebins lon lat t_obs,
  increasing ebins -> (2 <= List.length ebins)%nat -> increasing lon -> (2 <= List.length lon)%nat ->
  latitudes lat -> (2 <= List.length lat)%nat ->
  List.length lon <> List.length lat -> List.length lon <> 2%nat -> List.length lat <> 2%nat ->
  background_3d_lonlat evs (map Fin ebins) lon lat t_obs = Err ValueError.
Proof. intros; apply c47_shape_error; auto. Qed.
Print Assumptions C47_shape_error_refuted.
(** one latitude bin, several longitude bins: an array of the wrong shape *)
Theorem C47_shape_refuted : forall evs ebins lon lat t_obs,
  increasing ebins -> (2 <= List.length ebins)%nat -> increasing lon -> (2 <= List.length lon)%nat ->
  latitudes lat -> (2 <= List.length lat)%nat ->
  List.length lat = 2%nat -> (3 <= List.length lon)%nat ->
  exists out, background_3d_lonlat evs (map Fin ebins) lon lat t_obs = Ok out /\
    shape out = [(List.length ebins - 1)%nat; (List.length lon - 1)%nat; (List.length lon - 1)%nat].
Proof. intros; apply c47_shape_wrong; auto. Qed.
Print Assumptions C47_shape_refuted.
Example C47_example : uniform [-1; 0; 1] /\ latitudes [-1; 0; 2] /\ increasing [-1; 0; 1] /\
  in_hist_bin (map Fin [-1; 0; 1]) 1 (reco_fov_lon (ev0 2 3)) /\ in_hist_bin (map Fin [-1; 0; 2]) 1 (reco_fov_lat (ev0 2 3)).
Proof.
  split; [exists 1; inc|]. split; [split; [inc|]; intros x Hx; cbn in Hx; intuition lra|]. split; [inc|].
  split; [left; exists (Fin 0), (Fin 1)|left; exists (Fin 0), (Fin 2)]; cbn; rsolve; auto.
Qed.
