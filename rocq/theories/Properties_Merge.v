(** * Properties_Merge: two samples of events analysed together (C73) *)
From Coq Require Import String Reals List Bool ZArith Lia Lra.
From Verif Require Import Num Numpy Table Binning Utils Simulations Tensor IRF SpecBinning SpecIRF SpecMerge MergeProofs.
Import ListNotations.
Open Scope R_scope.

(** ** C73.  The result for two samples together is the mean of the results for each, weighted with the number of simulated showers
    (effective area), with the observation time (background) or with the number of events in the distribution *)
Theorem C73_histogram_table : forall e1 e2 weight ptype edges key, nondecreasing edges -> (2 <= List.length edges)%nat -> exists t t1 t2 n n1 n2,
  create_histogram_table (mkEvents (e1 ++ e2) weight ptype) edges key = Ok t /\ create_histogram_table (mkEvents e1 weight ptype) edges key = Ok t1 /\
  create_histogram_table (mkEvents e2 weight ptype) edges key = Ok t2 /\ getitem t "n" = Some (CZ n) /\ getitem t1 "n" = Some (CZ n1) /\ getitem t2 "n" = Some (CZ n2) /\
  List.length n = (List.length edges - 1)%nat /\ List.length n1 = (List.length edges - 1)%nat /\ List.length n2 = (List.length edges - 1)%nat /\
  forall k c c1 c2, nth_error n k = Some c -> nth_error n1 k = Some c1 -> nth_error n2 k = Some c2 -> c = (c1 + c2)%Z.
Proof. exact hist_adds. Qed.
Print Assumptions C73_histogram_table.
Theorem C73_effective_area : forall s s1 s2 e1 e2 weight ptype bins, same_conditions s s1 -> same_conditions s s2 ->
  (0 < n_showers s1)%Z -> (0 < n_showers s2)%Z -> n_showers s = (n_showers s1 + n_showers s2)%Z -> nondecreasing bins -> (2 <= List.length bins)%nat ->
  adds_up (IZR (n_showers s)) (IZR (n_showers s1)) (IZR (n_showers s2)) (effective_area_per_energy (mkEvents (e1 ++ e2) weight ptype) s bins)
    (effective_area_per_energy (mkEvents e1 weight ptype) s1 bins) (effective_area_per_energy (mkEvents e2 weight ptype) s2 bins).
Proof. intros. apply radds_adds_up, merge_area_energy; assumption. Qed.
Print Assumptions C73_effective_area.
Theorem C73_effective_area_fov : forall s s1 s2, same_conditions s s1 -> same_conditions s s2 ->
  (0 < n_showers s1)%Z -> (0 < n_showers s2)%Z -> n_showers s = (n_showers s1 + n_showers s2)%Z -> forall e1 e2 bins fov,
  adds_up (IZR (n_showers s)) (IZR (n_showers s1)) (IZR (n_showers s2)) (effective_area_per_energy_and_fov (e1 ++ e2) s bins fov)
    (effective_area_per_energy_and_fov e1 s1 bins fov) (effective_area_per_energy_and_fov e2 s2 bins fov).
Proof. intros. apply radds_adds_up, merge_area_fov; assumption. Qed.
Print Assumptions C73_effective_area_fov.
Theorem C73_effective_area_polar : forall s s1 s2, same_conditions s s1 -> same_conditions s s2 ->
  (0 < n_showers s1)%Z -> (0 < n_showers s2)%Z -> n_showers s = (n_showers s1 + n_showers s2)%Z -> forall e1 e2 bins fov pa,
  adds_up (IZR (n_showers s)) (IZR (n_showers s1)) (IZR (n_showers s2)) (effective_area_3d_polar (e1 ++ e2) s bins fov pa)
    (effective_area_3d_polar e1 s1 bins fov pa) (effective_area_3d_polar e2 s2 bins fov pa).
Proof. intros. apply radds_adds_up, merge_area_polar; assumption. Qed.
Print Assumptions C73_effective_area_polar.
Theorem C73_effective_area_lonlat : forall s s1 s2, same_conditions s s1 -> same_conditions s s2 ->
  (0 < n_showers s1)%Z -> (0 < n_showers s2)%Z -> n_showers s = (n_showers s1 + n_showers s2)%Z -> forall e1 e2 bins lon lat subpixels,
  adds_up (IZR (n_showers s)) (IZR (n_showers s1)) (IZR (n_showers s2)) (effective_area_3d_lonlat (e1 ++ e2) s bins lon lat subpixels)
    (effective_area_3d_lonlat e1 s1 bins lon lat subpixels) (effective_area_3d_lonlat e2 s2 bins lon lat subpixels).
Proof. intros. apply radds_adds_up, merge_area_lonlat; assumption. Qed.
Print Assumptions C73_effective_area_lonlat.
(** in particular for [t = t1 + t2] *)
Theorem C73_background_2d : forall e1 e2 t t1 t2, 0 < t -> 0 < t1 -> 0 < t2 -> forall energy fov,
  adds_up t t1 t2 (background_2d (e1 ++ e2) energy fov t) (background_2d e1 energy fov t1) (background_2d e2 energy fov t2).
Proof. intros. apply radds_adds_up, merge_bg2; assumption. Qed.
Print Assumptions C73_background_2d.
Theorem C73_background_3d : forall e1 e2 t t1 t2, 0 < t -> 0 < t1 -> 0 < t2 -> forall energy lon lat,
  adds_up t t1 t2 (background_3d_lonlat (e1 ++ e2) energy lon lat t) (background_3d_lonlat e1 energy lon lat t1) (background_3d_lonlat e2 energy lon lat t2).
Proof. intros. apply radds_adds_up, merge_bg3; assumption. Qed.
Print Assumptions C73_background_3d.
(** [m1], [m2]: events of each sample in the distribution of true energy bin [i] and field of view bin [k] *)
Theorem C73_energy_dispersion : forall e1 e2 eb fb, nondecreasing eb -> (2 <= List.length eb)%nat -> nondecreasing fb -> (2 <= List.length fb)%nat ->
  forall mig, increasing mig -> (2 <= List.length mig)%nat -> exists d d1 d2, energy_dispersion (e1 ++ e2) eb fb (map Fin mig) = Ok d /\
  energy_dispersion e1 eb fb (map Fin mig) = Ok d1 /\ energy_dispersion e2 eb fb (map Fin mig) = Ok d2 /\
  forall i j k m1 m2, (i < List.length eb - 1)%nat -> (j < List.length mig - 1)%nat -> (k < List.length fb - 1)%nat ->
  number_of (fun e => in_hist_bin eb i (true_energy e) /\ in_range (map Fin mig) (ndiv (reco_energy e) (true_energy e)) /\ in_hist_bin fb k (true_fov_offset e)) e1 m1 ->
  number_of (fun e => in_hist_bin eb i (true_energy e) /\ in_range (map Fin mig) (ndiv (reco_energy e) (true_energy e)) /\ in_hist_bin fb k (true_fov_offset e)) e2 m2 ->
  exists x x1 x2, at_ d [i; j; k] = Fin x /\ at_ d1 [i; j; k] = Fin x1 /\ at_ d2 [i; j; k] = Fin x2 /\ (INR m1 + INR m2) * x = INR m1 * x1 + INR m2 * x2.
Proof. exact merge_edisp. Qed.
Print Assumptions C73_energy_dispersion.
Theorem C73_migration_matrix : forall e1 e2 eb fb, nondecreasing eb -> (2 <= List.length eb)%nat -> nondecreasing fb -> (2 <= List.length fb)%nat ->
  forall reco, nondecreasing reco -> (2 <= List.length reco)%nat -> exists d d1 d2, energy_migration_matrix (e1 ++ e2) eb reco fb = Ok d /\
  energy_migration_matrix e1 eb reco fb = Ok d1 /\ energy_migration_matrix e2 eb reco fb = Ok d2 /\
  forall i j k m1 m2, (i < List.length eb - 1)%nat -> (j < List.length reco - 1)%nat -> (k < List.length fb - 1)%nat ->
  number_of (fun e => in_hist_bin eb i (true_energy e) /\ in_range reco (reco_energy e) /\ in_hist_bin fb k (true_fov_offset e)) e1 m1 ->
  number_of (fun e => in_hist_bin eb i (true_energy e) /\ in_range reco (reco_energy e) /\ in_hist_bin fb k (true_fov_offset e)) e2 m2 ->
  exists x x1 x2, at_ d [i; j; k] = Fin x /\ at_ d1 [i; j; k] = Fin x1 /\ at_ d2 [i; j; k] = Fin x2 /\ (INR m1 + INR m2) * x = INR m1 * x1 + INR m2 * x2.
Proof. exact merge_migration. Qed.
Print Assumptions C73_migration_matrix.
Theorem C73_psf_table : forall e1 e2 eb fb, nondecreasing eb -> (2 <= List.length eb)%nat -> nondecreasing fb -> (2 <= List.length fb)%nat ->
  forall src, angles src -> (2 <= List.length src)%nat -> exists d d1 d2, psf_table (e1 ++ e2) eb src fb = Ok d /\
  psf_table e1 eb src fb = Ok d1 /\ psf_table e2 eb src fb = Ok d2 /\
  forall i j k m1 m2, (i < List.length eb - 1)%nat -> (j < List.length src - 1)%nat -> (k < List.length fb - 1)%nat ->
  number_of (fun e => in_hist_bin eb i (true_energy e) /\ in_hist_bin fb k (true_fov_offset e) /\ in_range (map Fin src) (theta e)) e1 m1 ->
  number_of (fun e => in_hist_bin eb i (true_energy e) /\ in_hist_bin fb k (true_fov_offset e) /\ in_range (map Fin src) (theta e)) e2 m2 ->
  exists x x1 x2, at_ d [i; k; j] = Fin x /\ at_ d1 [i; k; j] = Fin x1 /\ at_ d2 [i; k; j] = Fin x2 /\ (INR m1 + INR m2) * x = INR m1 * x1 + INR m2 * x2.
Proof. exact merge_psf. Qed.
Print Assumptions C73_psf_table.
Example C73_example : same_conditions (mkSim 3000 1 10 100 (-2) 0 (PI / 18)) (mkSim 1000 1 10 100 (-2) 0 (PI / 18)) /\
  adds_up 3 1 2 (Ok (vec [Fin 5])) (Ok (vec [Fin 3])) (Ok (vec [Fin 6])) /\ ~ adds_up 3 1 2 (Ok (vec [Fin 9])) (Ok (vec [Fin 3])) (Ok (vec [Fin 6])).
Proof.
  split; [repeat split|]. split.
  - split; [reflexivity|split; [reflexivity|]]. intros [|[|[|]] [|]] x1 x2 H1 H2; cbn in *; try discriminate. injection H1 as <-. injection H2 as <-.
    exists 5. split; [reflexivity|]. lra.
  - intros (_ & _ & H). destruct (H [0%nat] 3 6 eq_refl eq_refl) as (x & E & F). cbn in E. injection E as <-. lra.
Qed.
