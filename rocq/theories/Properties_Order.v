(** * Properties_Order: the order of the events does not matter (C72) *)
From Coq Require Import String Reals List Bool ZArith Lia Lra Permutation.
From Verif Require Import Num Numpy Table Binning Percentile Cuts Utils Sensitivity CutOptimization Simulations Tensor IRF Benchmarks
  SpecOrder OrderProofs.
Import ListNotations.
Open Scope R_scope.

(** ** C72.  The same events in another order: the same result (or the same exception) *)
Theorem C72_histogram_table : forall events events' weight ptype bins key, Permutation events events' ->
  create_histogram_table (mkEvents events weight ptype) bins key = create_histogram_table (mkEvents events' weight ptype) bins key.
Proof. exact HistProofs.hist_perm. Qed.
Print Assumptions C72_histogram_table.
Theorem C72_effective_area : forall events events' weight ptype s bins, Permutation events events' ->
  effective_area_per_energy (mkEvents events weight ptype) s bins = effective_area_per_energy (mkEvents events' weight ptype) s bins.
Proof. exact order_aeff_energy. Qed.
Print Assumptions C72_effective_area.
Theorem C72_effective_area_fov : forall events events', Permutation events events' -> forall s energy fov,
  effective_area_per_energy_and_fov events s energy fov = effective_area_per_energy_and_fov events' s energy fov.
Proof. exact order_aeff_fov. Qed.
Print Assumptions C72_effective_area_fov.
Theorem C72_effective_area_polar : forall events events', Permutation events events' -> forall s energy fov pa,
  effective_area_3d_polar events s energy fov pa = effective_area_3d_polar events' s energy fov pa.
Proof. exact order_aeff_polar. Qed.
Print Assumptions C72_effective_area_polar.
Theorem C72_effective_area_lonlat : forall events events', Permutation events events' -> forall s energy lon lat subpixels,
  effective_area_3d_lonlat events s energy lon lat subpixels = effective_area_3d_lonlat events' s energy lon lat subpixels.
Proof. exact order_aeff_lonlat. Qed.
Print Assumptions C72_effective_area_lonlat.
Theorem C72_energy_dispersion : forall events events', Permutation events events' -> forall energy fov migration,
  energy_dispersion events energy fov migration = energy_dispersion events' energy fov migration.
Proof. exact order_edisp. Qed.
Print Assumptions C72_energy_dispersion.
Theorem C72_migration_matrix : forall events events', Permutation events events' -> forall energy reco fov,
  energy_migration_matrix events energy reco fov = energy_migration_matrix events' energy reco fov.
Proof. exact order_migration. Qed.
Print Assumptions C72_migration_matrix.
Theorem C72_psf_table : forall events events', Permutation events events' -> forall energy source fov,
  psf_table events energy source fov = psf_table events' energy source fov.
Proof. exact order_psf. Qed.
Print Assumptions C72_psf_table.
Theorem C72_background_2d : forall events events', Permutation events events' -> forall energy fov t,
  background_2d events energy fov t = background_2d events' energy fov t.
Proof. exact order_bg2. Qed.
Print Assumptions C72_background_2d.
Theorem C72_background_3d : forall events events', Permutation events events' -> forall energy lon lat t,
  background_3d_lonlat events energy lon lat t = background_3d_lonlat events' energy lon lat t.
Proof. exact order_bg3. Qed.
Print Assumptions C72_background_3d.
Theorem C72_estimate_background : forall events events' weight ptype bins center cut alpha lo hi, Permutation events events' ->
  estimate_background events weight ptype bins center cut alpha lo hi = estimate_background events' weight ptype bins center cut alpha lo hi.
Proof. exact order_background. Qed.
Print Assumptions C72_estimate_background.
(** rows of values and of the quantity they are binned in *)
Theorem C72_percentile_cut : forall is_int v x v' x' u ux bins fill p lo hi smoothing min_events,
  List.length x = List.length v -> List.length x' = List.length v' -> Permutation (combine v x) (combine v' x') ->
  calculate_percentile_cut is_int (mkArr v u) (mkArr x ux) bins fill p lo hi smoothing min_events =
  calculate_percentile_cut is_int (mkArr v' u) (mkArr x' ux) bins fill p lo hi smoothing min_events.
Proof. exact c72_percentile. Qed.
Print Assumptions C72_percentile_cut.
Theorem C72_binned_cut : forall is_qtable v x v' x' ux low high u cuts op,
  List.length x = List.length v -> List.length x' = List.length v' -> Permutation (combine v x) (combine v' x') ->
  same_marks (combine v x) (combine v' x') (evaluate_binned_cut is_qtable v (mkArr x ux) low high u cuts op)
    (evaluate_binned_cut is_qtable v' (mkArr x' ux) low high u cuts op).
Proof. exact c72_marks. Qed.
Print Assumptions C72_binned_cut.
(** both searches, whatever the root finder, the significance and the sensitivity used inside them *)
Theorem C72_optimize_gh_cut : forall brentq sf sa sw sp bw bp signal signal' background background' bins alpha fmin fmax min_sig min_ev min_exc,
  Permutation signal signal' -> Permutation background background' -> forall op eff lo hi center cut,
  optimize_gh_cut brentq sf sa sw sp bw bp signal background bins alpha fmin fmax min_sig min_ev min_exc op eff lo hi center cut =
  optimize_gh_cut brentq sf sa sw sp bw bp signal' background' bins alpha fmin fmax min_sig min_ev min_exc op eff lo hi center cut.
Proof. exact order_optimize_gh. Qed.
Print Assumptions C72_optimize_gh_cut.
Theorem C72_optimize_cuts : forall brentq sf sa sw sp bw bp signal signal' background background' bins alpha fmin fmax min_sig min_ev min_exc,
  Permutation signal signal' -> Permutation background background' -> forall mult gh_eff theta_eff theta_min theta_max,
  optimize_cuts brentq sf sa sw sp bw bp signal background bins alpha fmin fmax min_sig min_ev min_exc mult gh_eff theta_eff theta_min theta_max =
  optimize_cuts brentq sf sa sw sp bw bp signal' background' bins alpha fmin fmax min_sig min_ev min_exc mult gh_eff theta_eff theta_min theta_max.
Proof. exact order_optimize. Qed.
Print Assumptions C72_optimize_cuts.
Theorem C72_angular_resolution : forall events events' bins energy_type quantile, reordered events events' ->
  angular_resolution events bins energy_type quantile = angular_resolution events' bins energy_type quantile.
Proof. exact c72_angular. Qed.
Print Assumptions C72_angular_resolution.
Theorem C72_bias_resolution : forall events events' bins energy_type bias resolution, reordered events events' -> symmetric bias -> symmetric resolution ->
  energy_bias_resolution events bins energy_type bias resolution = energy_bias_resolution events' bins energy_type bias resolution.
Proof. exact c72_bias. Qed.
Print Assumptions C72_bias_resolution.
(** the functions pyirf offers for bias and resolution are such *)
Theorem C72_bias_functions : forall lo hi q, symmetric nanmedian /\ symmetric (inter_quantile_distance lo hi) /\ symmetric (energy_resolution_absolute_68 q).
Proof. exact c72_symmetric. Qed.
Print Assumptions C72_bias_functions.
Example C72_example : reordered [("theta"%string, mkArr [Fin 3; NaN; Fin 1] None); ("true_energy"%string, mkArr [Fin 2; Fin 5; Fin 20] None)]
    [("theta"%string, mkArr [Fin 1; Fin 3; NaN] None); ("true_energy"%string, mkArr [Fin 20; Fin 2; Fin 5] None)] /\
  Permutation (combine [Fin 3; NaN; Fin 1] [Fin 2; Fin 5; Fin 20]) (combine [Fin 1; Fin 3; NaN] [Fin 20; Fin 2; Fin 5]) /\
  same_marks [(Fin 3, Fin 2); (NaN, Fin 5); (Fin 1, Fin 20)] [(Fin 1, Fin 20); (Fin 3, Fin 2); (NaN, Fin 5)] (Ok [true; false; false]) (Ok [false; true; false]) /\
  ~ same_marks [(Fin 3, Fin 2); (NaN, Fin 5)] [(NaN, Fin 5); (Fin 3, Fin 2)] (Ok [true; false]) (Ok [true; false]).
Proof.
  assert (P3 : forall A (a b c : A), Permutation [a; b; c] [c; a; b]).
  { intros A a b c. apply Permutation_sym. eapply perm_trans; [apply perm_swap|]. apply perm_skip, perm_swap. }
  split; [|split; [|split]].
  - exists 3%nat, [2%nat; 0%nat; 1%nat]. split; [|split].
    + apply Permutation_sym. apply (P3 nat 0%nat 1%nat 2%nat).
    + intros c [<-|[<-|[]]]; reflexivity.
    + reflexivity.
  - apply P3.
  - split; [reflexivity|split; [reflexivity|]]. apply P3.
  - intros (_ & _ & P). apply (Permutation_in (Fin 3, Fin 2, true)) in P; [|cbn; auto]. cbn in P. destruct P as [P|[P|[]]]; congruence.
Qed.
