(** * Properties_Errors: C80 *)
From Coq Require Import String Reals List Bool ZArith Lia Lra.
From Verif Require Import Num Numpy Table Binning SpecBinning BinningWitness Utils Percentile Cuts SpecCuts Tensor Simulations IRF
  Statistics Sensitivity CutOptimization Quantities SpectralUnits SimulationUnits IRFUnits SpecUnits SpecIRFUnits CutOptimizationProofs CutOptimizationProofs5 ParticlesWitness Estimators SpecErrors ErrorsProofs.
Import ListNotations.
Open Scope R_scope.

(** ** C80: exceptions for invalid arguments *)
(** bins whose edges fall: ValueError; otherwise an axis without edges: IndexError *)
Theorem C80_energy_dispersion_bins : forall events true_energy fov_offset migration,
  (some_falling [true_energy; migration; fov_offset] -> energy_dispersion events true_energy fov_offset migration = Err ValueError) /\
  (some_empty [true_energy; migration; fov_offset] -> ~ some_falling [true_energy; migration; fov_offset] ->
     energy_dispersion events true_energy fov_offset migration = Err IndexError).
Proof. exact edisp_err. Qed.
Print Assumptions C80_energy_dispersion_bins.
Theorem C80_migration_matrix_bins : forall events true_energy reco_energy fov_offset,
  (some_falling [true_energy; reco_energy; fov_offset] -> energy_migration_matrix events true_energy reco_energy fov_offset = Err ValueError) /\
  (some_empty [true_energy; reco_energy; fov_offset] -> ~ some_falling [true_energy; reco_energy; fov_offset] ->
     energy_migration_matrix events true_energy reco_energy fov_offset = Err IndexError).
Proof. exact emm_err. Qed.
Print Assumptions C80_migration_matrix_bins.
Theorem C80_psf_table_bins : forall events true_energy source_offset fov_offset,
  (some_falling [true_energy; fov_offset; map Fin source_offset] -> psf_table events true_energy source_offset fov_offset = Err ValueError) /\
  (some_empty [true_energy; fov_offset; map Fin source_offset] -> ~ some_falling [true_energy; fov_offset; map Fin source_offset] ->
     psf_table events true_energy source_offset fov_offset = Err IndexError).
Proof. exact psf_err. Qed.
Print Assumptions C80_psf_table_bins.
Theorem C80_background_2d_bins : forall events reco_energy fov_offset t_obs,
  (some_falling [reco_energy; map Fin fov_offset] -> background_2d events reco_energy fov_offset t_obs = Err ValueError) /\
  (some_empty [reco_energy; map Fin fov_offset] -> ~ some_falling [reco_energy; map Fin fov_offset] ->
     background_2d events reco_energy fov_offset t_obs = Err IndexError).
Proof. exact bkg2_err. Qed.
Print Assumptions C80_background_2d_bins.
Theorem C80_background_3d_bins : forall events reco_energy lon lat t_obs,
  (some_falling [reco_energy; map Fin lon; map Fin lat] -> background_3d_lonlat events reco_energy lon lat t_obs = Err ValueError) /\
  (some_empty [reco_energy; map Fin lon; map Fin lat] -> ~ some_falling [reco_energy; map Fin lon; map Fin lat] ->
     background_3d_lonlat events reco_energy lon lat t_obs = Err IndexError).
Proof. exact bkg3_err. Qed.
Print Assumptions C80_background_3d_bins.
Example C80_bins_ex : some_falling [[Fin 1; Fin 2]; [Fin 2; Fin 1]; []] /\ some_empty [[Fin 1; Fin 2]; []; [Fin 0]] /\ ~ some_falling [[Fin 1; Fin 2]; []; [Fin 0]].
Proof.
  split; [|split].
  - exists [Fin 2; Fin 1]. split; [cbn; auto|]. exists 0%nat, (Fin 2), (Fin 1). split; [reflexivity|]. split; [reflexivity|]. cbn. apply Rltb_true. lra.
  - right. left. reflexivity.
  - intros (e & [<-|[<-|[<-|[]]]] & k & a & b & Ha & Hb & H).
    + destruct k as [|[|k]]; cbn in Ha, Hb; try discriminate; try (destruct k; discriminate). injection Ha as <-. injection Hb as <-. cbn in H. apply Rltb_true in H. lra.
    + destruct k; discriminate.
    + destruct k as [|k]; cbn in Hb; [discriminate|destruct k; discriminate].
Qed.
(** a histogram table is made exactly for edges that do not fall *)
Theorem C80_histogram_table : forall events bins key,
  (falling bins -> create_histogram_table events bins key = Err ValueError) /\
  (~ falling bins -> exists t, create_histogram_table events bins key = Ok t).
Proof. intros. split; [apply hist_table_err|apply hist_table_ok]. Qed.
Print Assumptions C80_histogram_table.
Theorem C80_effective_area_bins : forall events s bins, falling bins -> effective_area_per_energy events s bins = Err ValueError.
Proof. intros. apply aeff_err. exists bins. split; [left; reflexivity|assumption]. Qed.
Print Assumptions C80_effective_area_bins.
(** data without unit and bins with a unit [u]: numbers are dimensionless; if [u] is not, only zero, infinities and NaN have an index *)
Theorem C80_bin_indices_plain_data : forall data bins u, 0 < u_scale u ->
  (u_dim u = dimless_dim -> calculate_bin_indices (mkArr data None) (mkArr bins (Some u)) =
     calculate_bin_indices (mkArr (map (fun x => nmul (Fin (/ u_scale u)) x) data) None) (mkArr bins None)) /\
  (u_dim u <> dimless_dim -> (forall x, In x data -> x = Fin 0 \/ x = PInf \/ x = NInf \/ x = NaN) ->
     calculate_bin_indices (mkArr data None) (mkArr bins (Some u)) = calculate_bin_indices (mkArr data None) (mkArr bins None)) /\
  (u_dim u <> dimless_dim -> (exists r, In (Fin r) data /\ r <> 0) ->
     calculate_bin_indices (mkArr data None) (mkArr bins (Some u)) = Err UnitConversionError).
Proof. exact plain_data. Qed.
Print Assumptions C80_bin_indices_plain_data.
(** masks and indices of other lengths than the values *)
Theorem C80_cut_by_index : forall values idx valid cuts op,
  List.length values <> List.length idx \/ List.length valid <> List.length idx ->
  evaluate_binned_cut_by_index true values idx valid cuts op = Err IndexError.
Proof. exact by_index_err. Qed.
Print Assumptions C80_cut_by_index.
(** the background estimate needs a table of theta cuts *)
Theorem C80_estimate_background : forall events has_weight has_ptype bins theta_center theta_cut alpha fov_min fov_max,
  falling bins \/ theta_center = [] \/ List.length theta_center <> List.length theta_cut ->
  estimate_background events has_weight has_ptype bins theta_center theta_cut alpha fov_min fov_max = Err ValueError.
Proof. exact background_err. Qed.
Print Assumptions C80_estimate_background.
(** resampling: fewer than two edges; a wrong number of edges, no inner edge, or an edge that occurs twice *)
Theorem C80_resample_short : forall itp is_int data old new,
  (List.length old < 2)%nat -> resample_histogram1d itp is_int data old new = Err IndexError.
Proof. exact resample_short. Qed.
Print Assumptions C80_resample_short.
Theorem C80_resample : forall itp data (old : list R) new,
  (2 <= List.length old)%nat ->
  (List.length old <> S (List.length data) \/ List.length old = 2%nat \/ exists i k a, i <> k /\ nth_error old i = Some a /\ nth_error old k = Some a) ->
  resample_histogram1d itp false data (map Fin old) new = Err ValueError.
Proof. exact resample_bad. Qed.
Print Assumptions C80_resample.
Example C80_resample_ex : exists i k a, i <> k /\ nth_error [1; 2; 2; 3] i = Some a /\ nth_error [1; 2; 2; 3] k = Some a.
Proof. exists 1%nat, 2%nat, 2. split; [lia|]. split; reflexivity. Qed.
Theorem C80_join_rows : forall lo hi, List.length lo <> List.length hi -> join_bin_lo_hi_nd lo hi = Err ValueError.
Proof. exact join_rows. Qed.
Print Assumptions C80_join_rows.
Theorem C80_overflow_bins : forall positive, add_overflow_bins [] positive = Err IndexError.
Proof. exact overflow_err. Qed.
Print Assumptions C80_overflow_bins.
(** no signal events *)
Theorem C80_optimize_no_signal : forall br sf sa sw sp bw bp background bins alpha mn mx ms mse mex,
  (forall op effs th_low th_high th_center th_cut, th_high <> [] ->
    optimize_gh_cut br sf sa sw sp bw bp [] background bins alpha mn mx ms mse mex op effs th_low th_high th_center th_cut = Err ValueError) /\
  (forall mult gh_eff theta_eff theta_min theta_max,
    optimize_cuts br sf sa sw sp bw bp [] background bins alpha mn mx ms mse mex mult gh_eff theta_eff theta_min theta_max = Err ValueError).
Proof. intros. split; intros; [apply gh_no_signal; auto|apply cuts_no_signal]. Qed.
Print Assumptions C80_optimize_no_signal.
(** nothing to scan *)
Theorem C80_optimize_gh_no_efficiencies : forall br sf sa sw sp bw bp background bins alpha mn mx ms mse mex op signal th_low th_high th_center th_cut selected,
  nondecreasing bins -> (2 <= List.length bins)%nat -> (exists e k, In e signal /\ in_bin bins k (o_energy e)) ->
  evaluate_binned_cut true (map o_theta signal) (mkArr (map o_energy signal) None) th_low th_high None th_cut nle = Ok selected ->
  optimize_gh_cut br sf sa sw sp bw bp signal background bins alpha mn mx ms mse mex op [] th_low th_high th_center th_cut = Err IndexError.
Proof. exact gh_no_eff. Qed.
Print Assumptions C80_optimize_gh_no_efficiencies.
Example C80_no_efficiencies_ex : nondecreasing w79_bins /\ (2 <= List.length w79_bins)%nat /\ (exists e k, In e w79_signal /\ in_bin w79_bins k (o_energy e)) /\
  exists selected, evaluate_binned_cut true (map o_theta w79_signal) (mkArr (map o_energy w79_signal) None) [Fin 1] [Fin 10] None [Fin (1/10)] nle = Ok selected.
Proof.
  split; [apply rising_nondecreasing, w79_rising|]. split; [cbn; lia|]. split; [|exact w79_theta].
  exists w79_signal_a, 0%nat. split; [unfold w79_signal; rewrite in_app_iff; right; left; reflexivity|]. apply w79_in. lra.
Qed.
Theorem C80_optimize_cuts_no_multiplicities : forall br sf sa sw sp bw bp background bins alpha mn mx ms mse mex signal gh_eff theta_eff theta_min theta_max,
  signal <> [] -> nondecreasing bins -> bins <> [] ->
  optimize_cuts br sf sa sw sp bw bp signal background bins alpha mn mx ms mse mex [] gh_eff theta_eff theta_min theta_max = Err IndexError.
Proof. exact cuts_no_mult. Qed.
Print Assumptions C80_optimize_cuts_no_multiplicities.

(** an area in a unit of another dimension *)
Theorem C80_effective_area_unit : forall n_selected n_simulated x u, qu_dim u <> area_dim -> q_effective_area n_selected n_simulated (x, u) = Err UnitsError.
Proof. exact area_err. Qed.
Print Assumptions C80_effective_area_unit.
(** field of view bins without unit, or in a unit that is not one of an angle *)
Theorem C80_fov_bins_unit : forall s b u f, qu_dim u = energy_dim ->
  (forall l, f = GPlain l -> q_n_showers_per_energy_and_fov s (AQty (mkQA b u)) f = Err TypeError /\
     forall pa, q_n_showers_3d_polar s (AQty (mkQA b u)) f pa = Err TypeError) /\
  (forall l v, f = GQty l v -> qu_dim v <> angle_dim -> q_n_showers_per_energy_and_fov s (AQty (mkQA b u)) f = Err UnitsError /\
     forall pa, q_n_showers_3d_polar s (AQty (mkQA b u)) f pa = Err UnitsError).
Proof. exact angle_err. Qed.
Print Assumptions C80_fov_bins_unit.
Theorem C80_position_angle_unit : forall s b u l v p, qu_dim u = energy_dim -> qu_dim v = angle_dim ->
  (forall k, p = GPlain k -> q_n_showers_3d_polar s (AQty (mkQA b u)) (GQty l v) p = Err TypeError) /\
  (forall k w, p = GQty k w -> qu_dim w <> angle_dim -> q_n_showers_3d_polar s (AQty (mkQA b u)) (GQty l v) p = Err UnitsError).
Proof. exact pa_err. Qed.
Print Assumptions C80_position_angle_unit.
(** missing columns *)
Theorem C80_no_true_energy : forall t, ~ In "true_energy"%string (map fst (qe_columns t)) ->
  (forall s bins, q_effective_area_per_energy t s bins = Err KeyError) /\
  (forall e s f, q_psf_table t e s f = Err KeyError).
Proof. exact missing_true. Qed.
Print Assumptions C80_no_true_energy.
Theorem C80_no_reco_energy : forall t, ~ In "reco_energy"%string (map fst (qe_columns t)) ->
  (forall e f m, q_energy_dispersion t e f m = Err KeyError) /\
  (forall e f o, q_background_2d t e f o = Err KeyError) /\
  (forall e f g o, q_background_3d_lonlat t e f g o = Err KeyError).
Proof. exact missing_reco. Qed.
Print Assumptions C80_no_reco_energy.
Theorem C80_no_weights : forall t e f o, NoDup (map fst (qe_columns t)) ->
  with_dimension t "reco_energy" energy_dim -> with_dimension t "reco_source_fov_offset" angle_dim ->
  array_of energy_dim e -> angles_of angle_dim f -> qe_weight t = None -> q_background_2d t e f o = Err KeyError.
Proof. exact missing_weight. Qed.
Print Assumptions C80_no_weights.
Example C80_no_weights_ex : let t := mkQE 1 [("reco_energy"%string, AQty (mkQA [Fin 1] GeV)); ("reco_source_fov_offset"%string, AQty (mkQA [Fin 1] deg))] None None in
  NoDup (map fst (qe_columns t)) /\ with_dimension t "reco_energy" energy_dim /\ with_dimension t "reco_source_fov_offset" angle_dim /\
  ~ In "true_energy"%string (map fst (qe_columns t)).
Proof.
  cbn. split; [repeat constructor; cbn; intuition discriminate|]. split; [exists [Fin 1], GeV; cbn; auto|]. split; [exists [Fin 1], deg; cbn; auto|]. intuition discriminate.
Qed.
(** a column without unit, or with a unit of another dimension *)
Theorem C80_column_unit : forall t, NoDup (map fst (qe_columns t)) ->
  (forall l, In ("true_energy"%string, APlain l) (qe_columns t) -> forall e s f, q_psf_table t e s f = Err AttributeError) /\
  (forall l v, In ("true_energy"%string, AQty (mkQA l v)) (qe_columns t) -> qu_dim v <> energy_dim ->
     forall e s f, q_psf_table t e s f = Err UnitConversionError).
Proof. exact bad_true. Qed.
Print Assumptions C80_column_unit.
Theorem C80_check_histograms : forall h1 h2 key,
  ~ In (key ++ "_low")%string (map fst h1) \/ ~ In (key ++ "_low")%string (map fst h2) -> check_histograms h1 h2 key = Err KeyError.
Proof. exact check_missing. Qed.
Print Assumptions C80_check_histograms.
(** an axis that the arrays of an estimator do not have *)
Theorem C80_axis : forall f axis a,
  (axis < - Z.of_nat (List.length (ashape a)) \/ Z.of_nat (List.length (ashape a)) <= axis)%Z -> along_axis f axis a = Err ValueError.
Proof. exact axis_err. Qed.
Print Assumptions C80_axis.
