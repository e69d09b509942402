{
 "claims": [
  {
   "property": "C01",
   "status": "proved",
   "theorems": [
    "C01_bin_index_increasing",
    "C01_outcome_unique",
    "C01_bin_index_decreasing",
    "C01_bin_index_not_monotonic"
   ],
   "note": ""
  },
  {
   "property": "C02",
   "status": "proved",
   "theorems": [
    "C02_infinite_edges",
    "C02_add_overflow_bins",
    "C02_infinite_edges_valid_refuted"
   ],
   "note": "Exact characterisation for every value; the docstring's 'always' is refuted for +inf and NaN (second kind of theorem), which the statement names."
  },
  {
   "property": "C03",
   "status": "proved",
   "theorems": [
    "C03_unit_invariance",
    "C03_common_unit",
    "C03_incompatible_unit",
    "C03_bins_without_unit"
   ],
   "note": ""
  },
  {
   "property": "C04",
   "status": "proved",
   "theorems": [
    "C04_histogram_counts",
    "C04_histogram_weighted",
    "C04_histogram_unweighted"
   ],
   "note": ""
  },
  {
   "property": "C05",
   "status": "proved",
   "theorems": [
    "C05_per_particle",
    "C05_per_particle_weighted",
    "C05_columns",
    "C05_unweighted",
    "C05_label_collision_refuted",
    "C05_edges",
    "C05_edges_overwritten_refuted"
   ],
   "note": "The no-collision condition is part of the statement; outside of it the decomposition is refuted by a concrete table. C05_edges: the energy columns of the sensitivity/background tables are the edges and centres; C05_edges_overwritten_refuted: a bin variable called like a column's suffix pair overwrites them."
  },
  {
   "property": "C06",
   "status": "proved",
   "theorems": [
    "C06_permutation",
    "C06_additive",
    "C06_additive_weighted"
   ],
   "note": ""
  },
  {
   "property": "C07",
   "status": "proved",
   "theorems": [
    "C07_histogram_matches_indices"
   ],
   "note": ""
  },
  {
   "property": "C08",
   "status": "proved",
   "theorems": [
    "C08_add_overflow_bins",
    "C08_overflow_bins_make_valid"
   ],
   "note": ""
  },
  {
   "property": "C09",
   "status": "proved",
   "theorems": [
    "C09_join_split",
    "C09_join_split_nd",
    "C09_join_succeeds_iff",
    "C09_split_join"
   ],
   "note": ""
  },
  {
   "property": "C10",
   "status": "proved",
   "theorems": [
    "C10_bins_per_decade",
    "C10_endpoint_included"
   ],
   "note": ""
  },
  {
   "property": "C11",
   "status": "proved",
   "theorems": [
    "C11_resample_length",
    "C11_resample_cumulative",
    "C11_resample_total",
    "C11_resample_aligned",
    "C11_resample_same_edges",
    "C11_resample_outside",
    "C11_resample_infinite_edges",
    "C11_empty_stays_empty_refuted",
    "C11_nonnegative_refuted",
    "C11_integer_data_rejected"
   ],
   "note": "interp1d(kind=quadratic) enters by contract (it passes through its knots), shown inhabited. The exceptions named in the statement are proved by the _refuted theorems."
  },
  {
   "property": "C12",
   "status": "proved",
   "theorems": [
    "C12_percentile_cut",
    "C12_percentile_list",
    "C12_fill_value_unit",
    "C12_bounds_unit",
    "C12_result_unit",
    "C12_plain_values_bounds",
    "C12_fill_value_wrong_unit",
    "C12_fill_value_no_unit",
    "C12_percentile_range",
    "C12_no_events_refuted",
    "C12_integer_values",
    "C12_integer_values_refuted"
   ],
   "note": "Float and integer columns with at least one event inside the bins: exact. The two deviations from the documentation (truncation for integer columns, IndexError when every event lies outside the bins) are proved as _refuted theorems. Infinite values inside the percentile are not covered."
  },
  {
   "property": "C13",
   "status": "proved",
   "theorems": [
    "C13_percentile_fraction",
    "C13_monotone_in_percentile"
   ],
   "note": ""
  },
  {
   "property": "C14",
   "status": "proved",
   "theorems": [
    "C14_evaluate_binned_cut",
    "C14_same_as_by_index",
    "C14_by_index",
    "C14_any_index",
    "C14_not_a_qtable",
    "C14_any_table",
    "C14_units",
    "C14_common_unit",
    "C14_gap_refuted"
   ],
   "note": "Any table with non-decreasing edges, any units; for tables with gaps the documented meaning is refuted and the actual one (a bin reaches up to the next low edge) is proved in C14_any_table."
  },
  {
   "property": "C15",
   "status": "proved",
   "theorems": [
    "C15_cut_is_local",
    "C15_event_order"
   ],
   "note": ""
  },
  {
   "property": "C16",
   "status": "proved",
   "theorems": [
    "C16_compare_irf_cuts",
    "C16_exact",
    "C16_list_order",
    "C16_nan_refuted",
    "C16_units_refuted",
    "C16_broadcast_refuted"
   ],
   "note": "Exact outcome for every list (C16_exact); the deviations from 'true iff equal' are proved as _refuted theorems."
  },
  {
   "property": "C17",
   "status": "proved",
   "theorems": [
    "C17_smoothing_bounded",
    "C17_smoothing",
    "C17_several_percentiles_refuted",
    "C17_fill_value_leaks_refuted"
   ],
   "note": "Exact smoothed values for scalar and list percentiles; that the documented axis and fill-value behaviour fail is proved as _refuted theorems."
  },
  {
   "property": "C18",
   "status": "proved",
   "theorems": [
    "C18_significance_well_defined"
   ],
   "note": ""
  },
  {
   "property": "C19",
   "status": "proved",
   "theorems": [
    "C19_increasing_in_n_on",
    "C19_decreasing_in_n_off",
    "C19_decreasing_in_alpha"
   ],
   "note": ""
  },
  {
   "property": "C20",
   "status": "proved",
   "theorems": [
    "C20_exposure_scaling",
    "C20_elementwise",
    "C20_no_broadcasting",
    "C20_shape"
   ],
   "note": ""
  },
  {
   "property": "C21",
   "status": "proved",
   "theorems": [
    "C21_solver_contract_inhabited",
    "C21_nan",
    "C21_negative_counts",
    "C21_no_signal",
    "C21_signal",
    "C21_arrays"
   ],
   "note": ""
  },
  {
   "property": "C22",
   "status": "proved",
   "theorems": [
    "C22_requirements"
   ],
   "note": "brentq enters by contract (a bracket of the tolerance width contains a sign change); the contract is inhabited (bisection)."
  },
  {
   "property": "C23",
   "status": "proved",
   "theorems": [
    "C23_smallest",
    "C23_solver_independent",
    "C23_inverse_scaling"
   ],
   "note": ""
  },
  {
   "property": "C24",
   "status": "proved",
   "theorems": [
    "C24_exact",
    "C24_background",
    "C24_default",
    "C24_few_off",
    "C24_small_alpha_refuted",
    "C24_large_alpha_refuted",
    "C24_strong_source_refuted",
    "C24_weak_source_refuted"
   ],
   "note": "Exact condition for an answer (C24_exact) with Brent's method specified by its contract (inhabited by C24_solver); sufficient conditions and the failing regions are proved as further theorems. Assumes 0 <= n_off, 0 < alpha, 0 < target."
  },
  {
   "property": "C25",
   "status": "proved",
   "theorems": [
    "C25_table",
    "C25_li_ma_elementwise",
    "C25_different_edges",
    "C25_bad_bin",
    "C25_name_collision_refuted"
   ],
   "note": "Table proved row by row when no background column has the name of an output column; with such a name the output column is overwritten (proved as _refuted)."
  },
  {
   "property": "C26",
   "status": "proved",
   "theorems": [
    "C26_counts",
    "C26_weights",
    "C26_particles",
    "C26_interpolation_unique"
   ],
   "note": ""
  },
  {
   "property": "C27",
   "status": "proved",
   "theorems": [
    "C27_best_efficiency",
    "C27_succeeds",
    "C27_nan_ignored_refuted"
   ],
   "note": "All scans. The _refuted theorem shows that the exception named in the statement (nothing finite -> index 0, possibly NaN) is really needed. brentq and interp enter by contract/model as in C21/C26. C27_succeeds: totality for tables without particle types."
  },
  {
   "property": "C28",
   "status": "proved",
   "theorems": [
    "C28_python_list_refuted",
    "C28_python_list_returns",
    "C28_best_combination",
    "C28_succeeds"
   ],
   "note": "All products of the three grids, all bins; same exception as C27. A Python list of theta efficiencies, which 100 * list repeats, is modelled separately (CutOptimizationLists.v): C28_python_list_refuted."
  },
  {
   "property": "C29",
   "status": "proved",
   "theorems": [
    "C29_optimize_gh_cut",
    "C29_optimize_cuts"
   ],
   "note": "Core columns (edges, counts, significance, relative sensitivity). Per-particle columns of the returned table are assigned by position and not covered; particle labels that collide with core column names are excluded by hypothesis."
  },
  {
   "property": "C30",
   "status": "proved",
   "theorems": [
    "C30_share_unique",
    "C30_bin",
    "C30_length",
    "C30_total",
    "C30_merge",
    "C30_outside",
    "C30_overhang_refuted"
   ],
   "note": "All parameters with index < -1, edges from 0 to inf. The _refuted theorem proves the exception named in the statement."
  },
  {
   "property": "C31",
   "status": "proved",
   "theorems": [
    "C31_bin",
    "C31_total",
    "C31_point_like",
    "C31_energy_and_fov"
   ],
   "note": ""
  },
  {
   "property": "C32",
   "status": "proved",
   "theorems": [
    "C32_polar",
    "C32_polar_equal_bins",
    "C32_polar_refuted",
    "C32_lonlat_any_grid",
    "C32_lonlat_shape_refuted",
    "C32_lonlat_inside",
    "C32_lonlat_swallowed_refuted",
    "C32_lonlat_exact",
    "C32_lonlat_error",
    "C32_lonlat_units_refuted"
   ],
   "note": "Exact value of every entry (C32_lonlat_exact) and exact error condition (C32_lonlat_error). The accuracy of the subpixel approximation with respect to the true covered area is not part of the statement and not proved."
  },
  {
   "property": "C33",
   "status": "proved",
   "theorems": [
    "C33_constructor",
    "C33_normalisable_refuted"
   ],
   "note": "The _refuted theorem proves the exception named in the statement."
  },
  {
   "property": "C34",
   "status": "proved",
   "theorems": [
    "C34_diffuse",
    "C34_point_source",
    "C34_e_ref",
    "C34_index_positive",
    "C34_index_minus_one_refuted"
   ],
   "note": "All parameters with index <= 0 other than -1; the _refuted theorem proves the exception named in the statement. PowerLawWithExponentialGaussian.from_simulation (inherited) would raise TypeError: not modelled."
  },
  {
   "property": "C35",
   "status": "proved",
   "theorems": [
    "C35_integrate_cone",
    "C35_flux",
    "C35_additive",
    "C35_positive",
    "C35_point_source",
    "C35_bump_refuted"
   ],
   "note": "The _refuted theorem proves the exception named in the statement."
  },
  {
   "property": "C36",
   "status": "proved",
   "theorems": [
    "C36_weights",
    "C36_units",
    "C36_chain",
    "C36_spectrum",
    "C36_e_ref"
   ],
   "note": ""
  },
  {
   "property": "C37",
   "status": "proved",
   "theorems": [
    "C37_index",
    "C37_reference",
    "C37_scaling",
    "C37_log_parabola",
    "C37_log_parabola_b0",
    "C37_bump",
    "C37_exp_gauss",
    "C37_extreme_energies",
    "C37_log_parabola_extreme",
    "C37_log_parabola_b0_refuted"
   ],
   "note": "Energies > 0 in full; energies 0 and infinity separately, where C37_log_parabola_b0_refuted shows the exception (NaN). Powers of negative bases are not modelled (they give NaN)."
  },
  {
   "property": "C38",
   "status": "proved",
   "theorems": [
    "C38_polygon",
    "C38_passes_through",
    "C38_between",
    "C38_order"
   ],
   "note": "scipy interp1d is modelled (sort, searchsorted, clip, line) rather than taken by contract."
  },
  {
   "property": "C39",
   "status": "proved",
   "theorems": [
    "C39_cone_values",
    "C39_cone_increasing",
    "C39_rectangle_additive_lon",
    "C39_rectangle_additive_lat",
    "C39_rectangle_nonnegative",
    "C39_rectangle_sphere",
    "C39_polar_cap"
   ],
   "note": ""
  },
  {
   "property": "C40",
   "status": "proved",
   "theorems": [
    "C40_table_ok_iff",
    "C40_missing_columns",
    "C40_wrong_unit",
    "C40_units_exact",
    "C40_unitless_column_refuted",
    "C40_check_histograms",
    "C40_check_histograms_any_unit",
    "C40_check_histograms_missing"
   ],
   "note": "Exact for every table and requirement; that a column without unit does not give the documented WrongColumnUnit is proved as _refuted."
  },
  {
   "property": "C41",
   "status": "proved",
   "theorems": [
    "C41_theta_phi",
    "C41_lon_lat",
    "C41_consistent",
    "C41_center",
    "C41_event_columns",
    "C41_theta_column",
    "C41_angle_unique"
   ],
   "note": ""
  },
  {
   "property": "C42",
   "status": "proved",
   "theorems": [
    "C42_effective_area",
    "C42_per_energy",
    "C42_per_energy_and_fov",
    "C42_3d_polar",
    "C42_lonlat_shape_refuted",
    "C42_lonlat_transposed_refuted"
   ],
   "note": "exact reals; exceptions (lon/lat axis order) proved as C42_lonlat_*_refuted"
  },
  {
   "property": "C43",
   "status": "proved",
   "theorems": [
    "C43_normalised",
    "C43_value"
   ],
   "note": ""
  },
  {
   "property": "C44",
   "status": "proved",
   "theorems": [
    "C44_migration_matrix",
    "C44_value",
    "C44_dispersion_to_migration",
    "C44_empty_refuted"
   ],
   "note": "scipy interp1d enters only through passes_through_knots; the phantom probability is C44_empty_refuted"
  },
  {
   "property": "C45",
   "status": "proved",
   "theorems": [
    "C45_normalised",
    "C45_value"
   ],
   "note": ""
  },
  {
   "property": "C46",
   "status": "proved",
   "theorems": [
    "C46_bin",
    "C46_total"
   ],
   "note": ""
  },
  {
   "property": "C47",
   "status": "proved",
   "theorems": [
    "C47_bin",
    "C47_total",
    "C47_nonuniform_refuted",
    "C47_shape_error_refuted",
    "C47_shape_refuted"
   ],
   "note": "exceptions proved as C47_*_refuted"
  },
  {
   "property": "C48",
   "status": "proved",
   "theorems": [
    "C48_dispatch",
    "C48_discrete",
    "C48_grid_type",
    "C48_few_points",
    "C48_templates",
    "C48_target",
    "C48_order"
   ],
   "note": "Delaunay.find_simplex is an input with the contract hull_test (inhabited for a triangle). Degenerate grids (points on a line), for which Delaunay raises, are not modelled."
  },
  {
   "property": "C49",
   "status": "proved",
   "theorems": [
    "C49_weights",
    "C49_sum",
    "C49_equal_points",
    "C49_segment",
    "C49_largest_grid_point_refuted",
    "C49_order"
   ],
   "note": "The documented behaviour at target == max(grid) fails (IndexError): C49_largest_grid_point_refuted; the statement names this exception."
  },
  {
   "property": "C50",
   "status": "proved",
   "theorems": [
    "C50_weights",
    "C50_unique",
    "C50_vertices",
    "C50_inside",
    "C50_affine_map",
    "C50_relabel"
   ],
   "note": "Degenerate triangles (inf/nan in numpy) are excluded by hypothesis."
  },
  {
   "property": "C51",
   "status": "proved",
   "theorems": [
    "C51_slice",
    "C51_nonnegative",
    "C51_equal_templates",
    "C51_nan_refuted",
    "C51_zero_division",
    "C51_inside",
    "C51_at_grid_point",
    "C51_inside_2d",
    "C51_at_vertex",
    "C51_at_grid_point_empty_neighbour_refuted"
   ],
   "note": "NaN (C51_nan_refuted) and the empty neighbour (C51_at_grid_point_empty_neighbour_refuted) are exceptions to the natural claim, named in the statement."
  },
  {
   "property": "C52",
   "status": "proved",
   "theorems": [
    "C52_segment",
    "C52_affine_1d",
    "C52_nearest",
    "C52_affine_2d",
    "C52_morph_1d",
    "C52_morph_2d",
    "C52_morph_nan_refuted"
   ],
   "note": "scipy's Delaunay is an input (good_mesh: proper triangles, hull facets are sides of simplices). The NaN case is exhibited by C52_morph_nan_refuted."
  },
  {
   "property": "C53",
   "status": "proved",
   "theorems": [
    "C53_visible_facets",
    "C53_weights",
    "C53_blend",
    "C53_affine",
    "C53_one_visible",
    "C53_axis_of_length_one_refuted",
    "C53_m"
   ],
   "note": "The exception (axis of length 1, which includes 1-D params) is C53_axis_of_length_one_refuted. Delaunay triangulations are inputs."
  },
  {
   "property": "C54",
   "status": "proved",
   "theorems": [
    "C54_distance_tolerance",
    "C54_distance_exact",
    "C54_angle",
    "C54_nearest_facet",
    "C54_nearest_facet_exact",
    "C54_no_facet",
    "C54_bin_width",
    "C54_distance_refuted"
   ],
   "note": "Not exact near the end points: C54_distance_refuted. If two facets agree in distance and angle numpy's choice is unspecified (model: first)."
  },
  {
   "property": "C55",
   "status": "proved",
   "theorems": [
    "C55_nearest",
    "C55_at_grid_point",
    "C55_norm_ord",
    "C55_one_dimensional_refuted"
   ],
   "note": "p-norm for p = 1, 2, ...; exact reals; refuted: params of shape (n_points,) are rejected with IndexError."
  },
  {
   "property": "C56",
   "status": "proved",
   "theorems": [
    "C56_density",
    "C56_scale",
    "C56_mismatch",
    "C56_filled_templates_refuted",
    "C56_at_grid_point_refuted"
   ],
   "note": "scipy.griddata is represented by its weights (any weights of a mean); at least 3 quantiles; refuted: filled templates give an all-zero result half way between single-bin templates; a template is not returned at its grid point."
  },
  {
   "property": "C57",
   "status": "proved",
   "theorems": [
    "C57_inside",
    "C57_any_interpolator",
    "C57_small_areas_refuted",
    "C57_caller_refuted"
   ],
   "note": "griddata is an input with the contract linear_interpolation (proved for one dimension, inhabited for a triangle); exact reals. Refuted: documented zero for small areas; caller's array unchanged."
  },
  {
   "property": "C58",
   "status": "proved",
   "theorems": [
    "C58_one_dimension",
    "C58_two_dimensions",
    "C58_nearest",
    "C58_no_fill",
    "C58_dimensions",
    "C58_last_point_refuted",
    "C58_row_target_refuted",
    "C58_order_refuted",
    "C58_fill_exceeded_refuted"
   ],
   "note": "The estimate without fill value is the one of the estimator of C48; triangulation and find_simplex are inputs. All five exceptions are proved (_refuted; f = 0: C58_no_fill)."
  },
  {
   "property": "C59",
   "status": "proved",
   "theorems": [
    "C59_layout",
    "C59_entries",
    "C59_kwargs",
    "C59_classes",
    "C59_nearest_refuted",
    "C59_shared_kwargs_refuted",
    "C59_nearest_axis_refuted"
   ],
   "note": "The interpolation of one slice is an arbitrary function (C51/C56 describe the ones of pyirf)."
  },
  {
   "property": "C60",
   "status": "proved",
   "theorems": [
    "C60_values",
    "C60_scalar",
    "C60_no_events",
    "C60_missing_column",
    "C60_monotone",
    "C60_names",
    "C60_names_differ",
    "C60_same_name_refuted",
    "C60_outside_refuted",
    "C60_array_refuted"
   ],
   "note": "Energies in the unit of the bins; quantiles in [0, 1]; infinite thetas only have counts described. astropy's group_by raises IndexError on a table without rows."
  },
  {
   "property": "C61",
   "status": "proved",
   "theorems": [
    "C61_default",
    "C61_any_functions",
    "C61_no_events",
    "C61_resolution_nonnegative",
    "C61_bias_in_range",
    "C61_resolution_bounded",
    "C61_equal_errors",
    "C61_scaled_energies",
    "C61_scaling",
    "C61_absolute_68",
    "C61_outside_refuted",
    "C61_without_units_refuted"
   ],
   "note": "The two quantiles are arbitrary reals in [0, 1], lower <= upper where needed; finite energies, true energies positive."
  },
  {
   "property": "C62",
   "status": "proved",
   "theorems": [
    "C62_effective_area",
    "C62_psf",
    "C62_energy_dispersion",
    "C62_background_2d",
    "C62_background_3d",
    "C62_rad_max",
    "C62_edges_back",
    "C62_units",
    "C62_units_apart",
    "C62_area_errors",
    "C62_background_errors",
    "C62_alignment",
    "C62_shape_refuted"
   ],
   "note": "Units are a scale and a dimension. One dimensional edges. FITS serialisation by astropy (columns, TUNIT, TDIM) is not modelled; CREF and FOVALIGN as long as the user does not override them."
  },
  {
   "property": "C63",
   "status": "proved",
   "theorems": [
    "C63_default_header",
    "C63_history",
    "C63_user_cards",
    "C63_table_keywords",
    "C63_extname",
    "C63_required",
    "C63_rad_max_refuted",
    "C63_psf_refuted"
   ],
   "note": "Header as a map of upper case keywords; comment cards, invalid card values and the structural keywords that astropy replaces are not described."
  },
  {
   "property": "C64",
   "status": "proved",
   "theorems": [
    "C64_read",
    "C64_histogram_integer",
    "C64_spectral_index",
    "C64_names",
    "C64_no_header",
    "C64_runs_unique",
    "C64_no_events_refuted"
   ],
   "note": "The three tables of the file are the input (reading FITS is not modelled); pointings without NaN; integers of the header are mathematical integers (no overflow)."
  },
  {
   "property": "C65",
   "status": "proved",
   "theorems": [
    "C65_effective_area",
    "C65_psf",
    "C65_energy_dispersion",
    "C65_effective_area_units",
    "C65_psf_units",
    "C65_edges",
    "C65_pointlike_refuted",
    "C65_psf_full_enclosure"
   ],
   "note": "The constructors of gammapy (names and order of axes, unit, shape; monotonic edges) are modelled from its documentation and are assumptions."
  },
  {
   "property": "C66",
   "status": "proved",
   "theorems": [
    "C66_quantiles",
    "C66_order",
    "C66_shape",
    "C66_first_bin_refuted"
   ],
   "note": "Finite non-negative entries, at least one migration bin; numpy broadcasting of a single bin is not modelled."
  },
  {
   "property": "C67",
   "status": "proved",
   "theorems": [
    "C67_calls",
    "C67_wrong_class",
    "C67_area",
    "C67_rad_max",
    "C67_searcher_refuted",
    "C67_input_refuted",
    "C67_negative_refuted"
   ],
   "note": "Heap model of arrays and views (Aliasing.v): C67_calls, C67_area, C67_rad_max for all programs of calls and assignments; C67_searcher_refuted, C67_input_refuted, C67_negative_refuted prove the exceptions named in the statement. Assignments of the caller to grid_points or bin_edges are not modelled."
  },
  {
   "property": "C68",
   "status": "proved",
   "theorems": [
    "C68_call",
    "C68_unit_independent",
    "C68_call_errors",
    "C68_power_law",
    "C68_power_law_errors",
    "C68_log_parabola",
    "C68_exp_gauss",
    "C68_from_simulation",
    "C68_integrate_cone",
    "C68_weights",
    "C68_weights_errors",
    "C68_table",
    "C68_table_unit_independent",
    "C68_table_errors",
    "C68_table_call_errors",
    "C68_from_table",
    "C68_from_table_errors",
    "C68_crab_hegra",
    "C68_crab_magic",
    "C68_pdg",
    "C68_proton",
    "C68_electron"
   ],
   "note": "Units are a positive scale and a vector of real exponents of length, mass, time, angle (Quantities.v); eV has its exact SI value. from_simulation for positive energies. Tables contain real numbers; reading files and the DAMPE data file are not modelled."
  },
  {
   "property": "C69",
   "status": "proved",
   "theorems": [
    "C69_init",
    "C69_init_errors",
    "C69_per_energy",
    "C69_energy_errors",
    "C69_per_fov",
    "C69_fov_errors",
    "C69_per_energy_and_fov",
    "C69_3d_polar"
   ],
   "note": "Finite simulation parameters. calculate_n_showers_3d_lonlat is modelled with the units of its bins in Simulations.v (C32)."
  },
  {
   "property": "C70",
   "status": "proved",
   "theorems": [
    "C70_point_source",
    "C70_diffuse",
    "C70_energy_migration",
    "C70_energy_migration_least"
   ],
   "note": "Exact real arithmetic; the integral of the flux is any primitive on the positive energies. Composition of C34, C42 and C44."
  },
  {
   "property": "C71",
   "status": "proved",
   "theorems": [
    "C71_area_per_energy",
    "C71_area_per_energy_and_fov",
    "C71_area_3d_polar",
    "C71_energy_dispersion",
    "C71_migration_matrix",
    "C71_dispersion_to_migration",
    "C71_psf_table",
    "C71_background_2d",
    "C71_background_3d_lonlat",
    "C71_accepts_area_per_energy",
    "C71_accepts_area_per_energy_and_fov",
    "C71_accepts_area_3d_polar",
    "C71_accepts_energy_dispersion",
    "C71_accepts_migration_matrix",
    "C71_accepts_psf_table",
    "C71_accepts_background_2d",
    "C71_accepts_background_3d_lonlat"
   ],
   "note": "Units are positive multiples of SI units with an exact real factor; rounding by conversions is not modelled. effective_area_3d_lonlat is modelled without units only (C42)."
  },
  {
   "property": "C72",
   "status": "proved",
   "theorems": [
    "C72_histogram_table",
    "C72_effective_area",
    "C72_effective_area_fov",
    "C72_effective_area_polar",
    "C72_effective_area_lonlat",
    "C72_energy_dispersion",
    "C72_migration_matrix",
    "C72_psf_table",
    "C72_background_2d",
    "C72_background_3d",
    "C72_estimate_background",
    "C72_percentile_cut",
    "C72_binned_cut",
    "C72_optimize_gh_cut",
    "C72_optimize_cuts",
    "C72_angular_resolution",
    "C72_bias_resolution",
    "C72_bias_functions"
   ],
   "note": "Sums are exact in the model: in floating point a reordering changes weighted sums and means in the last bits."
  },
  {
   "property": "C73",
   "status": "proved",
   "theorems": [
    "C73_histogram_table",
    "C73_effective_area",
    "C73_effective_area_fov",
    "C73_effective_area_polar",
    "C73_effective_area_lonlat",
    "C73_background_2d",
    "C73_background_3d",
    "C73_energy_dispersion",
    "C73_migration_matrix",
    "C73_psf_table"
   ],
   "note": "Exact arithmetic. Where an effective area of one sample is infinite or NaN (no simulated showers in a bin) nothing is claimed about that entry."
  },
  {
   "property": "C74",
   "status": "proved",
   "theorems": [
    "C74_accuracy",
    "C74_counts",
    "C74_nan_refuted",
    "C74_not_negative",
    "C74_deficit",
    "C74_empty",
    "C74_elementwise",
    "C74_shape",
    "C74_lengths"
   ],
   "note": "Double precision with Flocq's rounding; infinities beyond the largest double, the sign of zero is not modelled. The logarithm enters by contract; correct rounding is shown to fulfil it. C74_nan_refuted: li_ma_significance(1, 5) is NaN."
  },
  {
   "property": "C75",
   "status": "proved",
   "theorems": [
    "C75_energy_dispersion",
    "C75_migration_matrix",
    "C75_effective_area",
    "C75_point_spread_function",
    "C75_cone",
    "C75_tiny_refuted",
    "C75_rounded_ratio"
   ],
   "note": "Double precision with Flocq's rounding. numpy sums are taken left to right; counts are exact, so any order gives the same. C75_tiny_refuted: cone_solid_angle is 0 up to 1e-7 degree."
  },
  {
   "property": "C76",
   "status": "proved",
   "theorems": [
    "C76_edges",
    "C76_histogram_table",
    "C76_whole_weights",
    "C76_cancellation_refuted",
    "C76_background"
   ],
   "note": "numpy's algorithms: np.histogram with weights (blocks of 65536, cumulative sums of the sorted weights, differences), np.histogram2d (bincount in the order of events). C76_cancellation_refuted: a bin's content can be lost entirely."
  },
  {
   "property": "C77",
   "status": "proved",
   "theorems": [
    "C77_bins_per_decade",
    "C77_endpoint_included",
    "C77_bin_center",
    "C77_percentile",
    "C77_percentile_overflow",
    "C77_percentile_range",
    "C77_no_bins"
   ],
   "note": "numpy's algorithms: arange (length from the rounded quotient, entries start + i * (second - first)) and percentile (rounded position, two-sided interpolation). log10 and 10**x enter by contracts, met by the correctly rounded functions."
  },
  {
   "property": "C78",
   "status": "proved",
   "theorems": [
    "C78_events_to_sensitivity",
    "C78_optimised_gh_cut",
    "C78_optimised_cuts",
    "C78_theta_cuts_in_range",
    "C78_weights_unique"
   ],
   "note": "Composition of C04, C14, C21-C29 through the public functions; brentq by contract (inhabited by bisection), exact arithmetic, Li & Ma significance."
  },
  {
   "property": "C79",
   "status": "proved",
   "theorems": [
    "C79_columns",
    "C79_gh_outcome",
    "C79_cuts_outcome",
    "C79_gh_labels",
    "C79_gh_species",
    "C79_gh_succeeds",
    "C79_cuts_succeeds",
    "C79_gh_raises_refuted",
    "C79_cuts_mislabels_refuted"
   ],
   "note": "Exceptions proved as C79_gh_raises_refuted and C79_cuts_mislabels_refuted (row assignment of astropy by position; DESIGN section 5). astropy's row assignment is modelled as set_row: ValueError if the number of values differs from the number of columns."
  },
  {
   "property": "C80",
   "status": "proved",
   "theorems": [
    "C80_energy_dispersion_bins",
    "C80_migration_matrix_bins",
    "C80_psf_table_bins",
    "C80_background_2d_bins",
    "C80_background_3d_bins",
    "C80_histogram_table",
    "C80_effective_area_bins",
    "C80_bin_indices_plain_data",
    "C80_cut_by_index",
    "C80_estimate_background",
    "C80_resample_short",
    "C80_resample",
    "C80_join_rows",
    "C80_overflow_bins",
    "C80_optimize_no_signal",
    "C80_optimize_gh_no_efficiencies",
    "C80_optimize_cuts_no_multiplicities",
    "C80_effective_area_unit",
    "C80_fov_bins_unit",
    "C80_position_angle_unit",
    "C80_no_true_energy",
    "C80_no_reco_energy",
    "C80_no_weights",
    "C80_column_unit",
    "C80_check_histograms",
    "C80_axis",
    "C80_eventdisplay_no_histogram",
    "C80_eventdisplay_bad_histogram",
    "C80_eventdisplay_ranges",
    "C80_units_differ"
   ],
   "note": "Kinds of exceptions are those of the numpy, astropy and scipy calls as modelled; messages are not modelled."
  },
  {
   "property": "C81",
   "status": "proved",
   "theorems": [
    "C81_percentile_cut",
    "C81_plain_values_refuted",
    "C81_evaluate_cut",
    "C81_evaluate_common_unit",
    "C81_evaluate_wrong_unit",
    "C81_selection",
    "C81_angular_resolution",
    "C81_energy_bias_resolution"
   ],
   "note": "Values of floating-point type (integer columns are truncated, so they cannot be unit independent). Exception proved as C81_plain_values_refuted. astropy's conversion in comparisons is modelled; comparing a quantity with plain numbers is not."
  },
  {
   "property": "C82",
   "status": "proved",
   "theorems": [
    "C82_morph",
    "C82_largest_grid_point_refuted",
    "C82_morph_2d",
    "C82_extrapolate",
    "C82_extrapolate_2d",
    "C82_quantile",
    "C82_nearest",
    "C82_order",
    "C82_errors",
    "C82_psf",
    "C82_psf_units",
    "C82_psf_quantile",
    "C82_psf_morph_refuted"
   ],
   "note": "scipy's simplex search, hull test, triangulation and griddata weights are arguments that meet contract predicates (simplex_finder, hull_test, good_mesh, served), shown inhabited by examples. Exceptions proved as C82_largest_grid_point_refuted and C82_psf_morph_refuted. Templates are real numbers (no NaN); fewer than two axes are not modelled."
  },
  {
   "property": "C83",
   "status": "proved",
   "theorems": [
    "C83_counts",
    "C83_weights",
    "C83_effective_area",
    "C83_effective_area_fov",
    "C83_effective_area_polar",
    "C83_effective_area_lonlat",
    "C83_background_2d",
    "C83_background_3d",
    "C83_energy_dispersion",
    "C83_migration_matrix",
    "C83_psf_table",
    "C83_angular_resolution",
    "C83_estimate_background"
   ],
   "note": "Real arithmetic. same_on: the same events in the same order except for events outside of the bin. energy_bias_resolution: see C61_any_functions."
  },
  {
   "property": "C84",
   "status": "proved",
   "theorems": [
    "C84_counts",
    "C84_weights",
    "C84_showers",
    "C84_effective_area",
    "C84_background_2d",
    "C84_energy_dispersion",
    "C84_migration_matrix",
    "C84_psf_table",
    "C84_last_edge_refuted"
   ],
   "note": "Real arithmetic. Exception proved as C84_last_edge_refuted. Effective area: for fine bins with finite effective areas (bins with simulated showers)."
  },
  {
   "property": "C85",
   "status": "proved",
   "theorems": [
    "C85_histogram",
    "C85_background",
    "C85_sensitivity",
    "C85_chain",
    "C85_dimensions",
    "C85_incompatible_edges"
   ],
   "note": "Real arithmetic: with floats the exact comparison of edges in check_histograms can fail after a conversion because of rounding. Columns of numbers have no unit; an offset column without unit raises (astropy accepts it if all its values are 0, inf or nan)."
  },
  {
   "property": "C86",
   "status": "proved",
   "theorems": [
    "C86_more_signal",
    "C86_less_background",
    "C86_longer",
    "C86_more_off_regions",
    "C86_weaker_requirements",
    "C86_events",
    "C86_observation_time",
    "C86_time_weights",
    "C86_bright_source_refuted"
   ],
   "note": "Li & Ma significance, real arithmetic, brentq by contract (inhabited by bisection). NaN rows are excluded by the statement; exception proved as C86_bright_source_refuted."
  },
  {
   "property": "C87",
   "status": "proved",
   "theorems": [
    "C87_weights",
    "C87_relative",
    "C87_flux",
    "C87_few_background_refuted"
   ],
   "note": "As C86; the event weights are non-negative; exception proved as C87_few_background_refuted."
  },
  {
   "property": "C88",
   "status": "proved",
   "theorems": [
    "C88_gh_cut",
    "C88_cuts",
    "C88_wrong_bins",
    "C88_wrong_cuts"
   ],
   "note": "The whole optimisation with units (CutOptimizationUnits.v) against the one for numbers (CutOptimization.v), including all exceptions. Assumes tables with units on energies and angles and plain scores and multiplicities; comparison of plain numbers with quantities is simplified to always raise."
  },
  {
   "property": "C89",
   "status": "proved",
   "theorems": [
    "C89_parametrized",
    "C89_effective_area",
    "C89_rad_max",
    "C89_energy_dispersion",
    "C89_psf",
    "C89_classes_1d",
    "C89_classes_2d",
    "C89_nearest",
    "C89_one_axis_refuted"
   ],
   "note": "Estimators as a whole (constructor and call) for any class that is indifferent, and proofs that each class of pyirf is. Two dimensions: scipy's triangulation (and the triangles and weights it finds) is assumed to be the same in both coordinates; the hull test is by its contract in both. C89_one_axis_refuted is the stated exception."
  },
  {
   "property": "C90",
   "status": "proved",
   "theorems": [
    "C90_selection",
    "C90_tighter_cut",
    "C90_histogram",
    "C90_histogram_weighted",
    "C90_area_per_energy",
    "C90_area_per_energy_and_fov",
    "C90_area_3d_polar",
    "C90_area_3d_lonlat",
    "C90_background_2d",
    "C90_background_3d"
   ],
   "note": ""
  },
  {
   "property": "C91",
   "status": "proved",
   "theorems": [
    "C91_one_to_one",
    "C91_onto_theta_phi",
    "C91_onto_lon_lat",
    "C91_rotated",
    "C91_full_turns",
    "C91_triangle",
    "C91_two_sources",
    "C91_zero",
    "C91_degrees",
    "C91_units"
   ],
   "note": ""
  },
  {
   "property": "C92",
   "status": "proved",
   "theorems": [
    "C92_parametrized",
    "C92_constant",
    "C92_effective_area",
    "C92_rad_max",
    "C92_nearest",
    "C92_griddata",
    "C92_nearest_simplex",
    "C92_visible_edges",
    "C92_everywhere"
   ],
   "note": "Estimator theorems take 'the class follows its templates' (follows, SpecBlend.v) as hypothesis, proved for every class of pyirf in C92_nearest, C92_griddata (contract of scipy's linear interpolation), C92_nearest_simplex and C92_visible_edges (two dimensions: contracts of scipy's triangulations, inhabited in C92_example). EffectiveAreaEstimator is not linear (logarithms are interpolated): only the factor c."
  },
  {
   "property": "C93",
   "status": "proved",
   "theorems": [
    "C93_barycentric",
    "C93_barycentric_at_grid_points",
    "C93_thin_triangle_refuted",
    "C93_segment",
    "C93_segment_at_first_point",
    "C93_segment_at_other_point_refuted",
    "C93_estimate",
    "C93_estimate_at_grid_points"
   ],
   "note": "Finite doubles only, no fused multiply-add, sign of zero not modelled. The inverse of numpy is a contract (accurate_inverse, inhabited in C93_inverse). The thin triangle and the other grid point of a segment are the exceptions named in the statement, proved as _refuted."
  },
  {
   "property": "C94",
   "status": "proved",
   "theorems": [
    "C94_bin_index",
    "C94_event_moves_refuted",
    "C94_histogram",
    "C94_bins_kept",
    "C94_bins_merge_refuted"
   ],
   "note": "The factor is an arbitrary positive real (astropy's factor is a double). Edge columns of create_histogram_table keep the unit of the bins and are not part of C94_histogram. The two exceptions named in the statement are proved as _refuted theorems."
  },
  {
   "property": "C95",
   "status": "proved",
   "theorems": [
    "C95_energy",
    "C95_fov",
    "C95_complete_refuted",
    "C95_flat_refuted"
   ],
   "note": "Energies are in TeV and angles in radian (conversion: C94). The power is accurate to two units of relative precision, the cosine to two units of absolute precision. The two exceptions named in the statement are proved as _refuted theorems; a bin beyond both ends of the range is the known fault of C30."
  },
  {
   "property": "C96",
   "status": "proved",
   "theorems": [
    "C96_simulated_flux",
    "C96_weights",
    "C96_same_spectrum",
    "C96_flat_refuted"
   ],
   "note": "Quantities are in TeV, s, m and rad, where no conversion factor occurs. The power is accurate to two units of relative precision, the cosine to two units of absolute precision. The exception named in the statement is proved as a _refuted theorem."
  },
  {
   "property": "C97",
   "status": "proved",
   "theorems": [
    "C97_showers",
    "C97_area"
   ],
   "note": "Energies are in TeV, lengths in m and angles in radian (conversion: C94). The power is accurate to two units of relative precision, the cosine to two units of absolute precision. That an empty bin gives exactly 0 is the case m = 0 of the statement, where the bound is 0. A bin beyond both ends of the range is the known fault of C30."
  },
  {
   "property": "C98",
   "status": "proved",
   "theorems": [
    "C98_area"
   ],
   "note": "Energies are in TeV, lengths in m; the edges of the field of view are given both in degree (for the histogram) and in radian (for the simulations), as they are after the conversion (C94), and the theorem holds for any two such lists of the same length. The power is accurate to two units of relative precision, the cosine to two units of absolute precision."
  },
  {
   "property": "C99",
   "status": "proved",
   "theorems": [
    "C99_showers",
    "C99_area"
   ],
   "note": "Energies are in TeV, lengths in m; the edges of the field of view are given both in degree (for the histogram) and in radian (for the simulations), as they are after the conversion (C94). Position angle bins of equal width are not needed: the code gives every bin the same share (C32)."
  },
  {
   "property": "C100",
   "status": "proved",
   "theorems": [
    "C100_flux",
    "C100_reference"
   ],
   "note": "Energies are in TeV, as after their conversion. That 1 to any power is 1 (IEEE 754 pow) is only needed for the second sentence."
  },
  {
   "property": "C101",
   "status": "proved",
   "theorems": [
    "C101_flux",
    "C101_no_bump"
   ],
   "note": "Energies are in TeV, as after their conversion. The square of the distance is the rounded product, as numpy computes it for arrays. The exponential function may be off by half the smallest double in addition, as it must be where the result is too small for a double."
  }
 ]
}