# Formal model of pyirf in Coq 8.16.1 - design

## 1. Method

A shallow embedding in Gallina, one definition per Python function, following it branch by branch; exceptions are
values (`res A := Ok a | Err exn`). Each definition cites the file and lines of /repo it models and says where it
simplifies. Files in `/verif/rocq/theories`:

* model: `Num Numpy Sort Percentile Table Tensor Lists` (numbers, arrays, tables), then one file per part of pyirf:
  `Binning Cuts Statistics Sensitivity CutOptimization Simulations Spectral Utils IRF Morph Geometry Quantile
  Estimators Aliasing Benchmarks Gadf Eventdisplay Gammapy` and, on quantities with units,
  `Quantities SpectralUnits SimulationUnits IRFUnits` (effective_area_3d_lonlat only without units, in `IRF`); in double
  precision `Double IRFDouble HistDouble BinsDouble`;
* specification: `Spec*.v` - small definitions of the words used in the properties (bin, share of a spectrum, percentile,
  angle between directions, weighted mean ...). They use no helper of the model; types of inputs and outputs
  (a table, a quantity) are shared with the model;
* proofs: `*Proofs*.v`;
* `Properties_*.v`: only the property theorems (each closed by `exact`), `Print Assumptions`, and `Example`s with
  concrete inputs that satisfy the hypotheses.

Naming: `Cxx_...` belongs to property Cxx; the suffix `_refuted` marks a theorem that proves that a natural or
documented claim is FALSE of the code (the statement in properties.jsonl names that exception); `_partial` would mark a
partial result (there is none at present).

### Numbers
`num := Fin (r:R) | PInf | NInf | NaN`: IEEE special values (NaN propagation, false comparisons with NaN, x/0, inf-inf,
0*inf) over exact reals. Rounding is modelled only in `Double IRFDouble HistDouble BinsDouble` (C74 and later), with the rounding operator of Flocq's
Core (definitions and lemmas about reals, no axioms of its own); the sign of zero is not modelled. Code that only compares and selects (binning,
masks, argmin, cuts) is exact for floats too. Where special values cannot occur the type `R` is used (said in the comment
of the definition).

### Arrays, tables, units
1-D arrays are lists; n-D arrays are nested lists or `Tensor` (shape and function of the index); broadcasting that can
fail is modelled. Astropy tables are association lists with the replace-or-append semantics of `table[name] = col`. A
unit is a positive scale and a dimension; conversion between different dimensions is an error.

## 2. Trusted base

* Coq 8.16.1's kernel and `coqc`.
* Axioms of Coq's standard library, as printed by `Print Assumptions` under each theorem and listed in section 7:
  `ClassicalDedekindReals.sig_forall_dec`, `ClassicalDedekindReals.sig_not_dec`,
  `FunctionalExtensionality.functional_extensionality_dep` (these three come with the real numbers) and
  `Classical_Prop.classic` (some lemmas on limits and derivatives). No axiom of another library, none of our own; no
  kernel check is switched off; no functors or module types.
* The reading of the Python code into the model, function by function, with the cited lines.
* The behaviour of numpy, scipy, astropy, gammapy described in section 3.

## 3. Assumptions on third-party libraries

Modelled by a definition (the definition is trusted to describe the library): numpy's `digitize`, `searchsorted`,
`histogram`/`histogramdd` (last bin closed), `percentile`/`nanpercentile`/`nanquantile` (method linear), `clip`, `interp`,
`argmin`/`nanargmin`, `argsort`, `allclose`, `arange`, `cumsum`, `diff`, `linspace`, `average`, `nan_to_num`, broadcasting
of comparisons of structured arrays; scipy's `gaussian_filter1d` (mode reflect, truncate 4), linear `interp1d` with
extrapolation; astropy's `Table.group_by` (IndexError for a table without rows), `unique`, `setdiff`, column assignment,
`to_value`, `angular_separation`, position angle, `SkyOffsetFrame` (as rotation of unit vectors), FITS header as a map
of upper-case keywords; gammapy's constructors (names, order, unit and shape of axes).

By contract (a hypothesis of the theorem, shown to be satisfiable by an `Example`): scipy's `brentq` (a result is
within the tolerance of a sign change of a continuous function; error when the signs of the end points agree),
`interp1d(kind="quadratic")` (passes through its knots), `griddata` (the weights of a mean that reproduces the target;
at a grid point that point), `Delaunay` (proper triangles, hull facets are sides of simplices, `find_simplex` is
non-negative exactly inside of the hull).

## 4. What is modelled and what is not

| file of /repo/pyirf | modelled | not modelled |
|---|---|---|
| binning.py | everything; create_histogram_table (C76), bin edges (C77) and the conversion of bins to another unit (C94) also in double precision | - |
| cuts.py | everything, with units (C81) | infinite values inside of percentiles |
| statistics.py | everything; also with every operation rounded to double precision (C74) | sign of zero |
| sensitivity.py | everything (brentq by contract), with units (C85) | log output |
| cut_optimization.py | everything, with units (C88) and efficiencies given as Python lists (C28) | progress bar |
| simulations.py | everything but `__repr__`, with units (C69), the numbers of showers also in double precision (C95, C97, C99) | -- |
| spectral.py | all classes, with units (C68), `calculate_event_weights`; power laws, weights (C96) log parabolas (C100) and power laws with a bump (C101) also in double precision | reading the file in `from_file`, `__repr__`, DAMPE data file |
| utils.py, coordinates.py | everything; degree as unit of the results (C91) | columns of directions whose unit is not an angle |
| exceptions.py | as outcomes carrying their data | texts |
| irf/*.py | everything, with units (C71); dispersion, migration, effective area (C97-C99 from event lists), psf and background_2d also in double precision (C75, C76) | - |
| interpolation/base_*.py | reshaping of one-dimensional grids is implicit: grid points are lists of coordinates | abstract methods |
| interpolation/*.py | everything else; grids of one and two dimensions; the weights of grid points and the weighted sum of the nearest-simplex extrapolation also in double precision (C93) | grids of more dimensions (the code raises NotImplementedError), degenerate Delaunay triangulations |
| io/gadf.py | everything | FITS byte encoding, comments of cards |
| io/eventdisplay.py | everything after reading the tables | reading FITS, overflow of header integers |
| gammapy.py | everything | gammapy's own classes beyond names, order, unit, shape of axes |
| benchmarks/*.py | everything, with units (C81) | - |
| version.py, _dev_version, compat.py, tests | - | packaging, not behaviour |

Floating-point rounding is modelled where C74 (and later properties that say so) treat it, in `*Double.v`; everywhere
else numbers are exact reals with infinities and NaN. Not modelled anywhere: performance, logging (except that a warning was issued by the
estimators), concurrency (pyirf has none; the only shared mutable state is the default header of io/gadf.py, C63, the
keyword dictionaries of the estimators, C59, and arrays shared with the caller, C57, C67).

## 5. Disagreements between code and documentation found while modelling

Each is proved by a `_refuted` theorem unless marked (*).

1. `calculate_bin_indices`: +inf and NaN are overflow even when the last edge is +inf (C02).
2. `create_histogram_table`: a particle label `weighted` (or one label = another + `_weighted`) overwrites columns (C05).
3. `resample_histogram1d`: an empty histogram gains one phantom count; the result can be negative (C11).
4. `calculate_percentile_cut`: IndexError when no event is inside the bins; integer columns truncate the cut (C12);
   smoothing of several percentiles runs over the percentiles, and fill values leak into their neighbours (C17).
5. `evaluate_binned_cut`: gaps between bins are filled by the bin below (C14).
6. `compare_irf_cuts`: NaN differs from NaN, units are ignored, one-row tables are broadcast, AttributeError for different
   shapes (C16).
7. `relative_sensitivity`: the fixed bracket misses the root for very small/large alpha and very strong/weak sources (C24).
8. `calculate_sensitivity`: a background column named like an output column overwrites it (C25).
9. `calculate_n_showers_per_energy`: bins that stick out of the simulated range on both sides give more than all showers (C30).
10. `SimulatedEventsInfo`: index -1 is accepted, its counts are NaN (C33); `PowerLaw.from_simulation` likewise (C34).
11. `calculate_n_showers_3d_polar`: equal shares also for unequal position-angle bins; `..._3d_lonlat`: axis order (energy,
    lat, lon) instead of (energy, lon, lat); a grid whose corners are all outside of the viewcone gets 0 although it
    contains it; subpixel positions take the edge numbers as degree whatever their unit and the size of the first bin for all;
    IndexError when no bin is near to the border (C32).
12. `integrate_cone`, inherited by `PowerLawWithExponentialGaussian`, silently drops the bump (C35).
13. `check_table`: TypeError for a column without unit (C40).
14. `effective_area_3d_lonlat` / `background_3d_lonlat`: axis order and non-uniform longitude bins (C42, C47).
15. `energy_dispersion_to_migration`: a row without content gains a phantom probability (C44).
16. `MomentMorphInterpolator`: IndexError at the largest grid point in 1D (C49); NaN from NaN templates, empty
    neighbours (C51, C52).
17. `ParametrizedVisibleEdgesExtrapolator`: a parameter axis of length 1 (C53). `plumb_point_dist`: not exact near end points (C54).
18. `BaseNearestNeighborSearcher`: parameters of shape (n_points,) are rejected with IndexError (C55).
19. `QuantileInterpolator`: all-zero result half way between single-bin templates; a template is not returned at its grid point (C56).
20. `EffectiveAreaEstimator` changes the caller's array; no zero for small areas (C57). `RadMaxEstimator`: five exceptions (C58).
21. benchmarks: IndexError for a table without events; columns of quantiles with the same rounded percentage collide (C60);
    numpy arrays of quantiles give TypeError (C60); the median from the energy dispersion is wrong if the first bin holds
    the content (C66).
22. `io/gadf.py`: the unit check of the background names an argument that does not exist, data shape is not checked against
    the edges, `create_rad_max_hdu` ignores point_like, `create_psf_table_hdu` turns it into a header card (C62, C63).
23. Estimators: arrays returned by nearest-neighbour searchers are views of the templates; grids of two and more dimensions
    keep the caller's array; clipping in `RadMaxEstimator` can write into the templates (C67).
24. `li_ma_significance(1, 5)` is NaN in double precision: without an excess, rounding can make the argument of the square
    root negative (C74).
25. `cone_solid_angle` loses all digits for small angles: it is 0 up to 10^-7 degree, so point spread functions with such
    bins are infinite or NaN (C75).
26. Weighted histograms lose small bins: `np.histogram` subtracts cumulative sums, so a weight of 1 in a bin after a weight of
    2^54 gives `n_weighted` = 0 (C76).
27. The percentile of values whose difference overflows is NaN: `np.percentile([-fmax, fmax], 0)` multiplies infinity by 0 (C77).
28. `optimize_gh_cut` and `optimize_cuts` assign rows of the best scanned table to a copy of the first one by position. Scanned
    tables have columns only for the particle types that survive the cuts, so with particle types in the background (as in
    examples/calculate_eventdisplay_irfs.py) the optimisation raises ValueError when the best cut keeps another number of types
    than the first one, and optimize_cuts can write electrons into the column of the protons (C79).
29. `gammapy.py`: is_pointlike is never set (C65). (*) `io/eventdisplay.py`: possible overflow of header integers.
30. `calculate_percentile_cut` with plain values and a fill value with a unit: the column of cuts gets this unit although the
    percentiles are plain numbers (C81).
31. `PSFTableEstimator` accepts the moment morphing classes, but every estimation with them raises
    UnitConversionError: `moment_morph_estimation` assigns plain numbers to a Quantity (moment_morph_interpolator.py:215), even if
    the mask selects nothing (C82).  With C59 (the nearest neighbour searcher raises TypeError) no extrapolator of the package works for
    PSF tables.  An estimation with MomentMorphInterpolator at the largest grid point raises IndexError (C49, C82).
32. `optimize_cuts` multiplies `theta_cut_efficiencies` by 100 without converting it to an array, so that a Python list is repeated
    instead (tests/test_optimize_cuts.py passes such a list): its entries are used as percentages, the cuts are those of e / 100, but e
    is reported (C28_python_list_refuted).
33. `LogParabola` with b = 0 at energy 0 or infinity is NaN (0 times infinity in the exponent), a power law is not (C37).
34. `barycentric_2D_interpolation_coefficients` is NaN at a corner of a very thin triangle whose area is lost by rounding (C93);
    `linesegment_1D_interpolation_coefficients` is exact only at one of its two grid points.
35. Simulations with an index next to -1 are accepted, but their expected numbers of showers can be NaN (C95) and their flux
    -infinity, which gives weights 0 (C96).


## 6. Properties

| id | status | property | modelled / proved by | theorems |
|---|---|---|---|---|
| C01 | proved | Bin index is the bin that contains the value | `Binning.calculate_bin_indices`, `digitize`; counting lemma for monotone lists, unique bin | bin_index_increasing, outcome_unique, bin_index_decreasing, bin_index_not_monotonic |
| C02 | proved | Overflow bins make every value binnable | same; exact set of binnable values for edges from -inf to inf | infinite_edges, add_overflow_bins, infinite_edges_valid_refuted |
| C03 | proved | Bin indices do not depend on the unit in which bins are expressed | quantity wrapper with units; positive scaling preserves comparisons | unit_invariance, common_unit, incompatible_unit, bins_without_unit |
| C04 | proved | Histogram conserves events | `create_histogram_table`; induction over events, partition of [e0, eN] | histogram_counts, histogram_weighted, histogram_unweighted |
| C05 | proved | Per-particle histograms decompose the total | group_by as filter on distinct labels; exchange of sums; edge columns by induction over the added columns (`EdgeProofs.v`) | per_particle, per_particle_weighted, columns, unweighted, label_collision_refuted, edges, edges_overwritten_refuted |
| C06 | proved | Histograms are additive and order independent | same; additivity of counts, Permutation | permutation, additive, additive_weighted |
| C07 | proved | Histogram and bin indices agree | both functions; pointwise equivalence of the bin predicate | histogram_matches_indices |
| C08 | proved | add_overflow_bins covers the axis and is idempotent | `add_overflow_bins`; case analysis | add_overflow_bins, overflow_bins_make_valid |
| C09 | proved | split_bin_lo_hi / join_bin_lo_hi round trip | `split_bin_lo_hi`, `join_bin_lo_hi`; list lemmas, allclose | join_split, join_split_nd, join_succeeds_iff, split_join |
| C10 | proved | create_bins_per_decade spacing and end points | `create_bins_per_decade` with arange via ceiling; Rpower algebra | bins_per_decade, endpoint_included |
| C11 | proved | Resampling a histogram conserves the content inside the old range | `resample_histogram1d`, interpolant by contract; telescoping | resample_length, resample_cumulative, resample_total, resample_aligned, resample_same_edges, resample_outside, resample_infinite_edges, empty_stays_empty_refuted, nonnegative_refuted, integer_data_rejected |
| C12 | proved | Percentile cut table: one documented value per bin | `calculate_percentile_cut`; grouping, clipping, order statistics | percentile_cut, percentile_list, fill_value_unit, bounds_unit, result_unit, plain_values_bounds, fill_value_wrong_unit, fill_value_no_unit, percentile_range, no_events_refuted, integer_values, integer_values_refuted |
| C13 | proved | Percentile cuts keep the requested fraction | same; counts below/above an interpolated order statistic of a sorted list | percentile_fraction, monotone_in_percentile |
| C14 | proved | evaluate_binned_cut applies the cut of the containing bin | `evaluate_binned_cut(_by_index)`; via C01, all edges, units | evaluate_binned_cut, same_as_by_index, by_index, any_index, not_a_qtable, any_table, units, common_unit, gap_refuted |
| C15 | proved | Cuts are local to their bin | same as C12; dependence on the filtered sublist only, Permutation | cut_is_local, event_order |
| C16 | proved | compare_irf_cuts is true exactly for identical tables | `compare_irf_cuts`; induction over neighbouring tables | compare_irf_cuts, exact, list_order, nan_refuted, units_refuted, broadcast_refuted |
| C17 | proved | Smoothing acts along the energy-bin axis | `gaussian_filter1d` as explicit kernel with reflection; weighted mean | smoothing_bounded, smoothing, several_percentiles_refuted, fill_value_leaks_refuted |
| C18 | proved | Li & Ma significance is a well-defined non-negative number | `li_ma_significance` branch by branch; log inequality | significance_well_defined |
| C19 | proved | Li & Ma significance is monotone | same; sign of the derivative | increasing_in_n_on, decreasing_in_n_off, decreasing_in_alpha |
| C20 | proved | Li & Ma scales like sqrt of exposure and acts elementwise | same; algebra of logarithms | exposure_scaling, elementwise, no_broadcasting, shape |
| C21 | proved | relative_sensitivity input contract | `relative_sensitivity` branch by branch | solver_contract_inhabited, nan, negative_counts, no_signal, signal, arrays |
| C22 | proved | relative_sensitivity satisfies all detection requirements | brentq by contract; monotonicity of Li&Ma (C19) | requirements |
| C23 | proved | relative_sensitivity is the smallest sufficient flux and scales inversely with the signal | same; minimality up to the tolerance | smallest, solver_independent, inverse_scaling |
| C24 | proved | relative_sensitivity always finds an answer when there is signal | same; exact condition for a sign change in the bracket | exact, background, default, few_off, small_alpha_refuted, large_alpha_refuted, strong_source_refuted, weak_source_refuted |
| C25 | proved | calculate_sensitivity table | `calculate_sensitivity`; row-wise reasoning over table columns | table, li_ma_elementwise, different_edges, bad_bin, name_collision_refuted |
| C26 | proved | estimate_background ring normalisation | `estimate_background`; sums over masks, ring solid angles | counts, weights, particles, interpolation_unique |
| C27 | proved | optimize_gh_cut picks the best efficiency in every bin | `optimize_gh_cut`; nanargmin, table assembly by rows | best_efficiency, succeeds, nan_ignored_refuted |
| C28 | proved | optimize_cuts picks the best combination in every bin | `optimize_cuts`; product enumeration, argmin per bin | python_list_refuted, python_list_returns, best_combination, succeeds |
| C29 | proved | Optimised per-bin cuts reproduce the reported sensitivity | locality of the pipeline per bin, re-applying the returned cuts | optimize_gh_cut, optimize_cuts |
| C30 | proved | Simulated showers per energy bin | `_powerlaw_pdf_integral`; shares by primitives of the density | share_unique, bin, length, total, merge, outside, overhang_refuted |
| C31 | proved | Simulated showers per field-of-view bin | `_viewcone_pdf_integral`; the same for the solid angle | bin, total, point_like, energy_and_fov |
| C32 | proved | Simulated showers on 3d grids | 3d grids incl. subpixel overlap; geometry of the field of view | polar, polar_equal_bins, polar_refuted, lonlat_any_grid, lonlat_shape_refuted, lonlat_inside, lonlat_swallowed_refuted, lonlat_exact, lonlat_error, lonlat_units_refuted |
| C33 | proved | SimulatedEventsInfo constructor validation | constructor; case analysis | constructor, normalisable_refuted |
| C34 | proved | PowerLaw.from_simulation reproduces the number of showers | `PowerLaw.from_simulation`; fundamental theorem for power laws | diffuse, point_source, e_ref, index_positive, index_minus_one_refuted |
| C35 | proved | Cone integration | `integrate_cone`; algebra | integrate_cone, flux, additive, positive, point_source, bump_refuted |
| C36 | proved | Event weights | `calculate_event_weights`; units, algebra | weights, units, chain, spectrum, e_ref |
| C37 | proved | Spectral shapes | spectral classes; Rpower/exp algebra | index, reference, scaling, log_parabola, log_parabola_b0, bump, exp_gauss, extreme_energies, log_parabola_extreme, log_parabola_b0_refuted |
| C38 | proved | Table interpolation spectrum | `TableInterpolationSpectrum` with linear interp1d; sorted knots, order independence | polygon, passes_through, between, order |
| C39 | proved | Solid angles | `cone_solid_angle`, `rectangle_solid_angle`; trigonometry | cone_values, cone_increasing, rectangle_additive_lon, rectangle_additive_lat, rectangle_nonnegative, rectangle_sphere, polar_cap |
| C40 | proved | check_table / check_histograms contracts | `check_table`, `check_histograms`; induction over the requirements | table_ok_iff, missing_columns, wrong_unit, units_exact, unitless_column_refuted, check_histograms, check_histograms_any_unit, check_histograms_missing |
| C41 | proved | Field-of-view coordinates | coordinates; rotation of unit vectors, atan2 | theta_phi, lon_lat, consistent, center, event_columns, theta_column, angle_unique |
| C42 | proved | Effective area bounds and conservation | `irf/effective_area.py`; elementwise division over num | effective_area, per_energy, per_energy_and_fov, 3d_polar, lonlat_shape_refuted, lonlat_transposed_refuted |
| C43 | proved | Energy dispersion is normalised | `energy_dispersion`; histogramdd, normalisation | normalised, value |
| C44 | proved | Energy migration matrix rows are probability distributions | `energy_migration_matrix`, `energy_dispersion_to_migration`; sums, interpolant by contract | migration_matrix, value, dispersion_to_migration, empty_refuted |
| C45 | proved | PSF is normalised over solid angle | `psf_table`; as C43 with solid angles | normalised, value |
| C46 | proved | Background rate integrates back to the event count | `background_2d`; sums over bins | bin, total |
| C47 | proved | 3d background integrates back to the event count | `background_3d_lonlat`; sums over bins | bin, total, nonuniform_refuted, shape_error_refuted, shape_refuted |
| C48 | proved | Estimator dispatch | estimator constructors and `__call__`; hull test by contract | dispatch, discrete, grid_type, few_points, templates, target, order |
| C49 | proved | Linear interpolation weights in 1D | 1D weights; linear algebra | weights, sum, equal_points, segment, largest_grid_point_refuted, order |
| C50 | proved | Barycentric weights in 2D | barycentric weights; 2x2 linear system | weights, unique, vertices, inside, affine_map, relabel |
| C51 | proved | Moment morphing returns normalised templates | `moment_morph_estimation`; per slice, all weights | slice, nonnegative, equal_templates, nan_refuted, zero_division, inside, at_grid_point, inside_2d, at_vertex, at_grid_point_empty_neighbour_refuted |
| C52 | proved | Nearest simplex extrapolation is exact on affine data | nearest simplex extrapolation; affine functions, mesh by contract | segment, affine_1d, nearest, affine_2d, morph_1d, morph_2d, morph_nan_refuted |
| C53 | proved | Visible-edges weights form a partition of unity | visible edges extrapolation; weights as quotients of positive angles | visible_facets, weights, blend, affine, one_visible, axis_of_length_one_refuted, m |
| C54 | proved | Geometry helpers | `plumb_point_dist`, `point_facet_angle`, facets; Euclidean geometry | distance_tolerance, distance_exact, angle, nearest_facet, nearest_facet_exact, no_facet, bin_width, distance_refuted |
| C55 | proved | Nearest neighbour search returns the nearest template | nearest neighbour search; argmin of p-norms | nearest, at_grid_point, norm_ord, one_dimensional_refuted |
| C56 | proved | Quantile interpolation returns a normalised distribution | `QuantileInterpolator`; cdf/ppf/pdf chain per slice | density, scale, mismatch, filled_templates_refuted, at_grid_point_refuted |
| C57 | proved | EffectiveAreaEstimator round trip and thresholds | `EffectiveAreaEstimator`; log/exp round trip, convexity | inside, any_interpolator, small_areas_refuted, caller_refuted |
| C58 | proved | RadMaxEstimator fill-value rules | `RadMaxEstimator`; case analysis over neighbours/simplices | one_dimension, two_dimensions, nearest, no_fill, dimensions, last_point_refuted, row_target_refuted, order_refuted, fill_exceeded_refuted |
| C59 | proved | PDF estimators preserve layout and arguments | `EnergyDispersionEstimator`, `PSFTableEstimator`; axes as permutations of tensors, keyword dict | layout, entries, kwargs, classes, nearest_refuted, shared_kwargs_refuted, nearest_axis_refuted |
| C60 | proved | Angular resolution benchmark | `angular_resolution`; grouping, quantiles, column names | values, scalar, no_events, missing_column, monotone, names, names_differ, same_name_refuted, outside_refuted, array_refuted |
| C61 | proved | Energy bias and resolution benchmark | `energy_bias_resolution`; the same | default, any_functions, no_events, resolution_nonnegative, bias_in_range, resolution_bounded, equal_errors, scaled_energies, scaling, absolute_68, outside_refuted, without_units_refuted |
| C62 | proved | GADF HDUs encode edges and data without loss | `io/gadf.py` tables; transposition, units | effective_area, psf, energy_dispersion, background_2d, background_3d, rad_max, edges_back, units, units_apart, area_errors, background_errors, alignment, shape_refuted |
| C63 | proved | GADF headers | `io/gadf.py` headers; map lemmas, state of the default header | default_header, history, user_cards, table_keywords, extname, required, rad_max_refuted, psf_refuted |
| C64 | proved | Event display import | `read_eventdisplay_fits`; renaming, unique pointings, histogram | read, histogram_integer, spectral_index, names, no_header, runs_unique, no_events_refuted |
| C65 | proved | Gammapy conversion keeps the axis order | `gammapy.py`; axes and units | effective_area, psf, energy_dispersion, effective_area_units, psf_units, edges, pointlike_refuted, psf_full_enclosure |
| C66 | proved | Bias and resolution from the energy dispersion | `energy_bias_resolution_from_energy_dispersion`; cdf and threshold search | quantiles, order, shape, first_bin_refuted |
| C67 | proved | Results of estimators don't depend on the history | `Aliasing.v`: arrays in memory, views, the constructors and calls of the estimators, programs of the caller; proved by a frame invariant over any program | calls, wrong_class, area, rad_max, searcher_refuted, input_refuted, negative_refuted |
| C68 | proved | Spectra don't depend on the units of their parameters | `Quantities.v` (dimensions, units, quantities, `quantity_input`), `SpectralUnits.v` (spectral.py with units); proved by commuting positive conversion factors with the extended arithmetic and `Rpower`, and by refinement to Spectral.v | call, unit_independent, call_errors, power_law, power_law_errors, log_parabola, exp_gauss, from_simulation, integrate_cone, weights, weights_errors, table, table_unit_independent, table_errors, table_call_errors, from_table, from_table_errors, crab_hegra, crab_magic, pdg, proton, electron |
| C69 | proved | Expected numbers of showers don't depend on units | `SimulationUnits.v` (simulations.py with units: `quantity_input`, comparisons of quantities, `to_value`); proved by refinement to Simulations.v, comparisons commute with positive factors | init, init_errors, per_energy, energy_errors, per_fov, fov_errors, per_energy_and_fov, 3d_polar |
| C70 | proved | Instrument responses fold the simulated flux back to the selected events | no new model: composition of Spectral.v, Simulations.v and IRF.v in `FoldProofs.v`; a primitive of the flux is a constant multiple of one of the simulated power law (mean value theorem), so the share of showers and the flux integral cancel; sums over bins by counting | point_source, diffuse, energy_migration, energy_migration_least |
| C71 | proved | Instrument responses don't depend on units | `IRFUnits.v` (irf/*.py on tables of columns with units); proved by refinement to IRF.v: binning and comparisons commute with positive factors, results carry the unit's factor | area_per_energy, area_per_energy_and_fov, area_3d_polar, energy_dispersion, migration_matrix, dispersion_to_migration, psf_table, background_2d, background_3d_lonlat, accepts_area_per_energy, accepts_area_per_energy_and_fov, accepts_area_3d_polar, accepts_energy_dispersion, accepts_migration_matrix, accepts_psf_table, accepts_background_2d, accepts_background_3d_lonlat |
| C72 | proved | The order of the events does not matter | no new model: histograms, groups and percentiles of permuted lists (`OrderProofs.v`); table columns reordered by the same permutation | histogram_table, effective_area, effective_area_fov, effective_area_polar, effective_area_lonlat, energy_dispersion, migration_matrix, psf_table, background_2d, background_3d, estimate_background, percentile_cut, binned_cut, optimize_gh_cut, optimize_cuts, angular_resolution, bias_resolution, bias_functions |
| C73 | proved | Two samples of events together | no new model: histograms of concatenated lists add; showers are proportional to their number (`MergeProofs.v`) | histogram_table, effective_area, effective_area_fov, effective_area_polar, effective_area_lonlat, background_2d, background_3d, energy_dispersion, migration_matrix, psf_table |
| C74 | proved | The significance in double precision | `Double.v` (IEEE double rounding from Flocq's Core; statistics.py with every operation rounded); error analysis by relative perturbations (`NearProofs.v`), the NaN by evaluating the roundings exactly | accuracy, counts, nan_refuted, not_negative, deficit, empty, elementwise, shape, lengths |
| C75 | proved | Instrument responses in double precision | `IRFDouble.v` (irf/*.py with every operation rounded, counts as doubles); counts below 2^53 are exact, then relative perturbations; the cosines by absolute errors | energy_dispersion, migration_matrix, effective_area, point_spread_function, cone, tiny_refuted, rounded_ratio |
| C76 | proved | Weighted histograms and background rates in double precision | `HistDouble.v` (numpy's weighted histogram block by block and bincount, create_histogram_table, background_2d, all rounded); prefix sums of sorted weights by relative perturbations, monotone rounding; a concrete cancellation | edges, histogram_table, whole_weights, cancellation_refuted, background |
| C77 | proved | Bin edges, bin centres and percentiles in double precision | `BinsDouble.v` (np.arange, create_bins_per_decade, bin_center, np.percentile and its interpolation, all rounded); absolute errors for logarithms, Sterbenz's lemma for fractions of positions, monotone rounding for bounds, a Lipschitz bound for the percentile | bins_per_decade, endpoint_included, bin_center, percentile, percentile_overflow, percentile_range, no_bins |
| C78 | proved | From event lists to the sensitivity | no new model: `selected_sensitivity`, `optimize_gh_cut`, `optimize_cuts` of `CutOptimization.v`; `SpecPipeline.v` says what a row means in terms of events; composition of C04, C14, C21-C29, masks translated into predicates on events | events_to_sensitivity, optimised_gh_cut, optimised_cuts, theta_cuts_in_range, weights_unique |
| C79 | proved | Optimising cuts with several particle types in the background | no new model; `SpecParticles.v` (particle types inside the ring, expected column names, chosen scans); invariant of the assembly of the best rows (every scanned table is filled, width decides), nested selections of optimize_gh_cut (percentile cuts are monotone in the percentile, so equal numbers of types imply equal types); witnesses by concrete samples | columns, gh_outcome, cuts_outcome, gh_labels, gh_species, gh_succeeds, cuts_succeeds, gh_raises_refuted, cuts_mislabels_refuted |
| C80 | proved | Invalid arguments raise the documented kind of exception, whatever the other arguments | no new model; `SpecErrors.v`; order of the checks in the model, by cases on the first invalid argument; quantity level functions of `IRFUnits.v`, `SimulationUnits.v`; reader of `Eventdisplay.v` | energy_dispersion_bins, migration_matrix_bins, psf_table_bins, background_2d_bins, background_3d_bins, histogram_table, effective_area_bins, bin_indices_plain_data, cut_by_index, estimate_background, resample_short, resample, join_rows, overflow_bins, optimize_no_signal, optimize_gh_no_efficiencies, optimize_cuts_no_multiplicities, effective_area_unit, fov_bins_unit, position_angle_unit, no_true_energy, no_reco_energy, no_weights, column_unit, check_histograms, axis, eventdisplay_no_histogram, eventdisplay_bad_histogram, eventdisplay_ranges, units_differ |
| C81 | proved | Cuts and benchmarks don't depend on units | `CutUnits.v` (comparison of quantities), models of cuts.py and benchmarks with units; `SpecCutUnits.v` (same physical numbers); sorting, interpolation, clipping, smoothing and grouping commute with positive factors | percentile_cut, plain_values_refuted, evaluate_cut, evaluate_common_unit, evaluate_wrong_unit, selection, angular_resolution, energy_bias_resolution |
| C82 | proved | EnergyDispersionEstimator and PSFTableEstimator return densities from the right histograms | `PDFEstimators.v` (swapaxes, flattening to histograms, the discrete classes as methods, reshaping, units), `SpecPDFEstimators.v` (neighbours, histograms along an axis); layout lemmas, then the dispatch theorem of C48 and the slice theorems of C49, C51, C52, C55, C56 | morph, largest_grid_point_refuted, morph_2d, extrapolate, extrapolate_2d, quantile, nearest, order, errors, psf, psf_units, psf_quantile, psf_morph_refuted |
| C83 | proved | Each entry of a result depends only on the events in its bin | `SpecLocal.v` (lists that agree on a region, same entry); two runs of the models of binning.py, irf/*, benchmarks, sensitivity.py; entry-wise agreement is preserved by the array operations, or both entries are functions of the same relational count | counts, weights, effective_area, effective_area_fov, effective_area_polar, effective_area_lonlat, background_2d, background_3d, energy_dispersion, migration_matrix, psf_table, angular_resolution, estimate_background |
| C84 | proved | Joining bins adds their contents | `SpecRebin.v` (joined bins, sums); the relational counts and integrals of C04, C30, C42-C46 are additive over joined bins | counts, weights, showers, effective_area, background_2d, energy_dispersion, migration_matrix, psf_table, last_edge_refuted |
| C85 | proved | Binned events, background estimate and sensitivity don't depend on units | `SensitivityUnits.v` (tables whose edges carry a unit, masks, astropy's interp and comparisons), `SpecSensUnits.v` (same table up to the unit of its edges); a relation between the two runs is preserved by every operation of binning.py and sensitivity.py | histogram, background, sensitivity, chain, dimensions, incompatible_edges |
| C86 | proved | More signal, less background, more time and more off regions never make the sensitivity worse | `SpecTrend.v` (samples contained in each other, reweighted samples, the three calls); monotonicity of the Li & Ma formula in the background at fixed excess (tangents of a convex function, Gibbs inequality) and in alpha at fixed background (as a minimum over backgrounds), then C22 and C78 | more_signal, less_background, longer, more_off_regions, weaker_requirements, events, observation_time, time_weights, bright_source_refuted |
| C87 | proved | The flux sensitivity doesn't depend on the assumed brightness of the source | `SpecTrend.v` (brighter spectra); scaling of the spectra, of the weights and, by C22 and C78, of the smallest detectable flux | weights, relative, flux, few_background_refuted |
| C88 | proved | The optimised cuts do not depend on units | CutOptimizationUnits.v models both optimisations on event tables with units; CutOptUnitsProofs*.v prove step by step (indices, percentiles, masks, histograms, background, sensitivity, choice of the best scan point, assembly of rows) that the results are those of CutOptimization.v for the numbers in TeV and radian | gh_cut, cuts, wrong_bins, wrong_cuts |
| C89 | proved | Inter- and extrapolation do not depend on the unit and the origin of the grid coordinates | `GridMethods.v` (extrapolators of parametrised components as classes), `SpecMoved.v` (other coordinates, classes that give the same answers); sorting, digitize and weights under increasing affine maps, plane geometry under scaling (distances scale, angles and barycentric weights stay), then the constructors and calls | parametrized, effective_area, rad_max, energy_dispersion, psf, classes_1d, classes_2d, nearest, one_axis_refuted |
| C90 | proved | Cuts never increase the effective area or the background | `SpecSelection.v` (kept, efficiency, rate_of_selection); sub-multisets have fewer events and (non-negative) weight of any property, masks of tighter cuts imply those of looser ones, then the values of C04, C42, C46, C47 and uniqueness of the simulated share | selection, tighter_cut, histogram, histogram_weighted, area_per_energy, area_per_energy_and_fov, area_3d_polar, area_3d_lonlat, background_2d, background_3d |
| C91 | proved | Field-of-view coordinates are a faithful, rotation invariant description of the direction | `SkyUnits.v` (columns with angular units, results in degree), `SpecSky.v`; both coordinate systems as functions of the rotated unit vector, the rotation is invertible; spherical triangle inequality from Cauchy-Schwarz | one_to_one, onto_theta_phi, onto_lon_lat, rotated, full_turns, triangle, two_sources, zero, degrees, units |
| C92 | proved | Estimates follow their templates | Estimators.v, GridMethods.v, Geometry.v as for C48-C58; SpecBlend.v; BlendProofs.v: weights sum to 1 and do not depend on the templates; sorting commutes with combining templates | parametrized, constant, effective_area, rad_max, nearest, griddata, nearest_simplex, visible_edges, everywhere |
| C93 | proved | Interpolation weights in double precision | WeightsDouble.v: the coefficient functions and np.sum with every operation rounded; SpecWeights.v; WeightsDoubleProofs.v: forward error analysis of differences, products, determinant, quotient; exact cancellation at the corners; concrete thin triangle and segment computed with rounding lemmas | barycentric, barycentric_at_grid_points, thin_triangle_refuted, segment, segment_at_first_point, segment_at_other_point_refuted, estimate, estimate_at_grid_points |
| C94 | proved | Bins in another unit than the data, in double precision | ConvertDouble.v: edges times a factor, rounded, then Binning.v; SpecConvert.v; ConvertDoubleProofs.v: rounding is monotone, so each comparison of a double with an edge agrees except at a tie with the rounded edge; concrete edges near 0.001 and 1.5 TeV | bin_index, event_moves_refuted, histogram, bins_kept, bins_merge_refuted |
| C95 | proved | Expected numbers of simulated showers in double precision | ShowersDouble.v: simulations.py:71-141, 290-331 with every operation rounded; SpecShowers.v; ShowersDoubleProofs.v: errors of differences of powers and cosines relative to the normalization, product with the reciprocal; two concrete simulations computed exactly | energy, fov, complete_refuted, flat_refuted |
| C96 | proved | Power laws and event weights in double precision | EventWeightsDouble.v: spectral.py:44-70, 105-143 and utils.py:172-187 with every operation rounded; SpecEventWeights.v; EventWeightsDoubleProofs.v: relative errors and sizes of all intermediate results, (1+x)^p for small x; one concrete simulation computed exactly | simulated_flux, weights, same_spectrum, flat_refuted |
| C97 | proved | Showers in energy and field of view, and effective areas from event lists, in double precision | AreaDouble.v: simulations.py:143-173 and effective_area.py:15-52 with every operation rounded; SpecArea.v; AreaDoubleProofs.v: products of counts with absolute errors, relative error of the quotient with the number of events | showers, area |
| C98 | proved | Effective areas in energy and field of view in double precision | AreaFovDouble.v: effective_area.py:15-29, 55-89 with every operation rounded; SpecArea.v; AreaFovDoubleProofs.v: the relative error of C97 for the product of both shares, shapes of histogram and showers | area |
| C99 | proved | Showers and effective areas in energy, field of view and position angle in double precision | AreaPolarDouble.v: simulations.py:178-219 and effective_area.py:15-29, 92-139 with every operation rounded; SpecArea.v; AreaPolarDoubleProofs.v: relative errors of C98 through the division by the number of position angles | showers, area |
| C100 | proved | Log parabolas in double precision | LogParabolaDouble.v: spectral.py:210-213 with every operation rounded; SpecLogParabola.v; LogParabolaDoubleProofs.v: errors of the ratio, its logarithm and the exponent, then the exponential of the difference of exponents | flux, reference |
| C101 | proved | Power laws with a Gaussian bump in double precision | GaussianSpectrumDouble.v: spectral.py:268-279 with every operation rounded; SpecGaussianSpectrum.v; GaussianSpectrumDoubleProofs.v: error of the argument h of the exponential relative to 1 + h, and exp(-h) * (1 + h) <= 1 | flux, no_bump |

(Theorem names are given without their prefix, the property id.)

## 7. Print Assumptions

The output of `Print Assumptions` for each theorem, grouped by the set of axioms listed (all of Coq's standard library).

**Closed under the global context**: C14_by_index, C14_any_index, C77_no_bins, C80_cut_by_index, C80_overflow_bins, C80_axis, C59_kwargs, C59_classes, C59_nearest_refuted, C59_shared_kwargs_refuted, C64_no_header, C64_runs_unique, C54_no_facet, C90_selection, C40_table_ok_iff, C40_missing_columns, C40_wrong_unit, C40_units_exact

**`ClassicalDedekindReals.sig_forall_dec`**: C92_everywhere, C80_units_differ, C59_layout, C59_entries, C59_nearest_axis_refuted, C62_units_apart, C78_weights_unique, C40_unitless_column_refuted

**`ClassicalDedekindReals.sig_forall_dec`, `FunctionalExtensionality.functional_extensionality_dep`**: C60_values, C60_scalar, C60_no_events, C60_missing_column, C60_monotone, C60_names, C60_names_differ, C60_same_name_refuted, C60_outside_refuted, C60_array_refuted, C61_default, C61_any_functions, C61_no_events, C61_resolution_nonnegative, C61_bias_in_range, C61_resolution_bounded, C61_equal_errors, C61_scaled_energies, C61_scaling, C61_absolute_68, C61_outside_refuted, C61_without_units_refuted, C66_quantiles, C66_order, C66_shape, C66_first_bin_refuted, C01_bin_index_increasing, C01_outcome_unique, C01_bin_index_decreasing, C01_bin_index_not_monotonic, C02_infinite_edges, C02_add_overflow_bins, C02_infinite_edges_valid_refuted, C03_unit_invariance, C03_common_unit, C03_incompatible_unit, C03_bins_without_unit, C04_histogram_counts, C04_histogram_weighted, C04_histogram_unweighted, C05_per_particle, C05_per_particle_weighted, C05_columns, C05_unweighted, C05_label_collision_refuted, C06_permutation, C06_additive, C06_additive_weighted, C07_histogram_matches_indices, C08_add_overflow_bins, C08_overflow_bins_make_valid, C09_join_split, C09_join_split_nd, C09_join_succeeds_iff, C09_split_join, C11_resample_length, C11_resample_cumulative, C11_resample_total, C11_resample_aligned, C11_resample_same_edges, C11_resample_outside, C11_resample_infinite_edges, C11_empty_stays_empty_refuted, C11_nonnegative_refuted, C11_integer_data_rejected, C92_parametrized, C92_constant, C92_griddata, C27_nan_ignored_refuted, C81_evaluate_cut, C81_evaluate_common_unit, C81_evaluate_wrong_unit, C81_angular_resolution, C81_energy_bias_resolution, C14_evaluate_binned_cut, C14_same_as_by_index, C14_not_a_qtable, C14_any_table, C14_units, C14_common_unit, C14_gap_refuted, C16_compare_irf_cuts, C16_exact, C16_list_order, C16_nan_refuted, C16_units_refuted, C16_broadcast_refuted, C05_edges, C05_edges_overwritten_refuted, C80_energy_dispersion_bins, C80_migration_matrix_bins, C80_histogram_table, C80_bin_indices_plain_data, C80_resample_short, C80_resample, C80_join_rows, C80_effective_area_unit, C80_check_histograms, C48_dispatch, C48_discrete, C48_grid_type, C48_few_points, C48_templates, C48_target, C48_order, C57_caller_refuted, C58_dimensions, C62_effective_area, C62_psf, C62_energy_dispersion, C62_background_2d, C62_background_3d, C62_rad_max, C62_edges_back, C62_units, C62_area_errors, C62_background_errors, C62_alignment, C62_shape_refuted, C63_default_header, C63_history, C63_user_cards, C63_table_keywords, C63_extname, C63_required, C63_rad_max_refuted, C63_psf_refuted, C65_effective_area, C65_psf, C65_energy_dispersion, C65_effective_area_units, C65_psf_units, C65_edges, C65_pointlike_refuted, C65_psf_full_enclosure, C42_effective_area, C43_normalised, C43_value, C44_migration_matrix, C44_value, C44_dispersion_to_migration, C44_empty_refuted, C71_dispersion_to_migration, C49_weights, C49_sum, C49_equal_points, C50_weights, C50_unique, C50_vertices, C50_inside, C50_affine_map, C50_relabel, C52_segment, C52_affine_1d, C53_visible_facets, C53_m, C55_norm_ord, C83_counts, C83_weights, C83_energy_dispersion, C83_migration_matrix, C83_angular_resolution, C73_histogram_table, C73_energy_dispersion, C73_migration_matrix, C89_parametrized, C89_energy_dispersion, C72_histogram_table, C72_energy_dispersion, C72_migration_matrix, C72_binned_cut, C72_angular_resolution, C72_bias_resolution, C72_bias_functions, C82_order, C82_errors, C84_counts, C84_weights, C84_energy_dispersion, C84_migration_matrix, C84_last_edge_refuted, C90_tighter_cut, C90_histogram, C90_histogram_weighted, C85_histogram, C21_solver_contract_inhabited, C26_interpolation_unique, C33_constructor, C36_weights, C36_units, C36_chain, C37_index, C68_power_law, C68_power_law_errors, C68_log_parabola, C68_exp_gauss, C68_crab_hegra, C68_crab_magic, C68_pdg, C68_proton, C68_electron, C40_check_histograms, C40_check_histograms_any_unit, C40_check_histograms_missing

**`ClassicalDedekindReals.sig_forall_dec`, `ClassicalDedekindReals.sig_not_dec`, `FunctionalExtensionality.functional_extensionality_dep`**: C92_rad_max, C92_nearest_simplex, C28_python_list_refuted, C28_python_list_returns, C88_gh_cut, C88_wrong_bins, C88_wrong_cuts, C27_best_efficiency, C27_succeeds, C28_best_combination, C28_succeeds, C29_optimize_gh_cut, C29_optimize_cuts, C81_plain_values_refuted, C12_percentile_cut, C12_percentile_list, C12_fill_value_unit, C12_bounds_unit, C12_result_unit, C12_plain_values_bounds, C12_fill_value_wrong_unit, C12_fill_value_no_unit, C12_percentile_range, C12_no_events_refuted, C12_integer_values, C12_integer_values_refuted, C13_percentile_fraction, C13_monotone_in_percentile, C15_cut_is_local, C15_event_order, C17_smoothing_bounded, C17_smoothing, C17_several_percentiles_refuted, C17_fill_value_leaks_refuted, C80_psf_table_bins, C80_background_2d_bins, C80_background_3d_bins, C80_estimate_background, C80_optimize_no_signal, C80_optimize_gh_no_efficiencies, C80_optimize_cuts_no_multiplicities, C80_no_reco_energy, C80_no_weights, C80_column_unit, C80_eventdisplay_no_histogram, C80_eventdisplay_bad_histogram, C80_eventdisplay_ranges, C57_any_interpolator, C58_one_dimension, C58_two_dimensions, C58_nearest, C58_no_fill, C58_last_point_refuted, C58_row_target_refuted, C58_order_refuted, C64_read, C64_histogram_integer, C64_spectral_index, C64_names, C64_no_events_refuted, C45_normalised, C45_value, C46_bin, C46_total, C47_bin, C47_total, C47_nonuniform_refuted, C47_shape_error_refuted, C47_shape_refuted, C71_energy_dispersion, C71_migration_matrix, C71_psf_table, C71_background_2d, C71_background_3d_lonlat, C71_accepts_energy_dispersion, C71_accepts_migration_matrix, C71_accepts_psf_table, C71_accepts_background_2d, C71_accepts_background_3d_lonlat, C49_segment, C49_largest_grid_point_refuted, C49_order, C51_slice, C51_nonnegative, C51_equal_templates, C51_nan_refuted, C51_zero_division, C51_inside, C51_at_grid_point, C51_inside_2d, C51_at_vertex, C51_at_grid_point_empty_neighbour_refuted, C52_nearest, C52_affine_2d, C52_morph_1d, C52_morph_2d, C53_one_visible, C54_distance_tolerance, C54_distance_exact, C54_angle, C54_nearest_facet, C54_nearest_facet_exact, C54_bin_width, C54_distance_refuted, C56_density, C56_scale, C56_mismatch, C56_filled_templates_refuted, C56_at_grid_point_refuted, C83_background_2d, C83_background_3d, C83_psf_table, C83_estimate_background, C73_background_2d, C73_background_3d, C73_psf_table, C89_rad_max, C72_psf_table, C72_background_2d, C72_background_3d, C72_estimate_background, C72_percentile_cut, C72_optimize_gh_cut, C72_optimize_cuts, C82_morph, C82_largest_grid_point_refuted, C82_morph_2d, C82_extrapolate, C82_extrapolate_2d, C82_quantile, C79_columns, C79_gh_outcome, C79_cuts_outcome, C79_gh_labels, C79_gh_species, C79_gh_succeeds, C79_cuts_succeeds, C84_background_2d, C84_psf_table, C90_background_2d, C90_background_3d, C85_background, C85_sensitivity, C85_chain, C85_dimensions, C85_incompatible_edges, C21_nan, C21_negative_counts, C21_no_signal, C21_arrays, C25_table, C25_different_edges, C25_bad_bin, C25_name_collision_refuted, C26_counts, C26_weights, C26_particles, C31_bin, C31_total, C31_point_like, C32_polar_equal_bins, C35_integrate_cone, C35_additive, C35_positive, C35_point_source, C68_integrate_cone, C69_init, C69_init_errors, C69_per_fov, C69_fov_errors, C39_cone_values, C39_cone_increasing, C39_rectangle_additive_lon, C39_rectangle_additive_lat, C39_rectangle_nonnegative, C39_rectangle_sphere, C39_polar_cap, C41_angle_unique

**`ClassicalDedekindReals.sig_forall_dec`, `ClassicalDedekindReals.sig_not_dec`, `Classical_Prop.classic`, `FunctionalExtensionality.functional_extensionality_dep`**: C97_showers, C97_area, C98_area, C99_showers, C99_area, C10_bins_per_decade, C10_endpoint_included, C77_bins_per_decade, C77_endpoint_included, C77_bin_center, C77_percentile, C77_percentile_overflow, C92_effective_area, C92_nearest, C92_visible_edges, C94_bin_index, C94_event_moves_refuted, C94_histogram, C94_bins_kept, C94_bins_merge_refuted, C88_cuts, C81_percentile_cut, C81_selection, C74_accuracy, C74_counts, C74_nan_refuted, C74_not_negative, C74_deficit, C74_empty, C74_elementwise, C75_energy_dispersion, C75_migration_matrix, C75_effective_area, C75_point_spread_function, C75_cone, C75_tiny_refuted, C75_rounded_ratio, C76_edges, C77_percentile_range, C74_shape, C74_lengths, C80_effective_area_bins, C80_fov_bins_unit, C80_position_angle_unit, C80_no_true_energy, C57_inside, C57_small_areas_refuted, C58_fill_exceeded_refuted, C96_simulated_flux, C96_weights, C96_same_spectrum, C96_flat_refuted, C70_point_source, C70_diffuse, C70_energy_migration, C70_energy_migration_least, C101_flux, C101_no_bump, C76_histogram_table, C76_whole_weights, C76_cancellation_refuted, C76_background, C67_calls, C67_wrong_class, C67_area, C67_rad_max, C67_searcher_refuted, C67_input_refuted, C67_negative_refuted, C42_per_energy, C42_per_energy_and_fov, C42_3d_polar, C42_lonlat_shape_refuted, C42_lonlat_transposed_refuted, C71_area_per_energy, C71_area_per_energy_and_fov, C71_area_3d_polar, C71_accepts_area_per_energy, C71_accepts_area_per_energy_and_fov, C71_accepts_area_3d_polar, C52_morph_nan_refuted, C53_weights, C53_blend, C53_affine, C53_axis_of_length_one_refuted, C55_nearest, C55_at_grid_point, C55_one_dimensional_refuted, C83_effective_area, C83_effective_area_fov, C83_effective_area_polar, C83_effective_area_lonlat, C100_flux, C100_reference, C73_effective_area, C73_effective_area_fov, C73_effective_area_polar, C73_effective_area_lonlat, C89_effective_area, C89_psf, C89_classes_1d, C89_classes_2d, C89_nearest, C89_one_axis_refuted, C72_effective_area, C72_effective_area_fov, C72_effective_area_polar, C72_effective_area_lonlat, C82_nearest, C82_psf, C82_psf_units, C82_psf_quantile, C82_psf_morph_refuted, C79_gh_raises_refuted, C79_cuts_mislabels_refuted, C78_events_to_sensitivity, C78_optimised_gh_cut, C78_optimised_cuts, C78_theta_cuts_in_range, C84_showers, C84_effective_area, C90_area_per_energy, C90_area_per_energy_and_fov, C90_area_3d_polar, C90_area_3d_lonlat, C21_signal, C22_requirements, C23_smallest, C23_solver_independent, C23_inverse_scaling, C24_exact, C24_background, C24_default, C24_few_off, C24_small_alpha_refuted, C24_large_alpha_refuted, C24_strong_source_refuted, C24_weak_source_refuted, C25_li_ma_elementwise, C95_energy, C95_fov, C95_complete_refuted, C95_flat_refuted, C30_share_unique, C30_bin, C30_length, C30_total, C30_merge, C30_outside, C30_overhang_refuted, C31_energy_and_fov, C32_polar, C32_polar_refuted, C32_lonlat_any_grid, C32_lonlat_shape_refuted, C32_lonlat_inside, C32_lonlat_swallowed_refuted, C32_lonlat_exact, C32_lonlat_error, C32_lonlat_units_refuted, C33_normalisable_refuted, C91_one_to_one, C91_onto_theta_phi, C91_onto_lon_lat, C91_rotated, C91_full_turns, C91_triangle, C91_two_sources, C91_zero, C91_degrees, C91_units, C34_diffuse, C34_point_source, C34_e_ref, C34_index_positive, C34_index_minus_one_refuted, C35_flux, C35_bump_refuted, C36_spectrum, C36_e_ref, C37_reference, C37_scaling, C37_log_parabola, C37_log_parabola_b0, C37_bump, C37_exp_gauss, C37_extreme_energies, C37_log_parabola_extreme, C37_log_parabola_b0_refuted, C38_polygon, C38_passes_through, C38_between, C38_order, C18_significance_well_defined, C19_increasing_in_n_on, C19_decreasing_in_n_off, C19_decreasing_in_alpha, C20_exposure_scaling, C20_elementwise, C20_no_broadcasting, C20_shape, C86_more_signal, C86_less_background, C86_longer, C86_more_off_regions, C86_weaker_requirements, C86_events, C86_observation_time, C86_time_weights, C86_bright_source_refuted, C87_weights, C87_relative, C87_flux, C87_few_background_refuted, C68_call, C68_unit_independent, C68_call_errors, C68_from_simulation, C68_weights, C68_weights_errors, C68_table, C68_table_unit_independent, C68_table_errors, C68_table_call_errors, C68_from_table, C68_from_table_errors, C69_per_energy, C69_energy_errors, C69_per_energy_and_fov, C69_3d_polar, C41_theta_phi, C41_lon_lat, C41_consistent, C41_center, C41_event_columns, C41_theta_column, C93_barycentric, C93_barycentric_at_grid_points, C93_thin_triangle_refuted, C93_segment, C93_segment_at_first_point, C93_segment_at_other_point_refuted, C93_estimate, C93_estimate_at_grid_points
