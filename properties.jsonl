{"id": "C01", "title": "Bin index is the bin that contains the value", "statement": "calculate_bin_indices(data, bins) on non-decreasing bins returns for every entry x the index k with bins[k] <= x < bins[k+1] (and valid=True) whenever such a bin exists; UNDERFLOW_INDEX (and valid=False) exactly when x < bins[0]; OVERFLOW_INDEX (valid=False) exactly when x >= bins[-1] or x is NaN. Non-increasing bins are handled symmetrically; non-monotonic bins raise ValueError. The output has the length of data.", "quantifier": "every data array (any length, including NaN and infinities) and every edge array", "why_tests_cant": "the claim ranges over all real values and all edge arrays, including repeated edges and infinite edges; tests sample a handful", "anchors": ["pyirf/binning.py:calculate_bin_indices", "pyirf/binning.py:UNDERFLOW_INDEX", "pyirf/binning.py:OVERFLOW_INDEX"]}
{"id": "C02", "title": "Overflow bins make every value binnable", "statement": "If bins start at -inf and end at +inf (or were extended by add_overflow_bins(positive=False)), calculate_bin_indices marks an entry valid, with an index below len(bins)-1, exactly when the value is neither +inf nor NaN; those two get OVERFLOW_INDEX and valid=False. (The docstring's 'always' is false for exactly these two values.)", "quantifier": "every data array and every monotone edge array with infinite outer edges", "why_tests_cant": "quantifies over all values; the exceptional values (+inf, NaN) are exactly those a test does not draw", "anchors": ["pyirf/binning.py:calculate_bin_indices", "pyirf/binning.py:add_overflow_bins"]}
{"id": "C03", "title": "Bin indices do not depend on the unit in which bins are expressed", "statement": "If data carries a unit then expressing the bins in any other unit of the same dimension gives the same indices; bins of an incompatible dimension raise UnitConversionError; bins without unit raise TypeError.", "quantifier": "every data array, edge array and pair of units with positive scale", "why_tests_cant": "all unit pairs and all values; rounding of unit conversion is outside the model", "anchors": ["pyirf/binning.py:calculate_bin_indices"]}
{"id": "C04", "title": "Histogram conserves events", "statement": "create_histogram_table: column n has len(bins)-1 entries, entry i is the number of events with bins[i] <= x < bins[i+1] (last bin closed), and the sum of n is the number of events inside [bins[0], bins[-1]]; n_weighted is the same with weights; without a weight column n_weighted equals n.", "quantifier": "every event list and every increasing edge array", "why_tests_cant": "conservation is a sum over arbitrary many events and bins", "anchors": ["pyirf/binning.py:create_histogram_table"]}
{"id": "C05", "title": "Per-particle histograms decompose the total", "statement": "If events have a particle_type column and no label is another label plus '_weighted' (nor 'weighted' itself), then in every bin the sum over particle types of n_<type> equals n, and of n_<type>_weighted equals n_weighted; each n_<type> counts exactly the events of that type; the table has one pair of columns per distinct type present and no others, none if there are no events; without weights the weighted columns equal the counts. With colliding labels a column is overwritten (defect, shown separately).", "quantifier": "every event list, every assignment of particle types, every edge array", "why_tests_cant": "the decomposition is over an arbitrary set of labels; labels that collide with the fixed column names are never tested", "anchors": ["pyirf/binning.py:create_histogram_table"]}
{"id": "C06", "title": "Histograms are additive and order independent", "statement": "Histogramming the concatenation of two event lists gives the bin-wise sum of their histograms (n and n_weighted), and reordering the events does not change n, n_weighted or any per-particle column.", "quantifier": "every pair of event lists, every permutation, every edge array", "why_tests_cant": "quantifies over all permutations and all splits of a data set", "anchors": ["pyirf/binning.py:create_histogram_table"]}
{"id": "C07", "title": "Histogram and bin indices agree", "statement": "For increasing bins, entry i of column n equals the number of events to which calculate_bin_indices assigns index i, except that events exactly on the last edge are counted in the last bin by the histogram and reported as overflow by the index function.", "quantifier": "every event list and edge array", "why_tests_cant": "two independent numpy code paths must agree on every value including edges", "anchors": ["pyirf/binning.py:create_histogram_table", "pyirf/binning.py:calculate_bin_indices"]}
{"id": "C08", "title": "add_overflow_bins covers the axis and is idempotent", "statement": "add_overflow_bins keeps the given edges, in order, as a contiguous block, adds at most one edge on each side, the result starts at or below 0 (positive) / at -inf and ends at +inf, monotone input stays monotone, and applying it twice is the same as once.", "quantifier": "every non-empty edge array, both values of positive, any unit", "why_tests_cant": "all edge arrays incl. ones that already have infinite or zero edges", "anchors": ["pyirf/binning.py:add_overflow_bins"]}
{"id": "C09", "title": "split_bin_lo_hi / join_bin_lo_hi round trip", "statement": "join(split(edges)) = edges for every edge array of at least two edges (for any values for which allclose(x,x) holds, i.e. no NaN); join raises ValueError exactly if some lo[i+1] differs from hi[i] by more than 1e-8+1e-5|hi[i]|; when join succeeds the result has len(lo)+1 edges, its lower edges are lo and the split of it returns hi up to that tolerance, with the last hi exact.", "quantifier": "every edge array and every pair lo/hi, any leading dimensions", "why_tests_cant": "round trip over all arrays; the tolerance boundary cannot be sampled", "anchors": ["pyirf/binning.py:split_bin_lo_hi", "pyirf/binning.py:join_bin_lo_hi"]}
{"id": "C10", "title": "create_bins_per_decade spacing and end points", "statement": "The first edge is e_min, consecutive edges have ratio exactly 10^(1/n), every edge lies in [e_min, e_max*10^(1e-4/n)), one more step would leave that range (no missing bin), edges are strictly increasing and the result carries the unit of e_min; if e_max = e_min*10^(k/n) the result has exactly k+1 edges and ends at e_max.", "quantifier": "every 0 < e_min <= e_max and every n >= 1 (exact arithmetic)", "why_tests_cant": "range over all real e_min, e_max; arange length logic at boundaries", "anchors": ["pyirf/binning.py:create_bins_per_decade"]}
{"id": "C11", "title": "Resampling a histogram conserves the content inside the old range", "statement": "resample_histogram1d returns len(new_edges)-1 values which are the differences, at the new edges, of ONE cumulative content: the interpolant of the cumulative fractions inside the old range (it equals the content below each old edge), 0 below, the total above. Hence a non-empty histogram's total is conserved if the new edges cover the old range, the values sum to the content between the outermost new edges, new bins outside the old range get 0 and resampling onto the same edges returns the data. Exceptions (defects, shown separately): an all-zero histogram gains a phantom count 1 beyond its last edge, non-negative data may give negative values, integer data is rejected.", "quantifier": "every histogram, old and new edge array (finite or with infinite outer bins), for every interpolant that passes through the knots", "why_tests_cant": "holds for all histograms only by a telescoping argument; the all-zero case with a wider axis is not tested", "anchors": ["pyirf/binning.py:resample_histogram1d"]}
{"id": "C12", "title": "Percentile cut table: one documented value per bin", "statement": "For finite numbers and at least one event inside the bins, calculate_percentile_cut (no smoothing) returns one row per bin with low/high edges, n_events = number of events whose bin value falls in that bin, and cut = the requested percentile of the values in the bin clipped to [min_value, max_value], or fill_value when n_events < min_events. Events outside the bins are ignored. A percentile outside of [0, 100] raises ValueError if some bin has at least min_events events. For a column of integers the same value truncated towards zero is stored, and if no event at all is inside the bins the call fails with IndexError (deviations from the documentation, shown separately).", "quantifier": "every event sample, bin array, percentile (scalar or list), min/max/fill value, min_events", "why_tests_cant": "per-bin semantics for arbitrary grouping; group_by/regroup logic over all samples", "anchors": ["pyirf/cuts.py:calculate_percentile_cut"]}
{"id": "C13", "title": "Percentile cuts keep the requested fraction", "statement": "In every bin with enough events and no clipping, at least p percent (up to one event, i.e. more than p/100*(n-1) events) of the events satisfy value <= cut and at least (100-p) percent (same sense) satisfy value >= cut; larger percentile gives a larger or equal cut; the cut lies between the smallest and largest value of the bin.", "quantifier": "every sample and every percentile in [0,100]", "why_tests_cant": "order statistics with interpolation over all samples", "anchors": ["pyirf/cuts.py:calculate_percentile_cut"]}
{"id": "C14", "title": "evaluate_binned_cut applies the cut of the containing bin", "statement": "evaluate_binned_cut returns a mask of len(values); entry i is op(values[i], cut[k]) if bin_values[i] lies in bin k of the table - bin k reaches from low[k] to low[k+1], so for a table with gaps further than high[k] (defect, shown separately) - and False if it lies outside all bins (under/overflow/NaN). It equals evaluate_binned_cut_by_index applied to the indices/valid mask from calculate_bin_indices. The result does not depend on the (convertible) units of bin_values and edges. cut_table that is not a QTable raises ValueError. evaluate_binned_cut_by_index follows Python's indexing: negative indices count from the end, an index outside raises IndexError if its row is valid.", "quantifier": "every values, bin_values, contiguous cut table, and op", "why_tests_cant": "all events x all tables x all comparison operators", "anchors": ["pyirf/cuts.py:evaluate_binned_cut", "pyirf/cuts.py:evaluate_binned_cut_by_index"]}
{"id": "C15", "title": "Cuts are local to their bin", "statement": "The cut computed for a bin depends only on the events in that bin (no smoothing): two event samples that agree on that bin give the same row; likewise permuting events leaves the cut table unchanged.", "quantifier": "every pair of samples, every bin", "why_tests_cant": "relational property over pairs of runs", "anchors": ["pyirf/cuts.py:calculate_percentile_cut"]}
{"id": "C16", "title": "compare_irf_cuts is true exactly for identical tables", "statement": "compare_irf_cuts compares each table with its successor in the list: the result is True iff each agrees with its successor, where two tables agree when they have the same columns and the same numbers row by row, none of them NaN; False if some pair with matching columns and row counts does not agree; AttributeError if a pair with different columns or row counts comes first. For NaN-free tables of the same shape this is equality of all tables, independent of the list order. Defects, shown separately: NaN never agrees with NaN, units are ignored, a one-row table agrees with any number of equal rows.", "quantifier": "every non-empty list of tables", "why_tests_cant": "equivalence over arbitrary lists; transitivity of adjacent comparisons; NaN rows", "anchors": ["pyirf/cuts.py:compare_irf_cuts"]}
{"id": "C17", "title": "Smoothing acts along the energy-bin axis", "statement": "With smoothing sigma and one percentile, the cut of each bin is the Gaussian-weighted mean (truncated at 4 sigma, reflected at the ends) of the unsmoothed cuts of the neighbouring bins, so it stays between the smallest and largest of them. Bins with fill_value take part. For a list of percentiles the same mean runs over the percentiles of one bin instead of over the bins (defects, shown separately).", "quantifier": "every sample, list of percentiles and smoothing width", "why_tests_cant": "needs all shapes of the cut array", "anchors": ["pyirf/cuts.py:calculate_percentile_cut"]}
{"id": "C18", "title": "Li & Ma significance is a well-defined non-negative number", "statement": "In exact arithmetic (C74: double precision, where NaN occurs without an excess) li_ma_significance(n_on, n_off, alpha) for n_on, n_off >= 0, alpha > 0 never returns NaN or a negative value; it is 0 iff n_on <= alpha*n_off; otherwise it equals sqrt(2)*sqrt(n_on ln((1+alpha)/alpha * n_on/(n_on+n_off)) + n_off ln((1+alpha) n_off/(n_on+n_off))) (with 0 ln 0 = 0) and this is strictly positive.", "quantifier": "all non-negative counts and all alpha > 0, including zero counts", "why_tests_cant": "positivity of the likelihood ratio is an inequality over a continuum", "anchors": ["pyirf/statistics.py:li_ma_significance"]}
{"id": "C19", "title": "Li & Ma significance is monotone", "statement": "For fixed n_off, alpha the significance is non-decreasing in n_on (strictly above alpha*n_off); for fixed n_on, alpha it is non-increasing in n_off.", "quantifier": "all non-negative counts, all alpha > 0", "why_tests_cant": "monotonicity over a continuum (needs calculus)", "anchors": ["pyirf/statistics.py:li_ma_significance"]}
{"id": "C20", "title": "Li & Ma scales like sqrt of exposure and acts elementwise", "statement": "li_ma(c*n_on, c*n_off, alpha) = sqrt(c)*li_ma(n_on,n_off,alpha) for c >= 0; on arrays of equal length the result is the elementwise significance and has that length; a scalar n_on gives a scalar, arguments of different lengths are errors (no broadcasting; a scalar counts as length 1).", "quantifier": "all counts, c >= 0, all array lengths", "why_tests_cant": "algebraic law over all reals, all array lengths", "anchors": ["pyirf/statistics.py:li_ma_significance"]}
{"id": "C21", "title": "relative_sensitivity input contract", "statement": "relative_sensitivity returns NaN when n_on or n_off is NaN, raises ValueError when n_on or n_off is negative, returns inf when there is no signal (n_on - alpha*n_off <= 0), never returns a negative number.", "quantifier": "all n_on, n_off, alpha, thresholds and all solver behaviours", "why_tests_cant": "all inputs incl. special values and solver failures", "anchors": ["pyirf/sensitivity.py:relative_sensitivity", "pyirf/sensitivity.py:_relative_sensitivity"]}
{"id": "C22", "title": "relative_sensitivity satisfies all detection requirements", "statement": "When relative_sensitivity returns a finite r, then scaling the signal by r gives at least min_signal_events signal events, at least min_excess_over_background*alpha*n_off excess, and a significance (of the on counts actually required) of at least min_significance up to solver tolerance.", "quantifier": "all inputs and all root finders meeting the brentq contract", "why_tests_cant": "requirement over a continuum, depends on monotonicity of Li&Ma", "anchors": ["pyirf/sensitivity.py:relative_sensitivity"]}
{"id": "C23", "title": "relative_sensitivity is the smallest sufficient flux and scales inversely with the signal", "statement": "No r' < r satisfies all three requirements (minimality, up to solver tolerance); the r found does not depend on the solver beyond its tolerance; multiplying the signal by c divides the result by c.", "quantifier": "all inputs, all solvers meeting the contract", "why_tests_cant": "uniqueness and minimality over a continuum", "anchors": ["pyirf/sensitivity.py:relative_sensitivity"]}
{"id": "C24", "title": "relative_sensitivity always finds an answer when there is signal", "statement": "With signal (n_on > alpha*n_off), relative_sensitivity returns a finite positive value exactly when the searched bracket contains the solution: for n_off > 1 when target <= LiMa(10*target*sqrt(alpha*n_off) + alpha*n_off, n_off, alpha), for n_off <= 1 when the solution is between 1e-4 and 100 times the given flux; otherwise NaN. In particular an answer is found for 5 sigma and 0.1 <= alpha <= 1, but not for very small or large alpha, nor for very strong or weak sources without off events.", "quantifier": "all inputs with signal", "why_tests_cant": "bracket containment over a continuum", "anchors": ["pyirf/sensitivity.py:relative_sensitivity"]}
{"id": "C25", "title": "calculate_sensitivity table", "statement": "calculate_sensitivity raises ValueError when signal and background tables have different edges; otherwise, if no background column has the name of an output column, it returns one row per bin with the edges of the signal table, n_signal and n_signal_weighted = signal counts times relative_sensitivity, the background columns unchanged, significance and relative_sensitivity, such that row i depends only on row i of the input tables and relative_sensitivity equals relative_sensitivity(n_signal_weighted + alpha*n_bkg_weighted, n_bkg_weighted). A background column with the name of an output column overwrites it (defect, shown separately).", "quantifier": "all pairs of histogram tables", "why_tests_cant": "row-wise locality over all tables", "anchors": ["pyirf/sensitivity.py:calculate_sensitivity"]}
{"id": "C26", "title": "estimate_background ring normalisation", "statement": "estimate_background counts exactly the weighted background events with background_radius min <= angle < max, scales by (1/alpha)*(theta cut solid angle)/(ring solid angle): alpha*n_weighted is independent of alpha, is linear in the event weights, and n is scaled consistently.", "quantifier": "all event samples, radii, alpha, theta cut tables", "why_tests_cant": "ratios over all samples and radii", "anchors": ["pyirf/sensitivity.py:estimate_background"]}
{"id": "C27", "title": "optimize_gh_cut picks the best efficiency in every bin", "statement": "In every energy bin the reported sensitivity row is the row of the scanned efficiency with the smallest relative sensitivity (first on ties, NaN ignored; index 0 if every value is NaN, and also if the first is NaN and none is finite - np.nanargmin treats NaN as +inf), and the returned gh cut in that bin is the cut computed for that efficiency. The function returns on every regular input.", "quantifier": "all event samples, efficiency grids, bins", "why_tests_cant": "argmin over an arbitrary scan and arbitrary NaN patterns", "anchors": ["pyirf/cut_optimization.py:optimize_gh_cut"]}
{"id": "C28", "title": "optimize_cuts picks the best combination in every bin", "statement": "optimize_cuts scans the full product of gh efficiencies, theta efficiencies and multiplicity cuts; in every bin the returned cut values all belong to the same combination, which has the smallest (NaN-ignoring, first on ties; same exception as C27 when nothing is finite) relative sensitivity among all combinations. The function returns on every regular input. The efficiencies are arrays: with a Python list of theta efficiencies (as the project's own test passes) the entries are used as percentages - the result is that of a hundredth of every efficiency, while the given efficiencies are reported - instead of an error.", "quantifier": "all scans and bins", "why_tests_cant": "product enumeration and argmin over arbitrary grids", "anchors": ["pyirf/cut_optimization.py:optimize_cuts"]}
{"id": "C29", "title": "Optimised per-bin cuts reproduce the reported sensitivity", "statement": "Because the pipeline is local to reco-energy bins, applying the returned per-bin cuts to the events yields in each bin the same selected signal and background counts and thus the reported sensitivity.", "quantifier": "all samples, bins, scans", "why_tests_cant": "relational property between the optimiser and the later application of cuts", "anchors": ["pyirf/cut_optimization.py:optimize_gh_cut", "pyirf/cut_optimization.py:optimize_cuts", "pyirf/cuts.py:evaluate_binned_cut"]}
{"id": "C30", "title": "Simulated showers per energy bin", "statement": "SimulatedEventsInfo.calculate_n_showers_per_energy(bins) returns, for each bin that does not stick out of [energy_min, energy_max] on both sides, n_showers times the fraction of the power-law spectrum on [energy_min, energy_max] inside the bin, a value in [0, n_showers]; for such bins covering the simulated range the values sum to n_showers; merging neighbouring bins adds the counts; bins outside the range get 0. A bin sticking out on both sides gets MORE than n_showers (defect, shown separately).", "quantifier": "all simulation parameters with spectral index < -1, all increasing bins (incl. 0 and inf edges)", "why_tests_cant": "integral identities over all bin/range overlaps", "anchors": ["pyirf/simulations.py:SimulatedEventsInfo.calculate_n_showers_per_energy"]}
{"id": "C31", "title": "Simulated showers per field-of-view bin", "statement": "calculate_n_showers_per_fov returns n_showers times the fraction of the viewcone solid angle inside each offset bin, sums to n_showers for bins covering the viewcone, raises ValueError for point-like simulations; calculate_n_showers_per_energy_and_fov is the outer product divided by n_showers.", "quantifier": "all viewcones and bins", "why_tests_cant": "all overlap configurations of bins with the viewcone", "anchors": ["pyirf/simulations.py:SimulatedEventsInfo.calculate_n_showers_per_fov", "pyirf/simulations.py:SimulatedEventsInfo.calculate_n_showers_per_energy_and_fov"]}
{"id": "C32", "title": "Simulated showers on 3d grids", "statement": "calculate_n_showers_3d_polar splits the (energy, offset) counts equally over the position angle bins, which is the share of each bin for equal bins around the circle (and not otherwise). calculate_n_showers_3d_lonlat returns axes (energy, lat, lon); each entry is the covered part of the bin times density x rectangle, where the covered part is 0 (1) when all grid corners are outside (inside) the viewcone, near to the border the share of subpixel points inside the viewcone, and elsewhere decided by the bin centre. Values are between 0 and the count of the full rectangle. The docstring's axis order (energy, lon, lat), conservation of showers for bins containing the viewcone, independence of the unit of the edges, and returning an answer at all when no bin is near to the border fail (defects, shown separately).", "quantifier": "all bins and viewcones", "why_tests_cant": "all grid shapes (non square) and bins larger than the viewcone", "anchors": ["pyirf/simulations.py:SimulatedEventsInfo.calculate_n_showers_3d_polar", "pyirf/simulations.py:SimulatedEventsInfo.calculate_n_showers_3d_lonlat", "pyirf/simulations.py:_fov_lonlat_grid_overlap"]}
{"id": "C33", "title": "SimulatedEventsInfo constructor validation", "statement": "SimulatedEventsInfo rejects (ValueError) exactly the spectral indices > -1 and stores every argument unchanged otherwise; index -1 is accepted although its spectrum cannot be normalised by the code (all bins in range become NaN).", "quantifier": "all parameter values", "why_tests_cant": "boundary -1 exactly", "anchors": ["pyirf/simulations.py:SimulatedEventsInfo.__init__"]}
{"id": "C34", "title": "PowerLaw.from_simulation reproduces the number of showers", "statement": "The flux built by PowerLaw.from_simulation, integrated over the simulated energy range and multiplied by the impact disk area, the observation time and (viewcone_min < viewcone_max) the viewcone solid angle, is exactly n_showers. The spectrum is diffuse (1/sr) iff viewcone_min < viewcone_max, a point-source one otherwise; it does not depend on e_ref. Index > 0 raises ValueError, index -1 gives a NaN normalisation.", "quantifier": "all simulation parameters with index != -1", "why_tests_cant": "an integral identity over a continuum", "anchors": ["pyirf/spectral.py:PowerLaw.from_simulation"]}
{"id": "C35", "title": "Cone integration", "statement": "PowerLaw.integrate_cone(inner, outer) multiplies the flux by the solid angle of the ring, is additive over adjacent rings, keeps the index and e_ref, returns a point-source spectrum and raises ValueError for non-diffuse spectra; called on a PowerLawWithExponentialGaussian (which inherits it) it silently drops the bump.", "quantifier": "all angles 0 <= a <= b <= c <= pi", "why_tests_cant": "additivity over a continuum", "anchors": ["pyirf/spectral.py:PowerLaw.integrate_cone"]}
{"id": "C36", "title": "Event weights", "statement": "calculate_event_weights(E, target, simulated) = target(E)/simulated(E) per event, raises UnitConversionError when the units differ, is positive for positive spectra, satisfies w(A,B)*w(B,C)=w(A,C), w(A,A)=1, and is invariant under the choice of e_ref for power laws describing the same flux.", "quantifier": "all energies and spectra", "why_tests_cant": "algebraic laws over all spectra", "anchors": ["pyirf/spectral.py:calculate_event_weights"]}
{"id": "C37", "title": "Spectral shapes", "statement": "PowerLaw(e_ref)=normalization; PowerLaw rejects positive indices; scaling law flux(c E)=c^index flux(E); LogParabola with b=0 is a power law; PowerLawWithExponentialGaussian is the power law times 1 + f (exp(gauss(log10(E/e_ref))) - 1), rejects positive indices, is >= its power law for f >= 0 and equals it for f = 0; all positive for positive normalisation and energies. At energy 0 (infinity) a falling power law, with or without bump, is infinite (0) and a log-parabola with b < 0 is 0; with b = 0 the log-parabola is NaN there, unlike the power law.", "quantifier": "all parameters and energies", "why_tests_cant": "functional identities over a continuum", "anchors": ["pyirf/spectral.py:PowerLaw", "pyirf/spectral.py:LogParabola", "pyirf/spectral.py:PowerLawWithExponentialGaussian"]}
{"id": "C38", "title": "Table interpolation spectrum", "statement": "TableInterpolationSpectrum passes through every tabulated point, is between neighbouring values inside the table, extrapolates the outermost segments linearly (in log or linear space as configured), and does not depend on the order of the rows.", "quantifier": "all strictly increasing tables, all energies", "why_tests_cant": "all tables", "anchors": ["pyirf/spectral.py:TableInterpolationSpectrum"]}
{"id": "C39", "title": "Solid angles", "statement": "cone_solid_angle is 0 at 0, 4pi at pi, strictly increasing on [0,pi], and differences are additive; rectangle_solid_angle is additive under splitting in lon and in lat, non-negative for ordered edges, and the whole sphere is 4pi.", "quantifier": "all angles", "why_tests_cant": "trigonometric identities over a continuum", "anchors": ["pyirf/utils.py:cone_solid_angle", "pyirf/utils.py:rectangle_solid_angle"]}
{"id": "C40", "title": "check_table / check_histograms contracts", "statement": "check_table raises MissingColumns listing exactly the missing columns iff a required column is missing; otherwise the first entry of required_units whose column is missing, has no unit, or has no convertible unit decides: MissingColumns for that column, TypeError (undocumented; shown separately), WrongColumnUnit with the column and both units; else it passes. check_histograms raises ValueError iff the edge columns differ. check_histograms also accepts columns without unit: they count as dimensionless, except that 0 and infinities agree with any unit.", "quantifier": "all tables and requirements", "why_tests_cant": "decision logic over all tables", "anchors": ["pyirf/utils.py:check_table", "pyirf/sensitivity.py:check_histograms"]}
{"id": "C41", "title": "Field-of-view coordinates", "statement": "gadf_fov_coords_lon_lat returns minus the offset-frame longitude; gadf_fov_coords_theta_phi returns theta in [0,180 deg] and phi in [0,360 deg); angular_separation is symmetric, in [0,pi] and 0 for equal positions.", "quantifier": "all positions", "why_tests_cant": "all sky positions incl. wrap-around", "anchors": ["pyirf/coordinates.py:gadf_fov_coords_lon_lat", "pyirf/coordinates.py:gadf_fov_coords_theta_phi", "pyirf/utils.py:angular_separation"]}
{"id": "C42", "title": "Effective area bounds and conservation", "statement": "effective_area(selected, simulated, area) = area * selected / simulated in every bin: within [0, area] when 0 <= selected <= simulated, NaN in bins with neither showers nor events, inf in bins with events but no showers; the shape is the bin shape. effective_area_per_energy, _per_energy_and_fov and _3d_polar use exactly the number of selected events in the bin and the number of showers simulated in the same bin (n_showers times the shares of C30-C32). Exception: effective_area_3d_lonlat divides by the showers of the transposed field-of-view bin, and raises ValueError when the numbers of lon and lat bins differ (both > 1).", "quantifier": "all counts, areas, bins", "why_tests_cant": "all counts including bins without simulated showers (0/0, k/0)", "anchors": ["pyirf/irf/effective_area.py:effective_area", "pyirf/irf/effective_area.py:effective_area_per_energy", "pyirf/irf/effective_area.py:effective_area_per_energy_and_fov"]}
{"id": "C43", "title": "Energy dispersion is normalised", "statement": "energy_dispersion integrates to 1 over migration in every (true energy, fov) bin with at least one event whose migration lies inside the migration bins, and is identically 0 in all others; never NaN, never negative; each value is the fraction of those events divided by the bin width; shape (n_energy, n_migra, n_fov).", "quantifier": "all event samples and bins", "why_tests_cant": "conditional normalisation over every bin pattern incl. empty ones", "anchors": ["pyirf/irf/energy_dispersion.py:energy_dispersion", "pyirf/irf/energy_dispersion.py:_normalize_hist"]}
{"id": "C44", "title": "Energy migration matrix rows are probability distributions", "statement": "energy_migration_matrix: each (true energy, fov) row sums to 1 over reco energy if it has an event inside the reco bins and is all 0 otherwise, every entry in [0,1]. energy_dispersion_to_migration: a row with nonzero probability sums to 1 when the reco range covers the migration range, puts exactly the migration probability into reco bins aligned with migration bins and 0 outside; exception: a row without probability gets a phantom probability of 1 when the reco range reaches beyond the migration range.", "quantifier": "all samples, bins", "why_tests_cant": "as C43", "anchors": ["pyirf/irf/energy_dispersion.py:energy_migration_matrix", "pyirf/irf/energy_dispersion.py:energy_dispersion_to_migration"]}
{"id": "C45", "title": "PSF is normalised over solid angle", "statement": "psf_table integrates to 1 over solid angle in every (energy, fov) bin with at least one event inside the source offset bins and is 0 elsewhere; never NaN, never negative; each value is the fraction of those events divided by the solid angle of the ring; shape (n_energy, n_fov, n_source_offset).", "quantifier": "all event samples, all bins", "why_tests_cant": "as C43", "anchors": ["pyirf/irf/psf.py:psf_table", "pyirf/irf/psf.py:_normalize_psf"]}
{"id": "C46", "title": "Background rate integrates back to the event count", "statement": "background_2d: in every bin rate x energy width x observation time x solid angle equals the summed weight of the events in the bin; integrated over all bins it equals the weight of the events inside the binning.", "quantifier": "all samples, bins, t_obs > 0", "why_tests_cant": "conservation over all samples", "anchors": ["pyirf/irf/background.py:background_2d"]}
{"id": "C47", "title": "3d background integrates back to the event count", "statement": "background_3d_lonlat: the same conservation law per bin and in total for uniform longitude bins when there are as many longitude as latitude bins or a single longitude bin. Exceptions: for non-uniform longitude bins rates are wrong by a ratio of longitude widths, for different numbers of bins a ValueError is raised (or, with one latitude bin, an array of the wrong shape is returned).", "quantifier": "all samples, all lon/lat bins (also different numbers of bins)", "why_tests_cant": "tests only use square uniform grids", "anchors": ["pyirf/irf/background.py:background_3d_lonlat"]}
{"id": "C48", "title": "Estimator dispatch", "statement": "Calling an estimator with a target inside the convex hull (range in 1D) of the grid points uses the interpolator without a warning; outside, the extrapolator with a warning, or ValueError if none was given. The constructor raises TypeError for grid points that are not an array of floats, for templates or edges that are not arrays and for classes that are no interpolator/extrapolator, ValueError for fewer than n_dims + 1 points and for lengths that do not match; a target that is not an array raises TypeError, a wrong shape ValueError; in one dimension the order of the grid points does not matter.", "quantifier": "all targets, grids, class configurations", "why_tests_cant": "decision logic over all configurations", "anchors": ["pyirf/interpolation/component_estimators.py:BaseComponentEstimator", "pyirf/interpolation/base_interpolators.py", "pyirf/interpolation/base_extrapolators.py"]}
{"id": "C49", "title": "Linear interpolation weights in 1D", "statement": "The weights used in 1D moment-morph interpolation/extrapolation are (1-t, t) of the position between two neighbouring grid points: they sum to 1, reproduce the target, are (1,0)/(0,1) at the grid points and non-negative exactly between them; two equal points raise LinAlgError. Interpolation uses the two neighbours of the target for every min(grid) <= target < max(grid), independent of the order in which the (distinct) grid points are given. A target equal to max(grid), although inside the grid, raises IndexError.", "quantifier": "all 1D grids and targets", "why_tests_cant": "continuum of targets incl. the end point", "anchors": ["pyirf/interpolation/moment_morph_interpolator.py:linesegment_1D_interpolation_coefficients", "pyirf/interpolation/moment_morph_interpolator.py:MomentMorphInterpolator._interpolate1D"]}
{"id": "C50", "title": "Barycentric weights in 2D", "statement": "barycentric_2D_interpolation_coefficients of a proper triangle sum to 1, reproduce the target as weighted sum of vertices (and are the only such weights), are a unit vector at a vertex, non-negative iff the target is in the triangle, independent of invertible affine maps of the plane and of the order of the corners.", "quantifier": "all non-degenerate triangles and targets", "why_tests_cant": "algebraic identity over a continuum", "anchors": ["pyirf/interpolation/moment_morph_interpolator.py:barycentric_2D_interpolation_coefficients"]}
{"id": "C51", "title": "Moment morphing returns normalised templates", "statement": "moment_morph_estimation returns, for non-negative templates and every weights, per slice a histogram that integrates to 1, or is all 0 (always so if one contributing template is empty), or is NaN everywhere; NaN appears exactly if the weighted sum of the spreads of the templates is 0, never for weights >= 0. Interpolation in 1D and 2D gives non-negative results; at a grid point the normalised template itself is returned if the templates of the neighbours used are not empty; an empty neighbour makes the result 0 there. A template with negative entries whose integral is 0 gives ZeroDivisionError.", "quantifier": "all templates, weights, targets", "why_tests_cant": "continuum of templates", "anchors": ["pyirf/interpolation/moment_morph_interpolator.py:moment_morph_estimation"]}
{"id": "C52", "title": "Nearest simplex extrapolation is exact on affine data", "statement": "ParametrizedNearestSimplexExtrapolator reproduces any parameter that is an affine function of the grid coordinates, in 1D (distinct grid points) and 2D (every triangulation by proper triangles), for all targets; it extrapolates from the first two / last two grid points (1D), or from a simplex that has a nearest hull facet as a side (2D, nearest up to 1e-5 of the lengths of the facets); MomentMorphNearestSimplexExtrapolator returns per slice a non-negative density, 0 (always if a used template is empty), or NaN everywhere (only if the weighted spreads cancel).", "quantifier": "all grids, targets, affine functions", "why_tests_cant": "all reals", "anchors": ["pyirf/interpolation/nearest_simplex_extrapolator.py"]}
{"id": "C53", "title": "Visible-edges weights form a partition of unity", "statement": "ParametrizedVisibleEdgesExtrapolator blends simplex extrapolations with positive weights summing to 1, hence is exact on affine data, provided no parameter axis has length 1 (with one and several visible facets the result has the wrong shape and is not blended); with one visible edge it equals the nearest simplex extrapolator; m must be a positive integer (TypeError if not a number, else ValueError).", "quantifier": "all 2D grids and targets outside the hull", "why_tests_cant": "geometry over a continuum", "anchors": ["pyirf/interpolation/visible_edges_extrapolator.py"]}
{"id": "C54", "title": "Geometry helpers", "statement": "plumb_point_dist is the Euclidean distance of the target to the line segment up to 1e-5 of the length of the segment, and exactly if the foot of the perpendicular is not within the tolerance of an end point; point_facet_angle is the cosine of the angle under which the facet is seen; find_nearest_facet returns a hull facet of minimal distance (in the same sense), ties by the largest angle, IndexError without facets; get_bin_width gives the widths or the solid angles, ValueError for an unknown normalization.", "quantifier": "all segments, points", "why_tests_cant": "continuum", "anchors": ["pyirf/interpolation/utils.py:plumb_point_dist", "pyirf/interpolation/utils.py:find_nearest_facet", "pyirf/interpolation/utils.py:get_bin_width"]}
{"id": "C55", "title": "Nearest neighbour search returns the nearest template", "statement": "BaseNearestNeighborSearcher.interpolate returns the template of a grid point of minimal p-norm distance from the target, the first of them on ties; at a grid point exactly its template; a norm_ord that is not a positive integer is rejected with ValueError (documented: TypeError). Exception: one-dimensional params (one value per grid point) raise IndexError.", "quantifier": "all grids, targets, norms", "why_tests_cant": "continuum and all tie patterns", "anchors": ["pyirf/interpolation/nearest_neighbor_searcher.py:BaseNearestNeighborSearcher"]}
{"id": "C56", "title": "Quantile interpolation returns a normalised distribution", "statement": "For non-negative templates QuantileInterpolator returns for every slice a non-negative histogram that integrates to 1 (over width or solid angle) or is zero everywhere; it is zero if one contributing template is empty or the target is outside of the hull; the scale of the templates does not matter; ValueError if bin contents and edges disagree. Exceptions: filled templates can give an empty result, and at a grid point the template is in general not returned.", "quantifier": "all templates and targets", "why_tests_cant": "continuum", "anchors": ["pyirf/interpolation/quantile_interpolator.py"]}
{"id": "C57", "title": "EffectiveAreaEstimator round trip and thresholds", "statement": "With GridDataInterpolator inside of the hull, EffectiveAreaEstimator returns values between the smallest and the largest template value (each raised to min_effective_area first), at a grid point the template raised to min_effective_area; for any classes each result is 0 or at least min_effective_area. Exceptions: where all templates are at or below min_effective_area the result is min_effective_area and not 0 as documented; the caller's array is modified if it is in m2 and has an entry below min_effective_area.", "quantifier": "all templates, grids, targets", "why_tests_cant": "all values at the threshold; aliasing for the identity unit", "anchors": ["pyirf/interpolation/component_estimators.py:EffectiveAreaEstimator"]}
{"id": "C58", "title": "RadMaxEstimator fill-value rules", "statement": "With a fill value f > 0 and an interpolator that is no nearest neighbour search, RadMaxEstimator returns f where a neighbouring grid point (one dimension, grid points in increasing order) or at least two nodes of the simplex (two dimensions) have an entry >= f, where exactly one node has one the smaller of the two other entries, else the estimate limited to [0, f]; all results are in [0, f]. Without fill value the estimate, not below 0; more than two dimensions raise ValueError. Exceptions: f = 0 is ignored; at the largest grid point in one dimension the call raises IndexError; with grid points in another order the wrong neighbours are used; outside of a two-dimensional grid a target of the documented shape (1, 2) raises ValueError; nearest neighbour search combined with another extrapolator exceeds the fill value.", "quantifier": "all templates, grid orders, targets", "why_tests_cant": "all fill patterns and grid orders", "anchors": ["pyirf/interpolation/component_estimators.py:RadMaxEstimator"]}
{"id": "C59", "title": "PDF estimators preserve layout and arguments", "statement": "EnergyDispersionEstimator/PSFTableEstimator return arrays with the axes in the input order: the histogram of the result along `axis` at each index is the interpolation of the histograms of the grid points along `axis` at this index; PSFTableEstimator uses the normalisation over solid angle unless the caller gives another one, and leaves other keyword arguments alone. Exceptions: the caller's kwargs dict is modified (used again it changes the normalisation of an EnergyDispersionEstimator); nearest neighbour searchers raise TypeError in PSFTableEstimator; with a positive axis they return the axes in another order.", "quantifier": "all configurations", "why_tests_cant": "all classes and call histories (reuse of the kwargs dict)", "anchors": ["pyirf/interpolation/component_estimators.py:EnergyDispersionEstimator", "pyirf/interpolation/component_estimators.py:PSFTableEstimator"]}
{"id": "C60", "title": "Angular resolution benchmark", "statement": "angular_resolution returns for each energy bin n_events, the number of events in the bin, and for each requested quantile the linearly interpolated quantile of theta over these events (NaN values ignored; NaN without values), in a column named after the percentage rounded to an integer; the values increase with the quantile; an empty table gives NaN and 0 events. Exceptions: two quantiles rounding to the same percentage (possible up to a distance of 1 %) share one column that holds the last one; events of which none is in a bin raise IndexError; a numpy array of quantiles raises TypeError.", "quantifier": "all samples, bins, quantile lists", "why_tests_cant": "all lists of quantiles incl. ones rounding to the same percentage", "anchors": ["pyirf/benchmarks/angular_resolution.py:angular_resolution"]}
{"id": "C61", "title": "Energy bias and resolution benchmark", "statement": "energy_bias_resolution returns for each bin the number of events, the median and half of the distance of the quantiles Phi(-1), Phi(1) of reco/true - 1 (any common unit; or the given functions of these values), NaN for bins without events and for an empty table; the resolution is >= 0 and at most half the range of the errors, the bias lies between the extreme errors; equal errors e give (e, 0); a common factor c > 0 on the reconstructed energies (binning in true energy) multiplies 1 + bias and resolution by c. energy_resolution_absolute_68 is the quantile of the absolute errors. Exceptions: events of which none is in a bin raise IndexError; columns without units raise AttributeError.", "quantifier": "all samples, bins", "why_tests_cant": "continuum", "anchors": ["pyirf/benchmarks/energy_bias_resolution.py:energy_bias_resolution", "pyirf/benchmarks/energy_bias_resolution.py:inter_quantile_distance", "pyirf/benchmarks/energy_bias_resolution.py:energy_resolution_absolute_68"]}
{"id": "C62", "title": "GADF HDUs encode edges and data without loss", "statement": "create_aeff2d_hdu / create_energy_dispersion_hdu / create_psf_table_hdu / create_background_2d_hdu / create_background_3d_hdu / create_rad_max_hdu return a table with exactly the documented columns in the documented order: each axis is split into LO/HI columns of one row, in TeV or deg (migration: its own unit), that join_bin_lo_hi turns back into the edges; the data column has the reversed shape, entry [0, reversed index] is the converted number, so the bytes are in FITS order (first axis fastest); the CREF keyword of the data column lists the axes in this order. An HDU is returned exactly if the arguments have the documented units and alignment is ALTAZ or RADEC. Exceptions: the shape of the data is not compared with the edges; a wrong unit of the background raises UnitConversionError (no unit: AttributeError) where the other functions raise UnitsError and TypeError.", "quantifier": "all arrays and axes", "why_tests_cant": "round trip over all shapes", "anchors": ["pyirf/io/gadf.py"]}
{"id": "C63", "title": "GADF headers", "statement": "Whatever functions are called with whatever arguments in whatever order, the module-level default header is not modified and the result of a call does not depend on earlier calls. Every HDU has CREATOR, HDUDOC, HDUVERS, HDUCLASS, HDUCLAS1-4 and DATE with the documented values (HDUCLAS3 following point_like for effective area and energy dispersion) unless the user's header cards have this keyword; the last card of the user with a keyword (in any case) wins; a non-empty extname gives EXTNAME in upper case and is not overridden. Exceptions: create_rad_max_hdu ignores point_like (always POINT-LIKE); create_psf_table_hdu has no point_like, the argument becomes a header card. Cards describing the table itself (XTENSION, NAXIS, TFIELDS, ...) are never taken from the user.", "quantifier": "all sequences of writer calls and header cards", "why_tests_cant": "history property (shared mutable default)", "anchors": ["pyirf/io/gadf.py"]}
{"id": "C64", "title": "Event display import", "statement": "read_eventdisplay_fits returns the events table with the same columns, contents and order, in which exactly the twelve Eventdisplay names are replaced by the pyirf names (KeyError if one is missing or a new name is already in use), and simulation information with energies in TeV, impact in m and angles taken from the first row of the run header; with use_histogram=True the number of showers is the integer part of the sum of the histogram (the sum itself if it is an integer), otherwise number of different (observation, pointing) combinations * num_use * num_showers; a spectral index above -1 raises ValueError. Exceptions: a file without events raises IndexError even when the histogram is to be used; no row in the run header: IndexError.", "quantifier": "all input tables", "why_tests_cant": "all table contents", "anchors": ["pyirf/io/eventdisplay.py:read_eventdisplay_fits"]}
{"id": "C65", "title": "Gammapy conversion keeps the axis order", "statement": "create_effective_area_table_2d, create_psf_3d and create_energy_dispersion_2d return the gammapy object with the axes energy_true, offset / energy_true, offset, rad / energy_true, migra, offset, each with the edges and the unit of the argument of this meaning, such that the number for given bins of the named axes is the entry of the input for them, in the same unit; the documented units are required; data of another shape and edges that are not strictly monotonic raise ValueError. Exception: the result is never marked as point-like.", "quantifier": "all arrays and edges", "why_tests_cant": "layout over all shapes", "anchors": ["pyirf/gammapy.py"]}
{"id": "C66", "title": "Bias and resolution from the energy dispersion", "statement": "energy_bias_resolution_from_energy_dispersion returns NaN for columns without content and otherwise bias = median - 1 and resolution = half of the distance of two quantiles >= 0, where a quantile is the largest migration (up to the last edge) below which at most this content lies, so that the content below it is exactly the quantile if the content of the first bin is at most q and the total at least q. Exception: if the first bin has more content than q the quantile is its upper edge, so a column with all events in the first bin has the median at the edge and resolution 0. An array whose second axis does not have one entry per migration bin raises ValueError.", "quantifier": "all energy dispersion matrices with non-negative entries and all increasing migration edges", "why_tests_cant": "continuum of matrices; all positions of the content", "anchors": ["pyirf/benchmarks/energy_bias_resolution.py:energy_bias_resolution_from_energy_dispersion"]}
{"id": "C67", "title": "Results of estimators don't depend on the history", "statement": "For every memory, constructor arguments and sequence of calls of one estimator (in any order, including failing calls): each call gives the result the estimator gives as a function of the constructor arguments and the target, the constructor and the calls do not change any array of the caller, and arrays returned earlier keep their contents - for estimators of parameters and histograms whatever the interpolator and extrapolator, for RadMaxEstimator if the rad_max values are not negative or no nearest-neighbour searcher is used, for EffectiveAreaEstimator too (only its constructor writes into an array given in m2). This remains true if the caller overwrites returned arrays (no searcher used; EffectiveAreaEstimator: always) and if the caller overwrites the array given to the constructor (one dimension without fill value, QuantileInterpolator, or EffectiveAreaEstimator). It is false otherwise: arrays returned by nearest-neighbour searchers are views of the templates, so overwriting one changes later results; with two or more dimensions the constructor keeps the caller's array, and later assignments to it change the estimator into that of the changed array; RadMaxEstimator with negative entries, linear interpolation and a nearest-neighbour extrapolator returns a different value for the same target after an extrapolation, because clipping writes into the templates.", "quantifier": "all memories, constructor arguments, and finite sequences of calls and assignments", "why_tests_cant": "history property over unbounded programs with aliasing", "anchors": ["pyirf/interpolation/component_estimators.py:BaseComponentEstimator.__call__,ParametrizedComponentEstimator,EffectiveAreaEstimator,RadMaxEstimator", "pyirf/interpolation/nearest_neighbor_searcher.py", "pyirf/interpolation/moment_morph_interpolator.py", "pyirf/interpolation/quantile_interpolator.py"]}
{"id": "C68", "title": "Spectra don't depend on the units of their parameters", "statement": "For all units: PowerLaw and PowerLawWithExponentialGaussian accept exactly a normalisation with the dimension of a flux (per solid angle or not), a reference energy with the dimension of an energy and an index that is not positive, LogParabola the same without the condition on the index (a number without unit gives TypeError, a wrong dimension UnitsError, a positive index ValueError). Evaluating a spectrum at energies in any unit gives the fluxes of the physically same spectrum, in the unit of the normalisation; physically equal spectra and energies give physically equal fluxes; energies without unit or of another dimension are rejected. from_simulation with energies, angles, lengths and times in any units gives the physically same spectrum as in TeV, rad, m, s, with the reference energy as given and a normalisation in 1/(TeV s m2), per sr for a diffuse simulation. integrate_cone agrees for angles in any unit. Event weights are the same numbers whatever the units, and a point source spectrum can't be weighted to a diffuse one (UnitConversionError). A table interpolation gives physically the same fluxes if its energies, fluxes, reference energy and arguments are given in other units (positive fluxes when interpolating their logarithm), in the unit of the flux column; from_table uses the columns energy and flux and raises KeyError if one is missing. The spectra CRAB_HEGRA, CRAB_MAGIC_JHEAP2015, PDG_ALL_PARTICLE, IRFDOC_PROTON_SPECTRUM and IRFDOC_ELECTRON_SPECTRUM exist and have the stated parameters in 1/(TeV s m2) (sr) and TeV.", "quantifier": "all spectra, simulations, tables, energies and units of the right or wrong dimension", "why_tests_cant": "ranges over all units and numbers; a wrong conversion factor is visible only in some unit combinations", "anchors": ["pyirf/spectral.py:PowerLaw.__init__,PowerLaw.__call__,PowerLaw.from_simulation,PowerLaw.integrate_cone,LogParabola,PowerLawWithExponentialGaussian,TableInterpolationSpectrum,calculate_event_weights,CRAB_HEGRA,PDG_ALL_PARTICLE", "pyirf/utils.py:cone_solid_angle"]}
{"id": "C69", "title": "Expected numbers of showers don't depend on units", "statement": "SimulatedEventsInfo accepts exactly energies, a length and angles with units of the right dimension and an index of at most -1 (a number without unit gives TypeError, a wrong dimension UnitsError, a larger index ValueError). For a simulation and bins in any units, calculate_n_showers_per_energy, calculate_n_showers_per_fov, calculate_n_showers_per_energy_and_fov and calculate_n_showers_3d_polar give exactly the numbers of the same simulation and bins in TeV and rad; energy bins without unit or of another dimension are rejected (TypeError, UnitsError), field of view bins of another dimension give UnitConversionError.", "quantifier": "all simulations, bins and units", "why_tests_cant": "ranges over all units and numbers; comparisons between quantities in different units go wrong only for some inputs", "anchors": ["pyirf/simulations.py:SimulatedEventsInfo,_powerlaw_pdf_integral,_viewcone_pdf_integral"]}
{"id": "C70", "title": "Instrument responses fold the simulated flux back to the selected events", "statement": "For every simulation of n > 0 showers with positive energies, a spectral index below -1, a positive maximal impact and (diffuse) a view cone of at most 180 degrees, every observation time and every set of selected events: the spectrum of PowerLaw.from_simulation, integrated over a true energy bin inside the simulated range, times effective_area_per_energy and the observation time is the number of selected events in the bin (point source); times effective_area_per_energy_and_fov and the solid angle of the field of view bin (diffuse, bins inside the view cone) it is the number of selected events in the energy and field of view bin; folding this with energy_migration_matrix of the same events and summing over true energy gives the number of events in each bin of reconstructed energy and field of view, if no event of the field of view bin is reconstructed outside of the matrix. In general the folded number is at least the number of events, as the matrix redistributes the events reconstructed outside of it.", "quantifier": "all simulations, observation times, increasing bins inside the simulated ranges and event lists of any length", "why_tests_cant": "an identity between an integral, three functions and event counts for all inputs; tests check it on one simulation with tolerances", "anchors": ["pyirf/spectral.py:PowerLaw.from_simulation", "pyirf/irf/effective_area.py:effective_area_per_energy,effective_area_per_energy_and_fov", "pyirf/irf/energy_dispersion.py:energy_migration_matrix", "pyirf/simulations.py:SimulatedEventsInfo"]}
{"id": "C71", "title": "Instrument responses don't depend on units", "statement": "For every event table, simulation and bins given in any units of the right dimension (energies, angles, times, lengths, columns each in a unit of its own): effective_area_per_energy, effective_area_per_energy_and_fov, effective_area_3d_polar, energy_dispersion, energy_migration_matrix, psf_table, background_2d and background_3d_lonlat raise the same exception or return an array of the same shape with physically the same entries as for the same quantities in TeV, degree, seconds and metres, in a unit with the dimension of an area, of 1, of 1 / solid angle or of 1 / (energy time solid angle); energy_dispersion_to_migration returns the same matrix if the interpolation used for resampling does not depend on the unit. Where one of these functions returns a result, every quantity used had the right dimension.", "quantifier": "all tables, simulations, bins and units", "why_tests_cant": "tests use one or two units and literals; a missing conversion factor shows only for the other units", "anchors": ["pyirf/irf/effective_area.py:effective_area,effective_area_per_energy,effective_area_per_energy_and_fov,effective_area_3d_polar", "pyirf/irf/energy_dispersion.py:energy_dispersion,energy_migration_matrix,energy_dispersion_to_migration", "pyirf/irf/psf.py:psf_table", "pyirf/irf/background.py:background_2d,background_3d_lonlat", "pyirf/utils.py:cone_solid_angle"]}
{"id": "C72", "title": "The order of the events does not matter", "statement": "For every table of events and every reordering of its rows (of signal and background independently): create_histogram_table, all four effective_area functions, energy_dispersion, energy_migration_matrix, psf_table, background_2d, background_3d_lonlat, estimate_background, calculate_percentile_cut, optimize_gh_cut, optimize_cuts, angular_resolution and energy_bias_resolution (with a bias and a resolution function that do not depend on the order, as those offered by pyirf) return the same result or raise the same exception; evaluate_binned_cut returns the same mark for every event.", "quantifier": "all events, reorderings and other arguments", "why_tests_cant": "a test compares a few orders of a few events", "anchors": ["pyirf/binning.py:create_histogram_table,calculate_bin_indices", "pyirf/irf/effective_area.py:effective_area_per_energy,effective_area_per_energy_and_fov,effective_area_3d_polar,effective_area_3d_lonlat", "pyirf/irf/energy_dispersion.py:energy_dispersion,energy_migration_matrix", "pyirf/irf/psf.py:psf_table", "pyirf/irf/background.py:background_2d,background_3d_lonlat", "pyirf/sensitivity.py:estimate_background", "pyirf/cuts.py:calculate_percentile_cut,evaluate_binned_cut", "pyirf/cut_optimization.py:optimize_cuts,optimize_gh_cut", "pyirf/benchmarks/angular_resolution.py:angular_resolution", "pyirf/benchmarks/energy_bias_resolution.py:energy_bias_resolution,inter_quantile_distance,energy_resolution_absolute_68"]}
{"id": "C73", "title": "Two samples of events together", "statement": "For any two samples of events and any bins: the histogram (n) of both together is the sum of the histograms; the effective area of both, with simulations under the same conditions and the showers added, is the mean of the effective areas weighted with the numbers of simulated showers, wherever both are finite numbers; the background rate (2d and lon/lat) is the mean weighted with the observation times; the energy dispersion, the migration matrix and the point spread function are means weighted with the number of events in the same distribution (true energy and field of view bin, inside the binned range). The shapes agree, and if one of the calls raises, all raise the same exception.", "quantifier": "all pairs of samples, bins, simulations and observation times", "why_tests_cant": "tests have single samples and literal values; the identity must hold for every split of every sample", "anchors": ["pyirf/binning.py:create_histogram_table", "pyirf/irf/effective_area.py:effective_area,effective_area_per_energy,effective_area_per_energy_and_fov,effective_area_3d_polar,effective_area_3d_lonlat", "pyirf/irf/energy_dispersion.py:energy_dispersion,energy_migration_matrix", "pyirf/irf/psf.py:psf_table", "pyirf/irf/background.py:background_2d,background_3d_lonlat", "pyirf/simulations.py:SimulatedEventsInfo"]}
{"id": "C74", "title": "The significance in double precision", "statement": "In IEEE double precision (every operation of li_ma_significance rounded to nearest, a logarithm accurate to 2 units in the last place): for n_on, n_off = 0 or n_off, and alpha between 1e-60 and 1e60 the result is either a non-negative number whose square is within 100 * 2^-53 * (n_on (1 + |ln A|) + n_off (1 + |ln B|)) of the square of the exact significance (A, B: the arguments of the logarithms), or NaN and the exact square is below that tolerance; for up to 10^8 events in each region and alpha between 1/1000 and 1000 the result is within 0.02 of the exact one, within 0.0002 from one sigma on, and NaN only below 0.02 sigma. It is never negative, exactly 0 for a deficit beyond rounding, never NaN when one region is empty. It is NaN for (1, 5) with the default alpha: without an excess the result may be NaN instead of 0.", "quantifier": "all doubles in the stated ranges, all accurate logarithms", "why_tests_cant": "rounding errors of a nearly cancelling difference of logarithms cannot be sampled", "anchors": ["pyirf/statistics.py:li_ma_significance"]}
{"id": "C75", "title": "Instrument responses in double precision", "statement": "In IEEE double precision, every operation rounded to nearest, for up to 2^53 events: every entry of energy_dispersion is within 4 * 2^-53 (relative) of the share of events over the bin width (migration bin widths between 1e-60 and 1e60; events are binned by the rounded quotient of the energies, which crosses no edge but can reach one from below), and every slice with events integrates to 1 within 4 * 2^-53, slices without events are exactly 0; energy_migration_matrix entries are between 0 and 1 and within 2 * 2^-53 of the shares; effective_area is within 3 * 2^-53 of n_selected / n_simulated * area and never exceeds the simulated area when n_selected <= n_simulated; psf_table, for an accurate cosine, is within 1000 * 2^-53 / (solid angle of the ring), relative, of share / ring and integrates to 1 within 1000 * 2^-53 / (smallest ring) (rings of at least 10000 * 2^-53 sr). cone_solid_angle has an absolute error of at most 256 * 2^-53: up to 10^-7 degree it is 0 and a point spread function with such bins is infinite or NaN.", "quantifier": "all lists of at most 2^53 events, all edges in the stated ranges, all accurate cosines", "why_tests_cant": "rounding errors over all event lists and edges cannot be sampled; a few chosen inputs agree within a tolerance", "anchors": ["pyirf/irf/energy_dispersion.py:energy_dispersion,energy_migration_matrix,_normalize_hist", "pyirf/irf/psf.py:psf_table,_normalize_psf", "pyirf/irf/effective_area.py:effective_area", "pyirf/utils.py:cone_solid_angle"]}
{"id": "C76", "title": "Weighted histograms and background rates in double precision", "statement": "In IEEE double precision, for up to 2^53 events with non-negative weights (doubles, total at most 1e300), any sorting algorithm and nondecreasing edges: the columns n_weighted and n_<particle>_weighted of create_histogram_table are never negative, exactly 0 in bins without events, and in every bin differ from the sum of the weights by at most 6 * 2^-53 * (min(n, 65536) + n / 65536 + 1) times the weight of all n events up to the upper edge of that bin; they are exact for whole weights with a total of at most 2^53. The error is not small compared with the content of the bin: a weight of 1 in a bin after a weight of 2^54 is lost. background_2d (weights 0 or between 1e-60 and 1e60, up to 2^50 events, an accurate cosine, rings of at least 10000 * 2^-53 sr) has no such loss: with m events in a bin the rate is non-negative and within (3 (m + 4) + 1000 / ring) * 2^-53, relative, of the sum of weights / (energy width * time * ring).", "quantifier": "all event lists, weights and edges in the stated ranges, all sorting algorithms (also unstable ones), all accurate cosines", "why_tests_cant": "rounding errors depend on the order of all events; tests compare a few bins with a tolerance", "anchors": ["pyirf/binning.py:create_histogram_table", "pyirf/irf/background.py:background_2d"]}
{"id": "C77", "title": "Bin edges, bin centres and percentiles in double precision", "statement": "In IEEE double precision, with np.log10 accurate to 2 and 10**x to 4 units of relative precision, for energies 1e-30 <= e_min <= e_max <= 1e30 (same unit) and 1 to 1000 bins per decade: create_bins_per_decade never fails, its edges are positive and strictly increasing, edge i is within (1000 + 150 i) * 2^-53, relative, of e_min * 10^(i/n), the number of edges is ceil(L + 1e-4) with L = n * log10(e_max/e_min) unless L + 1e-4 is within 1e-9 of an integer, and exactly k + 1 whenever L is within 1/20000 of k: rounding never drops the end point. bin_center (edges up to 1e300) always lies between its two edges. Percentiles of up to 2^53 values (magnitude at most M <= 1e300) never lie outside the values, differ from the documented linear percentile by at most 3 * 2^-53 * position * largest gap + 6 * 2^-53 * M + 2^-1075, and leave the documented number of values on either side up to rounding of the position; for the two extreme doubles the percentile 0 is NaN.", "quantifier": "all energies and bin numbers in the stated ranges, all accurate log10 and pow, all edge lists, all lists of values and percentages", "why_tests_cant": "np.arange's length and the interpolation of percentiles are discontinuous functions of rounded inputs; tests check a few round numbers", "anchors": ["pyirf/binning.py:create_bins_per_decade", "pyirf/binning.py:bin_center", "pyirf/cuts.py:calculate_percentile_cut"]}
{"id": "C78", "title": "From event lists to the sensitivity", "statement": "For any lists of signal and background events with non-negative weights (or without weights), any non-decreasing reconstructed-energy edges (outer ones may be infinite), any theta cut table, alpha > 0 and a non-empty annulus, create_histogram_table, estimate_background and calculate_sensitivity applied one after the other always succeed and each row of the result has this meaning: with W the weight of the signal events in the bin, V the weight of the background events in the annulus and the bin, and B = V * (size of the on region given by the interpolated theta cut) / (size of the annulus) / alpha: relative_sensitivity is infinite if W = 0, else, up to the tolerance of the root finder, the smallest multiple of the reference flux for which W r signal events over alpha B background events are detectable (significance, minimum events, minimum excess), and it is NaN exactly when that multiple is outside the searched bracket; n_signal_weighted is W r and n_background_weighted is B. The tables returned by optimize_gh_cut and optimize_cuts mean the same for the events that pass the cuts they report: per bin, all three cuts of the bin for the signal, the gamma/hadron and multiplicity cuts for the background; events on the last energy edge are dropped by the cuts. The theta cuts reported by optimize_cuts lie between the configured smallest and largest cut.", "quantifier": "all event lists, weights, edges, theta cuts, exposure ratios, thresholds, all root finders with scipy's contract", "why_tests_cant": "each function is tested alone on a few events; the meaning of the final number is a statement about the composition for all samples", "anchors": ["pyirf/binning.py:create_histogram_table", "pyirf/sensitivity.py:estimate_background", "pyirf/sensitivity.py:calculate_sensitivity", "pyirf/cut_optimization.py:optimize_gh_cut", "pyirf/cut_optimization.py:optimize_cuts"]}
{"id": "C79", "title": "Optimising cuts with several particle types in the background", "statement": "A sensitivity table has the columns n_X and n_X_weighted for every particle type X found among the background events inside the ring, in alphabetical order, and for no other type. optimize_gh_cut and optimize_cuts copy the rows of the best scanned table, column by column, into a copy of the first scanned table: they return if every chosen table has as many columns as the first one and raise ValueError otherwise; no other outcome is possible for valid input. If optimize_gh_cut returns (finite scores, cut compared by >= or <=), its columns hold what they are named after: in every bin, n_X_weighted is the weight of the background events of type X that are in the ring and the bin and pass the reported cut, scaled to the on region. If every particle type in range keeps an event under every scanned cut, both functions return a table with the columns of every particle type in range, filled by name. Exceptions, proved by examples: with the particle types in the background table, optimize_gh_cut raises ValueError where it succeeds without them; optimize_cuts can report the electrons passing its cuts in the column of the protons.", "quantifier": "all event lists with particle types, weights, edges, efficiencies, multiplicities, all root finders with scipy's contract", "why_tests_cant": "which particle types survive depends on the whole sample and on every scanned cut; tests use one background type", "anchors": ["pyirf/cut_optimization.py:optimize_gh_cut", "pyirf/cut_optimization.py:optimize_cuts", "pyirf/sensitivity.py:estimate_background", "pyirf/sensitivity.py:calculate_sensitivity"]}
{"id": "C80", "title": "Invalid arguments raise the documented kind of exception, whatever the other arguments", "statement": "Histogram based IRFs (energy_dispersion, energy_migration_matrix, psf_table, background_2d, background_3d_lonlat) raise ValueError if an edge of some axis is larger than the next one and otherwise IndexError if an axis has no edges; create_histogram_table succeeds exactly if the edges do not fall, effective_area_per_energy and estimate_background raise ValueError for falling edges, the latter also for an empty or inconsistent table of cuts. calculate_bin_indices with plain data and bins in a unit: the data are dimensionless; otherwise only zeros, infinities and NaN are accepted, any other number raises UnitConversionError. resample_histogram1d raises IndexError for fewer than two edges and ValueError for a wrong number of edges, a single bin or an edge that occurs twice. Masks and indices of another length raise IndexError; join_bin_lo_hi rejects different numbers of rows; add_overflow_bins rejects no edges. optimize_gh_cut and optimize_cuts raise ValueError without signal events and IndexError without anything to scan. Areas, field of view bins and columns without unit or in a unit of another dimension raise TypeError, AttributeError, UnitsError or UnitConversionError, missing columns KeyError. Axes that an estimator's arrays do not have raise ValueError. Eventdisplay files without histogram, with non-finite numbers of showers, short ranges or wrong units raise KeyError, ValueError, OverflowError, IndexError and UnitConversionError respectively.", "quantifier": "all invalid arguments of the named kinds, for all values of the remaining arguments", "why_tests_cant": "a test shows one invalid call; that no combination of the remaining arguments hides the error, and which error wins, ranges over all of them", "anchors": ["pyirf/irf/energy_dispersion.py:energy_dispersion", "pyirf/irf/psf.py:psf_table", "pyirf/irf/background.py:background_2d", "pyirf/binning.py:create_histogram_table", "pyirf/binning.py:calculate_bin_indices", "pyirf/binning.py:resample_histogram1d", "pyirf/cuts.py:evaluate_binned_cut_by_index", "pyirf/cut_optimization.py:optimize_gh_cut", "pyirf/cut_optimization.py:optimize_cuts", "pyirf/irf/effective_area.py:effective_area", "pyirf/simulations.py:SimulatedEventsInfo", "pyirf/io/eventdisplay.py:read_eventdisplay_fits"]}
{"id": "C81", "title": "Cuts and benchmarks don't depend on units", "statement": "If values, bin values, bins, fill value and bounds are expressed in other (convertible) units, calculate_percentile_cut returns the same table (edges, numbers of events, cuts as physical quantities, with or without smoothing) or raises the same exception; evaluate_binned_cut selects the same events for values, bin values and cut tables in other units, compares numbers if the units agree and raises UnitConversionError for units of another dimension; calculating a cut and applying it selects the same events in all units; angular_resolution returns the same angles and energy_bias_resolution the same numbers for events and bins in other units. Exception, proved by an example: for values without unit and a fill value with a unit, the percentiles of the plain numbers are labelled with the unit of the fill value, so the cuts depend on the unit it is expressed in.", "quantifier": "all values (also NaN and infinities), edges, units, percentiles, bounds, smoothing widths, comparison operators, event tables", "why_tests_cant": "unit conversions interact with every branch of the code; tests use one unit per column", "anchors": ["pyirf/cuts.py:calculate_percentile_cut", "pyirf/cuts.py:evaluate_binned_cut", "pyirf/benchmarks/angular_resolution.py:angular_resolution", "pyirf/benchmarks/energy_bias_resolution.py:energy_bias_resolution", "pyirf/binning.py:calculate_bin_indices"]}
{"id": "C82", "title": "EnergyDispersionEstimator and PSFTableEstimator return densities from the right histograms", "statement": "An estimation with EnergyDispersionEstimator or PSFTableEstimator has the shape of the templates with one grid point, and every histogram along the given axis (any axis, counted from the start or the end) is computed from the histograms of the grid points at the same index of the other axes: those of the two neighbours of the target (one dimension, moment morphing; points in any order), of the corners of the triangle around it (two dimensions), of the two outermost points or of a triangle at the nearest side of the hull (extrapolation, with a warning), of all points (quantile interpolation), of the nearest point (nearest neighbour searcher, axis counted from the end). With interpolation the result is non-negative and integrates to one or is zero everywhere (over energy migration, or over the solid angle for PSF tables whatever the unit of the angles), is zero if one of the used histograms is empty, and at a grid point is the normalised histogram of that point. The order of the grid points does not matter in one dimension. Invalid axes, numbers of points, bins, targets and units raise the documented exceptions; a target outside without extrapolator raises ValueError. Exceptions, proved: moment morphing at the largest grid point raises IndexError; PSFTableEstimator with the moment morphing classes raises UnitConversionError for every estimation.", "quantifier": "all grids with 1 or 2 (quantile, nearest: any number of) dimensions, arrays of histograms with any number and order of axes, bin edges, targets, quantile resolutions, units", "why_tests_cant": "the axes are swapped, flattened, sorted and reshaped between the caller and the interpolation of single histograms; tests use one layout with few points", "anchors": ["pyirf/interpolation/component_estimators.py:EnergyDispersionEstimator", "pyirf/interpolation/component_estimators.py:PSFTableEstimator", "pyirf/interpolation/moment_morph_interpolator.py:MomentMorphInterpolator", "pyirf/interpolation/quantile_interpolator.py:QuantileInterpolator", "pyirf/interpolation/nearest_simplex_extrapolator.py:MomentMorphNearestSimplexExtrapolator", "pyirf/interpolation/nearest_neighbor_searcher.py:DiscretePDFNearestNeighborSearcher"]}
{"id": "C83", "title": "Each entry of a result depends only on the events in its bin", "statement": "Adding, removing or moving events outside of a bin does not change this bin's entry: counts and weighted counts of create_histogram_table, effective_area_per_energy, effective_area_per_energy_and_fov, effective_area_3d_polar, effective_area_3d_lonlat, background_2d and background_3d_lonlat give the same exception or arrays with the same shape and the same entry; entries of energy_dispersion, energy_migration_matrix and psf_table depend only on the events in the same true energy and offset bin whose migration, reconstructed energy or separation is anywhere inside of the axis; angular_resolution's row k only on the events in bin k, if each table has an event in some bin (otherwise it raises IndexError); row k of estimate_background only on the events inside the annulus in bin k.", "quantifier": "all pairs of event lists that agree on the bin, all edges, bins, simulations, units of theta and energies, quantiles", "why_tests_cant": "a test adds one event; that no event outside of a bin can leak into it ranges over all samples and edges", "anchors": ["pyirf/binning.py:create_histogram_table", "pyirf/irf/effective_area.py:effective_area_per_energy", "pyirf/irf/effective_area.py:effective_area_per_energy_and_fov", "pyirf/irf/effective_area.py:effective_area_3d_polar", "pyirf/irf/effective_area.py:effective_area_3d_lonlat", "pyirf/irf/background.py:background_2d", "pyirf/irf/background.py:background_3d_lonlat", "pyirf/irf/energy_dispersion.py:energy_dispersion", "pyirf/irf/energy_dispersion.py:energy_migration_matrix", "pyirf/irf/psf.py:psf_table", "pyirf/benchmarks/angular_resolution.py:angular_resolution", "pyirf/sensitivity.py:estimate_background"]}
{"id": "C84", "title": "Joining bins adds their contents", "statement": "If a bin of coarse edges consists of the bins a..b-1 of finer edges (and is the last bin only if bin b-1 is), then its count, weighted count and number of simulated showers are the sums over the fine bins; the effective area is the mean of the fine ones weighted with the simulated showers; background_2d times energy width and solid angle is the sum of the same products (bins joined in both axes); with the same first and last edge, energy dispersion times width, migration matrix and PSF table times solid angle are the sums over the fine bins of the same products. An upper edge that is the last edge only in one of the two binnings breaks this: events on it are counted only by the binning that ends there.", "quantifier": "all event lists, all non-decreasing edges, all ways of joining bins, all simulations with spectral index below -1 whose energy range doesn't lie strictly inside of a bin", "why_tests_cant": "the relation between two results for every sample and pair of binnings; tests fix both", "anchors": ["pyirf/binning.py:create_histogram_table", "pyirf/simulations.py:SimulatedEventsInfo.calculate_n_showers_per_energy", "pyirf/irf/effective_area.py:effective_area_per_energy", "pyirf/irf/background.py:background_2d", "pyirf/irf/energy_dispersion.py:energy_dispersion", "pyirf/irf/energy_dispersion.py:energy_migration_matrix", "pyirf/irf/psf.py:psf_table"]}
{"id": "C85", "title": "Binned events, background estimate and sensitivity don't depend on units", "statement": "If events, energy bins, theta cuts, and the limits of the ring are expressed in other (convertible) units - each of them in its own -, create_histogram_table, estimate_background and calculate_sensitivity, and the chain of all three, return the same numbers of events, sensitivities and significances, with edges that are the same energies in the unit of the bins, or raise the same exception; signal and background may be binned in different units. estimate_background only succeeds if the offsets and limits are angles, the cuts have energies of the dimension of the bins, and cuts with a unit are angles; calculate_sensitivity raises ValueError for histograms over quantities of different dimensions.", "quantifier": "all event tables (any values, also NaN and infinities), edges, cuts, rings, weights and particle types, significance functions, root finders, units", "why_tests_cant": "each input has its own unit and is converted at another place; tests use TeV and degree everywhere", "anchors": ["pyirf/binning.py:create_histogram_table", "pyirf/sensitivity.py:estimate_background", "pyirf/sensitivity.py:calculate_sensitivity", "pyirf/utils.py:check_histograms", "pyirf/utils.py:cone_solid_angle"]}
{"id": "C86", "title": "More signal, less background, more time and more off regions never make the sensitivity worse", "statement": "If relative_sensitivity returns numbers for two situations, then - up to the tolerances of the root finder - the second one is not larger than the first one if it has more expected signal, or less background with the same exposure ratio, or both multiplied by the same factor of at least one (a longer observation), or the same background estimated from more off regions (smaller alpha), or weaker requirements on significance, signal events and excess. The same holds for every bin of create_histogram_table, estimate_background and calculate_sensitivity applied to event lists: adding signal events, removing background events, or multiplying all weights with a factor of at least one (which is what a longer observation time in PowerLaw.from_simulation does to calculate_event_weights) never makes the sensitivity worse, and never makes a detectable source undetectable. Exception, proved: with at most one off event a brighter source can turn a finite sensitivity into NaN, because the bracket of the root finder is fixed.", "quantifier": "all numbers of events, exposure ratios, requirements, event lists, edges, theta cuts, rings, root finders with scipy's contract", "why_tests_cant": "a relation between the results for all pairs of inputs, through a transcendental equation; tests evaluate single points", "anchors": ["pyirf/sensitivity.py:relative_sensitivity", "pyirf/sensitivity.py:calculate_sensitivity", "pyirf/sensitivity.py:estimate_background", "pyirf/binning.py:create_histogram_table", "pyirf/statistics.py:li_ma_significance", "pyirf/spectral.py:calculate_event_weights", "pyirf/spectral.py:PowerLaw.from_simulation"]}
{"id": "C87", "title": "The flux sensitivity doesn't depend on the assumed brightness of the source", "statement": "A target spectrum with c times the normalisation gives c times the event weights. If all signal weights are multiplied by c > 0, the relative sensitivity of each bin is divided by c up to the tolerances of the root finder, is infinite in the same bins and - with more than one off event - NaN in the same bins; so the relative sensitivity times the target spectrum, the sensitivity in units of flux, is the same. Exception, proved: with at most one off event the answer may exist for one normalisation and be NaN for another.", "quantifier": "all spectra, factors, event lists, edges, cuts, requirements, root finders with scipy's contract", "why_tests_cant": "a relation between two complete analyses for all inputs; tests use one reference spectrum", "anchors": ["pyirf/spectral.py:calculate_event_weights", "pyirf/spectral.py:PowerLaw", "pyirf/sensitivity.py:calculate_sensitivity", "pyirf/sensitivity.py:relative_sensitivity", "pyirf/binning.py:create_histogram_table"]}
{"id": "C88", "title": "The optimised cuts do not depend on units", "statement": "optimize_gh_cut and optimize_cuts give the same result whatever the units of the event energies, theta and offsets, of the energy bins, of the theta cuts, of the limits of the ring and of the smallest and largest theta cut: the same exception, or the same choice of efficiencies and multiplicities, the same cuts (as angles) and the same best sensitivity, with the edges in the unit of the bins and theta cuts in the unit of theta. Bins that are not energies raise TypeError (no unit) or UnitConversionError; theta cuts that are not angles never return a result.", "quantifier": "all event tables, bins, cut tables, efficiencies, units", "why_tests_cant": "every combination of units and inputs", "anchors": ["pyirf/cut_optimization.py:optimize_gh_cut", "pyirf/cut_optimization.py:optimize_cuts", "pyirf/cuts.py:evaluate_binned_cut"]}
{"id": "C89", "title": "Inter- and extrapolation do not depend on the unit and the origin of the grid coordinates", "statement": "If all coordinates of the grid points and of the target are given in another unit (all axes the same factor s > 0) and with another origin (any shift per axis), every estimator - ParametrizedComponentEstimator, EffectiveAreaEstimator, RadMaxEstimator, EnergyDispersionEstimator, PSFTableEstimator, made and called - gives the same values, the same warning or the same exception. This holds with every class of pyirf in one dimension without assumptions on scipy, in two dimensions if scipy finds the same triangles (a Delaunay triangulation is not changed by scaling and shifting), and for nearest neighbour searchers in every dimension. Exception, proved: a change of the unit of one axis only can change the nearest grid point.", "quantifier": "all grids, templates, targets (inside, outside, malformed), scale factors, shifts, classes", "why_tests_cant": "must hold for every grid, target and scale", "anchors": ["pyirf/interpolation/component_estimators.py:BaseComponentEstimator.__call__", "pyirf/interpolation/nearest_simplex_extrapolator.py:ParametrizedNearestSimplexExtrapolator", "pyirf/interpolation/visible_edges_extrapolator.py:ParametrizedVisibleEdgesExtrapolator", "pyirf/interpolation/utils.py:plumb_point_dist", "pyirf/interpolation/moment_morph_interpolator.py:MomentMorphInterpolator", "pyirf/interpolation/nearest_neighbor_searcher.py:BaseNearestNeighborSearcher"]}
{"id": "C90", "title": "Cuts never increase the effective area or the background", "statement": "If some of the events are removed - e.g. by evaluate_binned_cut, where a tighter cut keeps a subset of what a looser one keeps - then no count, weighted count, effective area (per energy, per energy and offset, 3d polar, 3d lon/lat with square grids) and no background rate (2d, 3d lon/lat) grows. In each bin the effective area is multiplied by the fraction of the events that were kept, and the background by the fraction of the weight. Bins without simulated showers: NaN stays NaN, infinite stays infinite or becomes NaN if all events of the bin were removed.", "quantifier": "all event lists and sub-lists of them (in any order), edges, cuts, comparison operators, simulations with spectral index below -1 (bins that the energy range doesn't lie strictly inside of)", "why_tests_cant": "a relation between the results for all pairs of samples; tests use single samples", "anchors": ["pyirf/cuts.py:evaluate_binned_cut", "pyirf/binning.py:create_histogram_table", "pyirf/irf/effective_area.py:effective_area", "pyirf/irf/effective_area.py:effective_area_per_energy", "pyirf/irf/effective_area.py:effective_area_per_energy_and_fov", "pyirf/irf/effective_area.py:effective_area_3d_polar", "pyirf/irf/effective_area.py:effective_area_3d_lonlat", "pyirf/irf/background.py:background_2d", "pyirf/irf/background.py:background_3d_lonlat"]}
{"id": "C91", "title": "Field-of-view coordinates are a faithful, rotation invariant description of the direction", "statement": "For a fixed pointing two events have the same field-of-view coordinates (theta/phi or lon/lat) exactly if they come from the same direction, and all coordinates in the range (except the two poles) occur. calculate_theta, calculate_source_fov_offset, calculate_source_fov_position_angle and calculate_source_fov_lonlat do not change if all azimuth angles are measured from another origin, nor if any azimuth differs by full turns, nor if the columns and the source position are given in other angular units; they return degrees, theta and offset in [0, 180], phi in [0, 360), lon in [-180, 180), lat in [-90, 90]. theta, the offset of the reconstructed position and the distance of the source from the pointing form a spherical triangle (none is larger than the sum of the others); moving the assumed source position by d changes theta at most by d; theta is 0 exactly for events from the assumed position.", "quantifier": "all event tables, directions, pointings, source positions, angular units", "why_tests_cant": "must hold for every direction including the poles and the wrap of the azimuth; tests use a few directions", "anchors": ["pyirf/coordinates.py:gadf_fov_coords_theta_phi", "pyirf/coordinates.py:gadf_fov_coords_lon_lat", "pyirf/utils.py:calculate_theta", "pyirf/utils.py:calculate_source_fov_offset", "pyirf/utils.py:calculate_source_fov_position_angle", "pyirf/utils.py:calculate_source_fov_lonlat"]}
{"id": "C92", "title": "Estimates follow their templates", "statement": "With the classes of pyirf for parametrised components (GridDataInterpolator, ParametrizedNearestNeighborSearcher, ParametrizedNearestSimplexExtrapolator, ParametrizedVisibleEdgesExtrapolator) an estimate depends on the templates only by a weighted mean: templates a X + b Y + k give the estimate a x + b y + k, where x and y are the estimates from X and Y, with the same warning or the same exception; templates that are constant over the grid are reproduced, inside of the grid and outside. The choice of the simplex, of the neighbours and of the weights does not depend on the templates. Consequences: EffectiveAreaEstimator returns c times the areas if all areas and min_effective_area are multiplied by c > 0 (another unit of area); RadMaxEstimator returns c times the cuts if all cuts and the fill value (given, inferred or none) are multiplied by c > 0 (another unit of angle).", "quantifier": "all grids without repeated points, templates, factors, targets (inside, outside, malformed), for two-dimensional extrapolation all triangulations of the grid into proper triangles", "why_tests_cant": "a relation between the results for all pairs of templates; tests use single templates", "anchors": ["pyirf/interpolation/component_estimators.py:ParametrizedComponentEstimator", "pyirf/interpolation/component_estimators.py:EffectiveAreaEstimator", "pyirf/interpolation/component_estimators.py:RadMaxEstimator", "pyirf/interpolation/griddata_interpolator.py:GridDataInterpolator", "pyirf/interpolation/nearest_neighbor_searcher.py:ParametrizedNearestNeighborSearcher", "pyirf/interpolation/nearest_simplex_extrapolator.py:ParametrizedNearestSimplexExtrapolator", "pyirf/interpolation/visible_edges_extrapolator.py:ParametrizedVisibleEdgesExtrapolator"]}
{"id": "C93", "title": "Interpolation weights in double precision", "statement": "With every operation rounded to double precision, barycentric_2D_interpolation_coefficients returns for a triangle that is neither tiny nor very thin (the two products whose difference is twice its area are at most 10^9 times as large as that difference) the first two barycentric weights up to 10 units of rounding of the size of the products they are computed from, relative to the area, and the three weights add up to 1 up to 3 units of rounding of their size. At the three corners the weights are exactly (1, 0, 0), (0, 1, 0) and (0, 0, 1), and an extrapolated estimate for a corner (np.sum of weight times parameters) is exactly the parameters stored there. For thinner triangles this fails: there are triangles with non-zero area for which the weights at a corner are not numbers. linesegment_1D_interpolation_coefficients returns the two weights of the line up to 10 units of rounding of their size, exactly (1, 0) at the first of the two grid points, but at the other one the first grid point can keep a weight of 2^-53. The weighted sum of k rows of parameters is within 2k units of rounding of the sum of the absolute terms.", "quantifier": "all grid points and targets that are doubles up to 10^60, triangles that are not very thin, parameters and coefficients up to 10^100; all numpy inverses with accurate entries", "why_tests_cant": "a bound for every grid, target and rounding; tests compare single points with a tolerance", "anchors": ["pyirf/interpolation/moment_morph_interpolator.py:barycentric_2D_interpolation_coefficients", "pyirf/interpolation/moment_morph_interpolator.py:linesegment_1D_interpolation_coefficients", "pyirf/interpolation/nearest_simplex_extrapolator.py:ParametrizedNearestSimplexExtrapolator"]}
{"id": "C94", "title": "Bins in another unit than the data, in double precision", "statement": "If bins and data have different units, the edges are converted to the unit of the data with a rounded multiplication. calculate_bin_indices never raises because of this (the converted edges keep their order, whatever the factor), and every finite value gets the index it has for the exactly converted edges, except values that lie below an edge by at most one rounding (half a unit in the last place): these can get the index of a bin further up, never of one further down. create_histogram_table with the same bins counts exactly the events with the respective index (and in the last bin those at the last edge). Edges that differ by more than their rounding errors stay different. Exceptions that exist: an event of 1 GeV below the exact edge of a bin starting at the double 0.001 TeV is put into that bin; two different edges in TeV can become the same edge in GeV, so that no value has the index of the bin between them.", "quantifier": "all factors between the units (positive), all non-decreasing edges (infinite edges and edges that overflow in the new unit included), all finite data; at most 2^63 - 1 edges", "why_tests_cant": "must hold for all edges, factors and data; tests use round numbers", "anchors": ["pyirf/binning.py:calculate_bin_indices", "pyirf/binning.py:create_histogram_table"]}
{"id": "C95", "title": "Expected numbers of simulated showers in double precision", "statement": "For a power law with 10^-8 <= 1 - (energy_max/energy_min)^(index+1) =: c, index a double in [-5,-1), energies of 10^-10 to 10^10 TeV and fewer than 2^53 showers, calculate_n_showers_per_energy returns exactly 0 for bins outside the simulated range and, for every other bin that does not reach beyond both ends, the exact expected number of showers in the part of the bin within the range up to 20 * 2^-53 * n_showers / c. calculate_n_showers_per_fov returns the expected number for the part of the bin in a viewcone of at most pi with d := cos(viewcone_min) - cos(viewcone_max) >= 10^-8 up to 20 * 2^-53 * n_showers / d and exactly 0 for bins outside. Neither is exact: the bin [energy_min, energy_max] of a simulation of 1 shower from 1 to 20 TeV with index -2 contains 1 - 2^-53 showers, and with an index next to -1 (a double below -1, which the constructor accepts) the result is NaN for energies 1 to 1.25 TeV.", "quantifier": "all simulations and bins of doubles in the ranges of the statement, all implementations of the power and the cosine with the stated accuracy", "why_tests_cant": "tests compare with a relative tolerance for a few simulations; an error bound for all doubles, and the loss of all digits for a flat spectrum, cannot be sampled", "anchors": ["pyirf/simulations.py:SimulatedEventsInfo.calculate_n_showers_per_energy", "pyirf/simulations.py:SimulatedEventsInfo.calculate_n_showers_per_fov", "pyirf/simulations.py:_powerlaw_pdf_integral", "pyirf/simulations.py:_viewcone_pdf_integral"]}
{"id": "C96", "title": "Power laws and event weights in double precision", "statement": "Let c := 1 - (energy_max/energy_min)^(index+1) and d := cos(viewcone_min) - cos(viewcone_max) of a simulation be at least 10^-8 and l := 1/c + 1/d (1/c if viewcone_min = viewcone_max). PowerLaw.from_simulation in TeV, s, m and rad gives a spectrum, diffuse exactly if viewcone_min < viewcone_max, whose flux at every energy is n_showers times the normalised power law divided by area, time and solid angle, up to a relative error of 75 * 2^-53 * l, whatever the reference energy. calculate_event_weights of a power law with respect to it raises UnitConversionError if only one of them is diffuse; otherwise every weight is the quotient of the fluxes up to a relative error of 100 * 2^-53 * l. The weights of the simulated spectrum with respect to itself are exactly 1. With an index next to -1, which the constructor accepts, the simulated flux can be -infinity and the weights 0.", "quantifier": "all simulations, observation times (10^-8 to 10^8 s), reference energies and event energies (10^-6 to 10^6 TeV), impacts (10^-6 to 10^6 m), indices in [-5,-1), target power laws with normalisations of 10^-30 to 10^30 and indices in [-5,0]; all implementations of the power and the cosine with the stated accuracy", "why_tests_cant": "tests compare a few weights with a tolerance; that no combination loses digits, except flat spectra and narrow viewcones, ranges over all doubles", "anchors": ["pyirf/spectral.py:PowerLaw.from_simulation", "pyirf/spectral.py:PowerLaw.__call__", "pyirf/spectral.py:calculate_event_weights", "pyirf/utils.py:cone_solid_angle"]}
{"id": "C97", "title": "Showers in energy and field of view, and effective areas from event lists, in double precision", "statement": "Let c := 1 - (energy_max/energy_min)^(index+1) and d := cos(viewcone_min) - cos(viewcone_max) be at least 10^-8. calculate_n_showers_per_energy_and_fov returns for every bin that overlaps the simulated range, but does not reach beyond both ends in energy, the exact expected number n_showers * (share of the spectrum) * (share of the solid angle) up to 25 * 2^-53 * n_showers * (1/c + 1/d). effective_area_per_energy of fewer than 2^53 events returns one area per bin; in such a bin with share h of the spectrum and c*h >= 10^-8 it is (number of events in the bin) / (n_showers * h) * pi * max_impact^2 up to a relative error of 32 * 2^-53 / (c*h), and exactly 0 is returned for a bin without events; a bin outside the simulated range gives NaN if it is empty and infinity if not.", "quantifier": "all simulations with impacts of 10^-6 to 10^6 m, energies of 10^-10 to 10^10 TeV and fewer than 2^53 showers, all event lists and bins; all implementations of the power and the cosine with the stated accuracy", "why_tests_cant": "tests compare one effective area with a tolerance; that the error is relative to the area, however few showers fall in a bin, ranges over all doubles", "anchors": ["pyirf/simulations.py:SimulatedEventsInfo.calculate_n_showers_per_energy_and_fov", "pyirf/irf/effective_area.py:effective_area_per_energy", "pyirf/irf/effective_area.py:effective_area"]}
{"id": "C98", "title": "Effective areas in energy and field of view in double precision", "statement": "Let c := 1 - (energy_max/energy_min)^(index+1) and d := cos(viewcone_min) - cos(viewcone_max) be at least 10^-8. effective_area_per_energy_and_fov of fewer than 2^53 events returns an area for every bin in energy and field of view. In a bin with share h of the simulated spectrum and share w of the simulated solid angle that does not reach beyond both ends in energy and with g := h * w / (1/c + 1/d) >= 10^-8 it is (number of events in the bin) / (n_showers * h * w) * pi * max_impact^2 up to a relative error of 36 * 2^-53 / g, and exactly 0 without events. A bin outside the simulated energies or directions gives NaN if it is empty and infinity if not.", "quantifier": "all simulations with impacts of 10^-6 to 10^6 m, energies of 10^-10 to 10^10 TeV and fewer than 2^53 showers, all event lists, all bins (edges in degree and in radian after their conversion); all implementations of the power and the cosine with the stated accuracy", "why_tests_cant": "tests compare a few areas with a tolerance; that the error is relative to the area in every bin, and which bins give NaN or infinity, ranges over all doubles", "anchors": ["pyirf/irf/effective_area.py:effective_area_per_energy_and_fov", "pyirf/irf/effective_area.py:effective_area", "pyirf/simulations.py:SimulatedEventsInfo.calculate_n_showers_per_energy_and_fov"]}
{"id": "C99", "title": "Showers and effective areas in energy, field of view and position angle in double precision", "statement": "Let c := 1 - (energy_max/energy_min)^(index+1) and d := cos(viewcone_min) - cos(viewcone_max) be at least 10^-8 and 2 <= edges of position angles < 2^53. calculate_n_showers_3d_polar returns an array with one entry for each bin. In a bin with share h of the simulated spectrum and share w of the simulated solid angle that does not reach beyond both ends in energy and with g := h * w / (1/c + 1/d) >= 10^-8 it is n_showers * h * w / (number of bins of position angle) up to a relative error of 53 * 2^-53 / g; for bins outside the simulated energies or directions it is exactly 0. effective_area_3d_polar of fewer than 2^53 events returns (number of events in the bin) / (that number of showers) * pi * max_impact^2 up to a relative error of 64 * 2^-53 / g, exactly 0 without events, and NaN (empty) or infinity (not empty) outside.", "quantifier": "all simulations with impacts of 10^-6 to 10^6 m, energies of 10^-10 to 10^10 TeV and fewer than 2^53 showers, all event lists, all bins (edges of the field of view in degree and in radian after their conversion); all implementations of the power and the cosine with the stated accuracy", "why_tests_cant": "tests compare a few areas with a tolerance; that the error stays relative after two multiplications with the number of showers and two divisions, for all sizes, ranges over all doubles", "anchors": ["pyirf/simulations.py:SimulatedEventsInfo.calculate_n_showers_3d_polar", "pyirf/irf/effective_area.py:effective_area_3d_polar", "pyirf/irf/effective_area.py:effective_area"]}
{"id": "C100", "title": "Log parabolas in double precision", "statement": "LogParabola with a normalization of 10^-30 to 10^30, a in [-5,5], b in [-1,1] and a reference energy of 10^-6 to 10^6 TeV returns for every energy of 10^-6 to 10^6 TeV a positive number whose relative distance from normalization * (E/e_ref)^(a + b*log10(E/e_ref)) is at most 2400 * 2^-53. At E = e_ref it returns exactly the normalization.", "quantifier": "all doubles in these ranges; all implementations of the power (two units of relative precision for bases 10^-13 to 10^13 and exponents up to 20, 1 to any power being 1) and of log10 (two units) with the stated accuracy", "why_tests_cant": "tests compare the flux at a few energies with a tolerance; that rounding the energy ratio, its logarithm and the exponent is amplified by no more than the stated factor, ranges over all doubles", "anchors": ["pyirf/spectral.py:LogParabola.__call__"]}
{"id": "C101", "title": "Power laws with a Gaussian bump in double precision", "statement": "PowerLawWithExponentialGaussian with a normalization of 10^-30 to 10^30, an index in [-5,0], f in [0,10], mu in [-6,6], sigma in [1/10,10] and a reference energy of 10^-6 to 10^6 TeV returns for every energy of 10^-6 to 10^6 TeV a positive number whose relative distance from normalization * (E/e_ref)^index * (1 + f * (exp(exp(-((log10(E/e_ref) - mu)/sigma)^2/2)) - 1)) is at most 26500 * 2^-53. With f = 0 it returns exactly what PowerLaw returns.", "quantifier": "all doubles in these ranges; all implementations of the power, log10 and the exponential function with an accuracy of two units", "why_tests_cant": "tests compare the flux at a few energies with a tolerance; that the square of the distance from the bump, which may be as large as 30000, does not amplify the errors beyond the stated factor, ranges over all doubles", "anchors": ["pyirf/spectral.py:PowerLawWithExponentialGaussian.__call__", "pyirf/spectral.py:PowerLaw.__call__"]}
