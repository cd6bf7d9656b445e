{
 "claims": [
  {
   "property": "C01",
   "status": "proved",
   "theorems": [
    "C01_unbinned_is_list_of_events",
    "C01_throw_keeps_events"
   ],
   "note": "Every history of calls; values are IEEE binary64."
  },
  {
   "property": "C02",
   "status": "proved",
   "theorems": [
    "C02_accept_iff_in_range",
    "C02_range_check"
   ],
   "note": "All doubles, including NaN and infinities."
  },
  {
   "property": "C03",
   "status": "proved",
   "theorems": [
    "C03_handles_are_names",
    "C03_write_read_alias",
    "C03_write_frame",
    "C03_free_variable_constructor_refuted"
   ],
   "note": "All programs over handles. Side finding: the constructor documented as creating a free variable creates a fixed one (refuted theorem)."
  },
  {
   "property": "C04",
   "status": "partial",
   "theorems": [
    "C04_fillWithGrid",
    "C04_reachable_separated",
    "C04_each_cell_once",
    "C04_event_number_counts",
    "C04_grid_of_bin_centres",
    "C04_event_number_restart_refuted"
   ],
   "note": "Holds for a new data set whose event number starts at 0; false after fill, clear, fill: the event number is not reset (refuted theorem)."
  },
  {
   "property": "C05",
   "status": "proved",
   "theorems": [
    "C05_import_export",
    "C05_import_filtered"
   ],
   "note": "For data sets with any history, with and without the index row."
  },
  {
   "property": "C06",
   "status": "proved",
   "theorems": [
    "C06_global_local_global",
    "C06_local_global_local",
    "C06_global_is_sum",
    "C06_number_of_bins",
    "C06_number_of_bins_overflow_refuted"
   ],
   "note": "Bijection for every list of bin counts whose product is at most 2^32; the reported number of bins overflows from 2^31 on."
  },
  {
   "property": "C07",
   "status": "partial",
   "theorems": [
    "C07_value_in_bin_partial",
    "C07_upper_limit_refuted",
    "C07_upper_limit_wrong_bin_refuted",
    "C07_rounding_refuted"
   ],
   "note": "Proved for values at least a rounding margin away from bin edges and from the upper limit. False at the upper limit (exception, or wrong bin with several observables) and false for a value rounding pushes over the limit."
  },
  {
   "property": "C08",
   "status": "proved",
   "theorems": [
    "C08_contents_are_sums",
    "C08_counts_exact",
    "C08_refused_changes_nothing"
   ],
   "note": "Every history."
  },
  {
   "property": "C09",
   "status": "partial",
   "theorems": [
    "C09_unweighted_partial",
    "C09_weights_refuted"
   ],
   "note": "Proved for unweighted histories; false with fractional weights because the sum is kept in an int."
  },
  {
   "property": "C10",
   "status": "proved",
   "theorems": [
    "C10_center_is_midpoint",
    "C10_center_found_again",
    "C10_volumes_fill_box"
   ],
   "note": "Up to explicit rounding bounds, for limits and bin counts that do not overflow."
  },
  {
   "property": "C11",
   "status": "partial",
   "theorems": [
    "C11_default_error",
    "C11_set_error",
    "C11_other_errors_partial",
    "C11_first_set_refuted"
   ],
   "note": "The first setBinError replaces the square-root errors of all other bins by 0."
  },
  {
   "property": "C12",
   "status": "partial",
   "theorems": [
    "C12_flattened_evaluation_partial",
    "C12_variable_bin_refuted",
    "C12_weight_twice_refuted",
    "C12_composite_column_refuted"
   ],
   "note": "Proved for every program and every tree of the 28 modelled basic classes with AddPdf, ProdPdf, EventWeightedAddPdf, MappedPdf and CompositePdf. False with a VariableBinTransform1DPdf (cursor not advanced), with a weight observable given twice, and for a CompositePdf shell observable in column 10 or above."
  },
  {
   "property": "C13",
   "status": "partial",
   "theorems": [
    "C13_metric_reached_partial",
    "C13_metric_applied_partial",
    "C13_fit_control_selects",
    "C13_variable_bin_refuted"
   ],
   "note": "Same domain as C12; false with a VariableBinTransform1DPdf in the tree."
  },
  {
   "property": "C14",
   "status": "partial",
   "theorems": [
    "C14_leaf_consumes_what_it_registers_partial",
    "C14_variable_bin_refuted",
    "C14_same_observable_refuted"
   ],
   "note": "Every modelled class, every vector size. False for VariableBinTransform1DPdf and for a two-dimensional PDF given one observable twice."
  },
  {
   "property": "C15",
   "status": "partial",
   "theorems": [
    "C15_refresh_equals_rebuild_partial",
    "C15_refreshed_value_partial",
    "C15_shared_component_refuted",
    "C15_other_pdf_refuted"
   ],
   "note": "Any sharing of Variables. False when one PDF object occurs twice in the tree, or when another model is refreshed in between."
  },
  {
   "property": "C16",
   "status": "proved",
   "theorems": [
    "C16_getParameters"
   ],
   "note": "Every program and tree."
  },
  {
   "property": "C17",
   "status": "proved",
   "theorems": [
    "C17_columns"
   ],
   "note": "Every program and tree."
  },
  {
   "property": "C18",
   "status": "partial",
   "theorems": [
    "C18_device_formula_partial",
    "C18_unit_components_give_unit",
    "C18_last_weight",
    "C18_weighted_mean",
    "C18_normalize_components_partial",
    "C18_different_observables_refuted",
    "C18_shared_component_refuted"
   ],
   "note": "The device formula is proved for every tree and the integral identities over the reals for every number of components and any grid. False when components have different observables (each is normalised over its own) and when one PDF object is used twice; both shown by concrete programs. The rounding of the sum itself is not bounded."
  },
  {
   "property": "C19",
   "status": "partial",
   "theorems": [
    "C19_extended_partial"
   ],
   "note": "Unbinned fits of every AddPdf on which C22 is proved; binned fits: with_extended in C57_binned_fit_partial."
  },
  {
   "property": "C20",
   "status": "partial",
   "theorems": [
    "C20_device_formula_partial",
    "C20_integral_factorises",
    "C20_unit_components_give_unit",
    "C20_overlap_detection_partial",
    "C20_overlap_normalised_partial",
    "C20_not_adjacent_refuted"
   ],
   "note": "Factorisation proved over the reals for any number of components and observables. Overlap is detected exactly for neighbouring components; false for components that are not neighbours (concrete program with total 1/2). Joint normalisation proved for one observable; with two it is undefined (C23_two_dimensions_refuted)."
  },
  {
   "property": "C21",
   "status": "partial",
   "theorems": [
    "C21_selected_component_partial"
   ],
   "note": "For trees that satisfy tree_ok (no VariableBinTransform1DPdf, sizes in int range)."
  },
  {
   "property": "C22",
   "status": "partial",
   "theorems": [
    "C22_unbinned_nll_partial",
    "C22_any_schedule"
   ],
   "note": "Every program, data set, tree and reduction order, for PDFs normalised over one observable (C23) that are not convolutions or amplitude models."
  },
  {
   "property": "C23",
   "status": "partial",
   "theorems": [
    "C23_one_dimension_partial",
    "C23_any_schedule",
    "C23_two_dimensions_refuted",
    "C23_normalised_tree_partial"
   ],
   "note": "Proved for one observable, every limits, number of cells and reduction schedule. False with two observables: the density reads memory that was never written."
  },
  {
   "property": "C24",
   "status": "partial",
   "theorems": [
    "C24_exp",
    "C24_step",
    "C24_gaussian_whole_line_partial",
    "C24_johnson_whole_line_partial",
    "C24_gaussian_refuted",
    "C24_johnson_refuted",
    "C24_exp_vector_refuted"
   ],
   "note": "Over the reals. ExpPdf with one coefficient: all ranges. StepPdf: exactly when the step lies in the range. GaussianPdf and JohnsonSUPdf return the integral over the whole line, which is refuted as the integral over a bounded range. ExpPdf from a vector of one coefficient is refuted."
  },
  {
   "property": "C25",
   "status": "proved",
   "theorems": [
    "C25_unbinned_layout"
   ],
   "note": "Builds without MPI; for MPI see C30."
  },
  {
   "property": "C26",
   "status": "proved",
   "theorems": [
    "C26_binned_layout"
   ],
   "note": "Builds without MPI. Hypotheses: the bins have contents and the data set has the observables of the PDF; otherwise setData throws or is undefined."
  },
  {
   "property": "C27",
   "status": "partial",
   "theorems": [
    "C27_unbinned_in_bounds_partial",
    "C27_binned_in_bounds_partial",
    "C27_null_data_refuted",
    "C27_binned_then_unbinned_refuted",
    "C27_other_pdf_refuted"
   ],
   "note": "Proved for data attached to the PDF that is evaluated. False in general: setData(nullptr) keeps numEntries, a binned fit control survives unbinned data, and another PDF's setData replaces the buffer."
  },
  {
   "property": "C28",
   "status": "partial",
   "theorems": [
    "C28_nll_keeps_partial",
    "C28_comp_probs_keeps_partial",
    "C28_getValue_refuted",
    "C28_evaluateAtPoints_refuted"
   ],
   "note": "calculateNLL and getCompProbsAtDataPoints keep them; getValue and evaluateAtPoints do not."
  },
  {
   "property": "C29",
   "status": "partial",
   "theorems": [
    "C29_reattached_partial",
    "C29_other_data_refuted"
   ],
   "note": "False: there is one buffer. Attaching the data again before evaluating gives the right value."
  },
  {
   "property": "C30",
   "status": "proved",
   "theorems": [
    "C30_split",
    "C30_nll",
    "C30_nll_error",
    "C30_values",
    "C30_event_number",
    "C30_event_number_refuted"
   ],
   "note": "int and unsigned int below 2^31; MPI transport assumed. The sum is that of all events in some order (rounding bounded by C30_nll_error). Event numbers are local to the rank and exact up to 2^24 only."
  },
  {
   "property": "C31",
   "status": "proved",
   "theorems": [
    "C31_split",
    "C31_sum",
    "C31_last_rank_has_all"
   ],
   "note": "All bins go to the last rank."
  },
  {
   "property": "C32",
   "status": "partial",
   "theorems": [
    "C32_parameters_partial",
    "C32_two_fits_refuted",
    "C32_minuit1_names_refuted"
   ],
   "note": "Proved for every program that flattens the tree, makes one parameter object and then does any sequence of calls, results, assignments and normalisations; no PDF object twice in the tree. Refuted: a second parameter object over a PDF sharing Variables renumbers them; Minuit1 gives Variables of the same name one value."
  },
  {
   "property": "C33",
   "status": "partial",
   "theorems": [
    "C33_changed_partial",
    "C33_blind_refuted",
    "C33_assignment_refuted"
   ],
   "note": "Proved for consecutive calls and blinding offset 0. Refuted with a blinding offset (a change can go unreported) and when the program assigns the value between two calls."
  },
  {
   "property": "C34",
   "status": "partial",
   "theorems": [
    "C34_current_point_partial",
    "C34_blind_refuted",
    "C34_no_parameters_refuted"
   ],
   "note": "Proved for blinding offset 0 and at least one parameter; with an offset the values move at every call; without parameters the behaviour is undefined."
  },
  {
   "property": "C35",
   "status": "partial",
   "theorems": [
    "C35_results_partial",
    "C35_free_variable_refuted",
    "C35_arrays_stale_refuted"
   ],
   "note": "Registration and write-back proved for every parameter set. Refuted: the constructor documented as free variable without limits makes a constant; the flattened array keeps the last tried point after the fit."
  },
  {
   "property": "C36",
   "status": "partial",
   "theorems": [
    "C36_during_fit_partial",
    "C36_combined_component_refuted",
    "C36_second_fit_refuted",
    "C36_after_fit_refuted"
   ],
   "note": "Holds during a fit for a component that has no components of its own, is not blinded, and whose values change only by the cost function's calls. Refuted for combined components, for the first call of a second fit, and for evaluation after a fit or an assignment."
  },
  {
   "property": "C37",
   "status": "partial",
   "theorems": [
    "C37_round_trip_partial",
    "C37_precision",
    "C37_exactness_refuted",
    "C37_same_names_refuted",
    "C37_missing_file_refuted"
   ],
   "note": "Every number is restored up to the six digits printed (relative error below 6e-6); false for exact equality, for two parameters of one name and for a missing file (the loop never ends). Number printing and parsing are parameters of the model."
  },
  {
   "property": "C38",
   "status": "partial",
   "theorems": [
    "C38_round_trip_partial",
    "C38_missing_file_refuted",
    "C38_infinity_refuted",
    "C38_no_final_space_refuted"
   ],
   "note": "Up to the digits printed. A missing file and an inf or nan make the loop endless; a last number not followed by white space is dropped."
  },
  {
   "property": "C39",
   "status": "proved",
   "theorems": [
    "C39_exact_in_reals",
    "C39_step_correction_exact",
    "C39_error_bound"
   ],
   "note": ""
  },
  {
   "property": "C40",
   "status": "partial",
   "theorems": [
    "C40_never_negative",
    "C40_sum_covers",
    "C40_scale_partial",
    "C40_negative_scale_refuted",
    "C40_product_relative",
    "C40_product_refuted"
   ],
   "note": "Sums and differences cover all values; products and quotients store the relative uncertainty as the absolute one (refuted), and a negative factor throws."
  },
  {
   "property": "C41",
   "status": "partial",
   "theorems": [
    "C41_gpu_synced_partial",
    "C41_gpu_exact",
    "C41_gpu_minus_zero_refuted",
    "C41_gpu_clear_device_refuted",
    "C41_cpu_synced_partial",
    "C41_cpu_push_refuted"
   ],
   "note": "Proved for histories without clear_device (GPU) and without pushes after a sync (CPU); false otherwise."
  },
  {
   "property": "C42",
   "status": "partial",
   "theorems": [
    "C42_in_bounds_partial",
    "C42_in_bounds_double_partial",
    "C42_default_constants_refuted",
    "C42_negative_limit_refuted"
   ],
   "note": "Proved when the integration limits and the observable's limits are multiples of the step (for reals and for doubles whose quotients round to whole numbers); refuted otherwise, already with the default constants. The shared-cache constructor: C118."
  },
  {
   "property": "C43",
   "status": "partial",
   "theorems": [
    "C43_smoothing",
    "C43_evaluation_partial",
    "C43_upper_limit_refuted",
    "C43_mean_between",
    "C43_no_smoothing",
    "C43_normalised"
   ],
   "note": "The smoothing itself is proved in full (any dimension, any arithmetic). Evaluation of the smoothed histogram is proved for values inside a bin; at the upper limit it reads outside (refuted)."
  },
  {
   "property": "C44",
   "status": "partial",
   "theorems": [
    "C44_monomials",
    "C44_count_partial",
    "C44_count_refuted",
    "C44_evaluation"
   ],
   "note": "Evaluation proved for every n and N; the count while (N+1)...(N+n) fits an unsigned int (it wraps beyond: 10 observables of degree 5)."
  },
  {
   "property": "C45",
   "status": "partial",
   "theorems": [
    "C45_partition_of_unity_partial",
    "C45_nonnegative",
    "C45_mindeg_refuted"
   ],
   "note": "Partition of unity for mindeg = 0, every degree and point; false for mindeg > 0."
  },
  {
   "property": "C46",
   "status": "partial",
   "theorems": [
    "C46_boundary_partial",
    "C46_massless_refuted"
   ],
   "note": "Exact real arithmetic; the boundary is the existence of three on-shell momenta. At m12 = 0 with massless daughters 1, 2 the code accepts points outside (refuted, in doubles)."
  },
  {
   "property": "C47",
   "status": "proved",
   "theorems": [
    "C47_four_vectors"
   ],
   "note": "Exact real arithmetic: rounding is not bounded."
  },
  {
   "property": "C48",
   "status": "partial",
   "theorems": [
    "C48_normalisation_partial",
    "C48_unequal_bins_refuted",
    "C48_efficiency_change_refuted"
   ],
   "note": "Amp3Body in exact arithmetic, any number of resonances, any history of calls in which changes other than of the amplitudes are announced: value, reality, non-negativity, and the value at every event, for grids with equally many bins in m12 and m13. Refuted: for different numbers of bins the width of the m13 bins is computed with the number of m12 bins; when only the efficiency changes, kept integrals are used. Rounding is not covered."
  },
  {
   "property": "C49",
   "status": "proved",
   "theorems": [
    "C49_fit_fractions"
   ],
   "note": "Exact arithmetic (the real-number reading of the generic model); rounding is not covered."
  },
  {
   "property": "C50",
   "status": "partial",
   "theorems": [
    "C50_evaluation_partial",
    "C50_outside_partial",
    "C50_integral_partial",
    "C50_outside_refuted",
    "C50_integral_refuted"
   ],
   "note": "Evaluation inside the Dalitz plot for any efficiency tree; cursor outside and integral for efficiencies without components. Refuted for an efficiency with components: outside the Dalitz plot the cursor is left inside the efficiency, and the integral uses only the last function of the efficiency."
  },
  {
   "property": "C51",
   "status": "partial",
   "theorems": [
    "C51_value_partial",
    "C51_weights_refuted",
    "C51_integral_refuted"
   ],
   "note": "Refuted: Amp3Body_IS registers no amplitude parameter; the weights used are the beginning of the resonances' own parameter lists. All integrators evaluate the last resonance. C51_value_partial gives what is computed for every input."
  },
  {
   "property": "C52",
   "status": "partial",
   "theorems": [
    "C52_cache_partial",
    "C52_TD_cache",
    "C52_stale_refuted",
    "C52_overflow_refuted"
   ],
   "note": "Exact arithmetic. Amp4Body_TD: every assignment of lineshapes to amplitudes, every announced history. Amp4Body: only when amplitude i changes together with lineshape i. Refuted otherwise: the flags are computed per lineshape but used per amplitude, so an amplitude keeps stale values; with more lineshapes than amplitudes the flag array is overrun. The kept arrays are modelled per event and slot, not as one flat array."
  },
  {
   "property": "C53",
   "status": "proved",
   "theorems": [
    "C53_integral"
   ],
   "note": "Exact real arithmetic."
  },
  {
   "property": "C54",
   "status": "partial",
   "theorems": [
    "C54_cell_share",
    "C54_generation_partial",
    "C54_edge_refuted"
   ],
   "note": "One observable (fillMCDataSimple). The choice of the cell is exact in real arithmetic and within n/2^50 in doubles; an event lies in its cell when the offset keeps off the edge by the rounding error. A draw at the edge of the first cell can throw and leave the PDF attached to destroyed data (refuted)."
  },
  {
   "property": "C55",
   "status": "partial",
   "theorems": [
    "C55_reads_partial",
    "C55_outside",
    "C55_knots_partial",
    "C55_sizes_refuted",
    "C55_last_refuted"
   ],
   "note": "Reads and zero outside in any arithmetic (doubles included); values at the knots in exact arithmetic. Refuted at the last knot, where the value is always zero, and for fewer than 2 or more than 100 knots, where the constructor leaves its arrays."
  },
  {
   "property": "C56",
   "status": "partial",
   "theorems": [
    "C56_formulas_partial",
    "C56_gaussian",
    "C56_other_formulas_partial",
    "C56_breit_wigner_refuted",
    "C56_scaled_gaussian_refuted",
    "C56_corr_gaussian_refuted",
    "C56_exp_poly_offset_refuted",
    "C56_offset_polynomial_refuted",
    "C56_voigtian_refuted",
    "C56_novosibirsk_refuted",
    "C56_kin_limit_refuted"
   ],
   "note": "The text of each formula read in exact real arithmetic. Sixteen classes follow their header, eight do not; Landau, VariableBinTransform1D, DalitzVeto and SquareDalitzEff have no closed formula in their header. Floating-point rounding is not bounded here."
  },
  {
   "property": "C57",
   "status": "partial",
   "theorems": [
    "C57_binned_fit_partial",
    "C57_scale_refuted"
   ],
   "note": "Every term is as stated except that c_totalEvents is the number of bins, not of events."
  },
  {
   "property": "C58",
   "status": "partial",
   "theorems": [
    "C58_own_histogram_partial",
    "C58_filled_later_refuted",
    "C58_replaced_refuted",
    "C58_table_overrun_refuted"
   ],
   "note": "Holds when every PDF gets its histogram before the next one is created; otherwise refuted."
  },
  {
   "property": "C59",
   "status": "partial",
   "theorems": [
    "C59_value_partial",
    "C59_symmetric_partial",
    "C59_asymmetric_refuted"
   ],
   "note": "Exact real arithmetic, limits that are multiples of the step. An even resolution gives the documented integral up to O(step); an asymmetric one is mirrored (refuted)."
  },
  {
   "property": "C60",
   "status": "proved",
   "theorems": [
    "C60_lineshape_masses"
   ],
   "note": "Exact real arithmetic: rounding is not bounded."
  },
  {
   "property": "C61",
   "status": "partial",
   "theorems": [
    "C61_mean_partial",
    "C61_value_partial",
    "C61_efficiency_refuted"
   ],
   "note": "Exact arithmetic; single four-body PDF; no toy generation. The normalisation is the mean of |sum a_i A_i|^2; the value at an event has the efficiency as a factor. Refuted for an efficiency different from 1, which the normalisation leaves out."
  },
  {
   "property": "C62",
   "status": "partial",
   "theorems": [
    "C62_generation_refuted",
    "C62_TD_generation_refuted"
   ],
   "note": "Refuted for every history, of Amp4Body and Amp4Body_TD: after GenerateSig the normalisation is 1 for the rest of the program. Nothing positive remains to be proved beyond C61 (no generation)."
  },
  {
   "property": "C63",
   "status": "partial",
   "theorems": [
    "C63_capacity_refuted",
    "C63_two_refuted",
    "C61_mean_partial",
    "C52_cache_partial"
   ],
   "note": "A single PDF whose table fits: C61_mean_partial and C52_cache_partial. Refuted: more than 500 table entries; two PDFs, where the second overwrites the starts of the first."
  },
  {
   "property": "C64",
   "status": "partial",
   "theorems": [
    "C64_smooth_partial",
    "C64_changed_refuted",
    "C64_two_refuted"
   ],
   "note": "Exact arithmetic; a spline whose derivatives were computed with the current coefficients. Refuted after the coefficients change (the derivatives are computed by the constructor only) and with two splines (one table for all)."
  },
  {
   "property": "C65",
   "status": "partial",
   "theorems": [
    "C65_first_refuted",
    "C65_reads_refuted"
   ],
   "note": "Refuted for every choice of values: at the first knot the tabulated width is 0 whatever was given, and between the knots numbers beyond the lineshape's own constants are read. There is no sub-domain on which the claim holds that would be worth stating. Eigen's matrix inverse is an arbitrary function in the model."
  },
  {
   "property": "C66",
   "status": "proved",
   "theorems": [
    "C66_average"
   ],
   "note": "Exact real arithmetic; the rate's integral must not be 0."
  },
  {
   "property": "C67",
   "status": "proved",
   "theorems": [
    "C67_amplitude",
    "C67_not_negative"
   ],
   "note": "Exact real arithmetic."
  },
  {
   "property": "C68",
   "status": "partial",
   "theorems": [
    "C68_smeared_partial",
    "C68_series_partial",
    "C68_mixing_refuted"
   ],
   "note": "Exact arithmetic. Holds for x = 0, and for any x for the rate with the series of cos and sin cut off. Refuted for every x other than 0, at every measured time."
  },
  {
   "property": "C69",
   "status": "partial",
   "theorems": [
    "C69_true_time",
    "C69_measured_time_partial",
    "C69_mixing_refuted"
   ],
   "note": "Exact arithmetic. Integral over the true time for all x; over the measured time for x = 0 and up to an error of order x^4. Refuted for x other than 0 unless two terms cancel."
  },
  {
   "property": "C70",
   "status": "partial",
   "theorems": [
    "C70_smeared_partial",
    "C70_mixing_refuted",
    "C70_series_refuted"
   ],
   "note": "Exact arithmetic. Holds for x = 0. Refuted for x other than 0: the series is cut off, and the part above the threshold uses wrong moments, so that the result is not even the smeared cut-off rate."
  },
  {
   "property": "C71",
   "status": "partial",
   "theorems": [
    "C71_true_time",
    "C71_measured_time_partial"
   ],
   "note": "Exact arithmetic. Integral over the true time for all x; over the measured time for x = 0."
  },
  {
   "property": "C72",
   "status": "partial",
   "theorems": [
    "C72_moments",
    "C72_smeared_partial",
    "C72_tail_refuted",
    "C72_mixing_refuted",
    "C72_knots_refuted"
   ],
   "note": "Exact arithmetic. Holds for x = 0, two to eight knots from 0 on and a straight last piece. Refuted for a curved last piece (the tail takes value and slope of the straight part only), for x other than 0 (series cut off, and wrong powers of x in it) and for more than eight knots (array overflow)."
  },
  {
   "property": "C73",
   "status": "partial",
   "theorems": [
    "C73_term",
    "C73_true_time_partial",
    "C73_series_partial",
    "C73_measured_time_partial",
    "C73_mixing_refuted",
    "C73_first_knot_refuted"
   ],
   "note": "Exact arithmetic. Both integrals for x = 0, knots from 0 on and a straight last piece; for any x with the series cut off after the fifth power below the last knot. Refuted for x other than 0, and for a first knot other than 0: host and device treat it differently."
  },
  {
   "property": "C74",
   "status": "partial",
   "theorems": [
    "C74_value_partial",
    "C74_resolution_partial",
    "C74_smeared_partial",
    "C74_not_negative",
    "C74_header_refuted"
   ],
   "note": "Exact arithmetic; events without mistag; the range is not changed after the first call; getFractions is called only when grid and efficiency are symmetric. Refuted for the formula printed in the header, whose coefficients |A+B|^2, |A-B|^2 are not those of the code; the code has the physical ones."
  },
  {
   "property": "C75",
   "status": "partial",
   "theorems": [
    "C75_mixture_partial",
    "C75_lifetime_refuted",
    "C75_right_tag_refuted"
   ],
   "note": "Exact arithmetic, true decay time. Holds with 1 - mistag in place of b and for the lifetime 0.4101 and mixing parameters 0.0039, 0.0065 written in the code. Refuted for longer lifetimes (half of the tags wrong), and for the documented meaning of the variable."
  },
  {
   "property": "C76",
   "status": "partial",
   "theorems": [
    "C76_truth_partial",
    "C76_resolution_partial",
    "C76_three_gauss_partial",
    "C76_three_gauss_ext_partial",
    "C76_mistag_refuted",
    "C76_range_refuted"
   ],
   "note": "Exact arithmetic. True decay time: integral of the values, with the mistag that the observable holds. Other resolutions: the true time with their acceptance, without mistag. Refuted when the events have another mistag than the observable holds, and after a change of the limits (read at the first call only)."
  },
  {
   "property": "C77",
   "status": "partial",
   "theorems": [
    "C77_integrals_partial",
    "C77_fractions_refuted",
    "C77_then_normalize_refuted"
   ],
   "note": "Exact arithmetic. The numbers returned are the interference integrals over the area of a cell, not fractions. Later normalisations are unchanged if grid and efficiency are symmetric under exchange of the masses (C76_truth_partial allows getFractions in the history then); refuted otherwise."
  },
  {
   "property": "C78",
   "status": "partial",
   "theorems": [
    "C78_own_waves_partial",
    "C78_many_resonances_refuted",
    "C78_many_pdfs_refuted"
   ],
   "note": "At most 20 PDFs with at most 16 resonances each. Refuted beyond: wave of the next PDF, write beyond the array."
  },
  {
   "property": "C79",
   "status": "partial",
   "theorems": [
    "C79_value_partial",
    "C79_phase_partial",
    "C79_mother_refuted",
    "C79_width_refuted"
   ],
   "note": "Exact arithmetic. Value: spin 0, or normalised form factors with radius 0 of the mother; phase and width: normalised form factors. Refuted: the momentum in the form factor of the mother is s/(2M); without normalised form factors the width is not the one that was set (spin 1)."
  },
  {
   "property": "C80",
   "status": "partial",
   "theorems": [
    "C80_angle_partial",
    "C80_mixing_refuted"
   ],
   "note": "Exact arithmetic. All kinds but RhoOmegaMix, where the mixing term contains the angular factor twice."
  },
  {
   "property": "C81",
   "status": "partial",
   "theorems": [
    "C81_renamed_partial",
    "C81_refuted"
   ],
   "note": "Exact arithmetic. RBW, FLATTE (not symmetrised), Gauss, NonRes, LASS in the pair (23), and every kind if the three masses are equal. Refuted for GS, RhoOmegaMix (masses of daughters 2 and 3 whatever the pair) and LASS (pair (13) uses daughters 1 and 2)."
  },
  {
   "property": "C82",
   "status": "partial",
   "theorems": [
    "C82_exchange_partial",
    "C82_spin1",
    "C82_spin1_refuted",
    "C82_ignored_refuted"
   ],
   "note": "Exact arithmetic. RBW of spin 0 and 2 in the pairs (12) and (13), FLATTE. Refuted: RBW of spin 1 is antisymmetric; GS and RhoOmegaMix do not look at the switch."
  },
  {
   "property": "C83",
   "status": "partial",
   "theorems": [
    "C83_value_partial",
    "C83_phase_partial",
    "C83_width_refuted"
   ],
   "note": "Exact arithmetic, daughters of equal masses, spin 0 or normalised form factors with radius 0 of the mother (value); the mass-dependent width lacks the factor m0/sqrt(s), so the published formula is refuted away from the peak."
  },
  {
   "property": "C84",
   "status": "partial",
   "theorems": [
    "C84_background_partial",
    "C84_resonance_refuted"
   ],
   "note": "Exact arithmetic, spin 0. The background alone is unitary for all parameters and phases; with the resonance 1 + 2 i T has modulus 1 + 2 m0 at the nominal mass, for all parameters (wrong sign of the imaginary part and a factor m0 missing in the width)."
  },
  {
   "property": "C85",
   "status": "proved",
   "theorems": [
    "C85_value",
    "C85_continuous"
   ],
   "note": "Exact arithmetic, s > 0; finite and continuous if the couplings are positive and the nominal mass is at least two pion masses."
  },
  {
   "property": "C86",
   "status": "partial",
   "theorems": [
    "C86_propagator_open",
    "C86_propagator_closed_partial",
    "C86_inverse_partial",
    "C86_value_open",
    "C86_value_partial",
    "C86_below_poles_partial",
    "C86_pivot_refuted"
   ],
   "note": "Exact arithmetic. Above all thresholds without restriction; with closed channels where K is non-negative, or where all blocks in the upper left corner are regular. Elsewhere the program divides by zero, as it does not exchange rows (refuted with IEEE doubles)."
  },
  {
   "property": "C87",
   "status": "partial",
   "theorems": [
    "C87_two_body",
    "C87_jump_refuted"
   ],
   "note": "Exact arithmetic. The two-particle phase spaces are continuous; the phase space of four pions, and with it the amplitude, jumps at s = 1."
  },
  {
   "property": "C88",
   "status": "partial",
   "theorems": [
    "C88_rbw_partial",
    "C88_sbw_partial",
    "C88_nonres_partial",
    "C88_orbital_refuted"
   ],
   "note": "Exact arithmetic, M_PI as the double it is. Proved up to orbital angular momentum 2 at masses with real momenta. Above 2 the amplitude is zero with a form factor, and RBW has no width without one (refuted)."
  },
  {
   "property": "C89",
   "status": "proved",
   "theorems": [
    "C89"
   ],
   "note": "Exact arithmetic; orbital angular momentum 0 or no form factor."
  },
  {
   "property": "C90",
   "status": "partial",
   "theorems": [
    "C90_glass",
    "C90_lass_partial",
    "C90_lass_refuted"
   ],
   "note": "Exact arithmetic, arctangent exact. GLASS holds. LASS is the stated sum, but is unitary if and only if the normalisation constant of RBW, which it includes, is one (refuted otherwise)."
  },
  {
   "property": "C91",
   "status": "proved",
   "theorems": [
    "C91"
   ],
   "note": "Exact arithmetic. The couplings and channel masses are those written in the program; the width argument has no effect."
  },
  {
   "property": "C92",
   "status": "partial",
   "theorems": [
    "C92_value_partial",
    "C92_jump_refuted",
    "C92_same_refuted"
   ],
   "note": "Exact arithmetic. Value at all masses, finite above two pions, continuous except at the mass of four pions, where both jump. Bugg and Bugg3 are proportional below four pions and at no mass above."
  },
  {
   "property": "C93",
   "status": "partial",
   "theorems": [
    "C93_partial",
    "C93_isospin_refuted"
   ],
   "note": "Exact arithmetic. Isospin 1/2 proved, below K eta' where K12 is not zero. Isospin 3/2 uses the phase space of K eta' (refuted)."
  },
  {
   "property": "C94",
   "status": "partial",
   "theorems": [
    "C94_knots_partial",
    "C94_width_partial",
    "C94_jump_refuted",
    "C94_unwritten_refuted",
    "C94_inside_refuted",
    "C94_outside_refuted"
   ],
   "note": "The values at the knots and the width hold for a table that contains them (exact arithmetic). Refuted: jump at the end of each interval that starts with a curvature; with four or more knots the curvatures come from memory never written; with two or three the amplitude reads constants of others if the mass of the pair or the nominal mass is inside the range, and has no width otherwise."
  },
  {
   "property": "C95",
   "status": "proved",
   "theorems": [
    "C95_invariant",
    "C95_reflection",
    "C95_no_other"
   ],
   "note": "Exact arithmetic."
  },
  {
   "property": "C96",
   "status": "partial",
   "theorems": [
    "C96_covariant_partial",
    "C96_form_factor",
    "C96_tensor_partial",
    "C96_tensor_refuted"
   ],
   "note": "Exact arithmetic. The kind with a tensor meson divides the trace term of the mother by the mass squared of the tensor meson (difference given exactly, refuted by an example). The form factors use the constructor argument named mD0 as the radius of the mother; without it the radius is 1.86484."
  },
  {
   "property": "C97",
   "status": "proved",
   "theorems": [
    "C97_first",
    "C97_second",
    "C97_pairs"
   ],
   "note": "Exact arithmetic."
  },
  {
   "property": "C98",
   "status": "proved",
   "theorems": [
    "C98_PtoVP",
    "C98_VS",
    "C98_AtoSP",
    "C98_V1V2"
   ],
   "note": "Exact arithmetic."
  },
  {
   "property": "C99",
   "status": "proved",
   "theorems": [
    "C99_gauss",
    "C99_nonres",
    "C99_mixing"
   ],
   "note": "Exact arithmetic. What GS and RBW are is the subject of C79 and C83."
  },
  {
   "property": "C100",
   "status": "partial",
   "theorems": [
    "C100_nan_refuted",
    "C100_refuted",
    "C100_foreign_refuted"
   ],
   "note": "Refuted in binary64 for every histogram: with up to four observables the number of dimensions is taken as zero and the value is 0/0, with five or more the limits are read from parameters that the PDF did not register. The parameters given to the constructor are not looked at."
  },
  {
   "property": "C101",
   "status": "partial",
   "theorems": [
    "C101_first_partial",
    "C101_refuted"
   ],
   "note": "Exact arithmetic. Only the first element is right; all 25 elements are the same expression, so the result is not the inverse of any matrix. No other code of the program calls the function."
  },
  {
   "property": "C102",
   "status": "partial",
   "theorems": [
    "C102_value_partial",
    "C102_rate_partial",
    "C102_twice_refuted"
   ],
   "note": "Exact arithmetic, one four-body PDF in the program, changes announced as in C52. Holds when no amplitude stands twice in one of the lists; an amplitude that stands twice in the first list and once in the second counts twice in the second sum."
  },
  {
   "property": "C103",
   "status": "partial",
   "theorems": [
    "C103_mean_partial",
    "C103_efficiency_refuted"
   ],
   "note": "Exact arithmetic, TruthResolution, unweighted events, any batches, before any GenerateSig; without the efficiency, which the value contains and the normalisation does not."
  },
  {
   "property": "C104",
   "status": "partial",
   "theorems": [
    "C104_integer_partial",
    "C104_fraction_refuted"
   ],
   "note": "Exact arithmetic. Holds for whole-number weights; the sum of the weights is taken in int, so that fractions are lost: with the weight 3/2 the result is wrong by the factor 3/2."
  },
  {
   "property": "C105",
   "status": "proved",
   "theorems": [
    "C105_host_device"
   ],
   "note": "For any arithmetic and any sequence of calls."
  },
  {
   "property": "C106",
   "status": "partial",
   "theorems": [
    "C106_accept_partial",
    "C106_generated_partial",
    "C106_batches_partial",
    "C106_envelope_refuted"
   ],
   "note": "Exact arithmetic, TruthResolution. For any number of events the weight is 1.1 times the largest value at decay time 0, and repeated calls that do not throw all use the envelope of the first. Holds where 2 (|A| + |B|)^2 times the efficiency does not exceed the weight of the envelope; that weight is taken from the values at decay time 0, where only A contributes, so with |B| > |A| the envelope is exceeded and the event is kept whatever its value."
  },
  {
   "property": "C107",
   "status": "proved",
   "theorems": [
    "C107_variables",
    "C107_variables_back",
    "C107_event_back"
   ],
   "note": "Exact real arithmetic: rounding is not bounded (an argument of acos just above 1 would give NaN). The operations of mcbooster::Vector4R, whose source is not in the repository, are as documented there. Collinear pairs, for which the code divides 0 by 0, are excluded."
  },
  {
   "property": "C108",
   "status": "partial",
   "theorems": [
    "C108_histogram_partial",
    "C108_third_mass_refuted"
   ],
   "note": "Exact arithmetic, the Amp3Body itself is plotted, grids with equally many bins in m12 and m13 (see C48). Refuted for getZval: it is the squared mother mass minus the squares of m12 and m13, which already are squared masses, and lacks the daughter masses."
  },
  {
   "property": "C109",
   "status": "partial",
   "theorems": [
    "C109_announced_partial",
    "C109_stale_refuted"
   ],
   "note": "Exact arithmetic. Holds when the user calls setDataSize again after the plot. Otherwise refuted: the waves kept are those of the plot, so event number e of the fit is evaluated with the amplitude of the e-th cell of the plot (and beyond the end of the array if there are more events than cells)."
  },
  {
   "property": "C110",
   "status": "proved",
   "theorems": [
    "C110_returned",
    "C110_normalisation",
    "C110_decays",
    "C110_extremes"
   ],
   "note": "Exact arithmetic, at least one and at most 2^31 events. What mcbooster does (momenta, phase-space weights, random numbers, comparison in FlagAcceptReject) is given, since it is not in the repository. The normalisation is the sum over the grid for grids with equally many bins (C48), and one common factor otherwise."
  },
  {
   "property": "C111",
   "status": "partial",
   "theorems": [
    "C111_normalisation",
    "C111_attached_again_partial",
    "C111_data_refuted"
   ],
   "note": "Exact arithmetic. The normalisation is untouched, and attaching the data again restores the values if there are not more events than were generated or if setDataSize is called. Refuted otherwise: dev_event_array and numEntries stay those of the generated events although getData() returns the old data; with setData alone and more events the waves are written beyond their end."
  },
  {
   "property": "C112",
   "status": "partial",
   "theorems": [
    "C112_four_body_partial",
    "C112_three_body_refuted"
   ],
   "note": "Holds for Amp4Body and Amp4Body_TD (E, px, py, pz). Refuted for Amp3Body: only three of the four components (E, px, py) are copied."
  },
  {
   "property": "C113",
   "status": "partial",
   "theorems": [
    "C113_rule_partial",
    "C113_near_zero_partial"
   ],
   "note": "Exact arithmetic. Proved: for z above the real axis with |z|^2 >= 1e-7 the value is exactly the 25-point rule with the term of the pole; the tables agree with the Gaussian to 1e-12, h / PI to 1e-6, and z is at least 0.0099 from every node but 0; near zero the value is the given ratio of polynomials. Missing: the error of the rule and of the ratio with respect to w(z), and rounding."
  },
  {
   "property": "C114",
   "status": "partial",
   "theorems": [
    "C114_reflection",
    "C114_symmetric",
    "C114_positive_partial"
   ],
   "note": "Exact arithmetic. The symmetry is proved for all arguments; positivity where the Breit-Wigner width is at least 18 times the resolution (no pole term)."
  },
  {
   "property": "C115",
   "status": "partial",
   "theorems": [
    "C115_positive_partial",
    "C115_device_partial",
    "C115_limits_refuted"
   ],
   "note": "Exact arithmetic, equal up to the decimal constant for 1 / sqrt 2. Refuted for exactly one zero width: the check for positive arguments throws before the limits announced in the comments."
  },
  {
   "property": "C116",
   "status": "proved",
   "theorems": [
    "C116_spin_factor",
    "C116_lineshape",
    "C116_data",
    "C116_covariant_partial"
   ],
   "note": "Exact arithmetic. C116_covariant_partial names the value for the spin factors for which C96 does (massive particles, not DtoTP1, no form factor); the other theorems have no such limit."
  },
  {
   "property": "C117",
   "status": "partial",
   "theorems": [
    "C117_current_partial",
    "C117_constants_refuted",
    "C117_limits_refuted",
    "C117_unannounced_refuted"
   ],
   "note": "Any arithmetic, all histories: holds when the data are attached after the constants were set and changes of the parameters are reported by parametersChanged(). Refuted: constants set after the data were attached (the loop leaves the new work space), limits of the observable changed after the constants were set, and a change that is not reported (C33)."
  },
  {
   "property": "C118",
   "status": "partial",
   "theorems": [
    "C118_sum_partial",
    "C118_register_refuted",
    "C118_register_alone_refuted",
    "C118_register_zero_refuted",
    "C118_metric_refuted",
    "C118_second_refuted"
   ],
   "note": "Only the sum of the first convolution of a program, made for no others and with a model that registers no constants, is right (exact arithmetic, any block size). Refuted: registerOthers never accepts the right number of convolutions (it reads the wrong constant) and accepts a convolution registered alone, or reads beyond the constants; the second convolution uses the model of the first; the cursor is not advanced, so that the metric taker calls the PDF itself as the metric, for every program."
  },
  {
   "property": "C119",
   "status": "partial",
   "theorems": [
    "C119_getValue_partial",
    "C119_evaluateAtPoints_partial",
    "C119_no_data_refuted"
   ],
   "note": "getValue and evaluateAtPoints are proved for every tree that C12 and C23 cover, at any point and after any history that leaves the observables numbered for this PDF: Eval, Prob and NLL, and the normalised density at every bin centre. Refuted before any data were attached: the observables have no position yet when the PDF is normalised, and a PDF without an analytic integral writes and reads outside its event. Missing: PDFs normalised over several observables, ConvolutionPdf and the amplitude models."
  }
 ]
}