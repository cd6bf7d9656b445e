# Formal model of GooFit — design

Sources: `/repo` (GooFit at the pinned commit), read as text, never built or run.  Model, specifications and proofs:
`rocq/theories`, Coq 8.16.1, logical name `Verif`.

## How the model is organised

Each area has up to four kinds of file.

* `XModel.v` (also `LeafGen.v`, `LeafFormulas.v`, `AmpDevice.v`, `F64.v`, `Reduce.v`) — executable Gallina transcription of
  the code, function by function, every definition citing file and lines.  No proofs.
* `XSpec.v` — the small independent specification the property is stated against (mathematical objects only: lists of
  events, finite sums, integrals, mixed-radix numbers).  It does not use the helpers of the proofs.
* `XProofs*.v` — lemmas.
* `XProps.v` — the property theorems, each followed by `Print Assumptions` and by an `Example` that a concrete
  non-trivial case meets the hypotheses.

Values.  Three representations are used and every file says which.

1. *Abstract arithmetic*: structural code (buffers, layouts, trees, caches) is modelled over an arbitrary type with
   arbitrary operations (`LeafGen.ops`, `LeafGen.mlib`, or section variables that are discharged), so the theorems hold
   for IEEE doubles as well as for any other arithmetic.
2. *IEEE binary64* (Flocq `BinarySingleNaN`, round to nearest even): where rounding, NaN or comparisons decide (range
   checks, bin numbers, Neumaier summation, file precision, event generation).
3. *Real numbers* (`Coq.Reals`, Coquelicot): formulas and integrals.  The same generic transcription is read in the
   reals (`FormulaSpec.R_ops`).  This idealises rounding and the comment of each such definition says so.

Machine integers: wrap-around of `unsigned int`, `int`, `size_t` is written into the model where a property depends on
it; otherwise `nat`/`Z` are used and the comment says so.

Undefined behaviour (out-of-bounds read or write, null dereference, reading an uninitialised value, calling through a
wrong pointer) is a distinct outcome (`None`, `NUB`, `BUB`, `DUB`, ...) of the model function.

When the faithful model violates a property, the violation is proved as `..._refuted` with a witness (or for every
input), and the part that does hold is proved next to it with its exact precondition as `..._partial`.

## Trusted base

* Coq's kernel (8.16.1) and the reduction machine used by `vm_compute`.
* The axioms listed below, all from the standard library.  No axiom is declared in `rocq/theories`; there are no
  functors, module types, section-less hypotheses, disabled checks, admitted proofs or plugins.
* The reading of the C++ text in the `*Model.v` files: that each definition means what the cited lines mean.  This is
  the part a reader has to check by eye.  Assumptions made in that reading:
  - `fptype` is `double`; every operation is rounded once, to nearest even, in source order: no fused multiply-add, no
    excess precision, no `-ffast-math`, and no reassociation by the compiler;
  - `exp`, `log`, `sin`, `erf`, ... are arbitrary functions in the generic model and the exact functions in the real
    reading; `round`, `floor` and conversions to integers are the IEEE ones and undefined outside the target's range;
  - `thrust::transform_reduce` may combine the terms in any tree and order (`Reduce.v`);
  - memory is a list of cells; an access outside is undefined behaviour rather than a read of a neighbour.

### `Print Assumptions`

SFD = `ClassicalDedekindReals.sig_forall_dec`, SND = `ClassicalDedekindReals.sig_not_dec`, CL = `Classical_Prop.classic`,
FE = `FunctionalExtensionality.functional_extensionality_dep`.  SFD, SND and FE come with `Coq.Reals`; CL comes from
`Coq.Logic.Classical_Prop` through Flocq and Coquelicot.  Every theorem named in `MANIFEST.json` is in one of these groups.

* **Closed under the global context** (42 theorems): `C04_each_cell_once`, `C06_global_local_global`, `C06_local_global_local`, `C06_global_is_sum`, `C06_number_of_bins`, `C06_number_of_bins_overflow_refuted`, `C37_round_trip_partial`, `C37_missing_file_refuted`, `C38_round_trip_partial`, `C38_missing_file_refuted`, `C38_infinity_refuted`, `C38_no_final_space_refuted`, `C41_gpu_synced_partial`, `C41_gpu_exact`, `C41_gpu_minus_zero_refuted`, `C41_gpu_clear_device_refuted`, `C41_cpu_synced_partial`, `C41_cpu_push_refuted`, `C43_smoothing`, `C44_monomials`, `C44_count_partial`, `C44_count_refuted`, `C55_reads_partial`, `C55_outside`, `C55_sizes_refuted`, `C58_own_histogram_partial`, `C58_filled_later_refuted`, `C58_replaced_refuted`, `C58_table_overrun_refuted`, `C63_capacity_refuted`, `C78_own_waves_partial`, `C78_many_resonances_refuted`, `C78_many_pdfs_refuted`, `C94_unwritten_refuted`, `C94_inside_refuted`, `C105_host_device`, `C112_four_body_partial`, `C117_current_partial`, `C118_register_refuted`, `C118_register_zero_refuted`, `C118_metric_refuted`, `C118_register_alone_refuted`
* **SFD** (1 theorems): `C99_nonres`
* **SFD+FE** (12 theorems): `C18_unit_components_give_unit`, `C18_last_weight`, `C18_weighted_mean`, `C20_integral_factorises`, `C20_unit_components_give_unit`, `C39_exact_in_reals`, `C40_sum_covers`, `C40_scale_partial`, `C40_negative_scale_refuted`, `C40_product_relative`, `C40_product_refuted`, `C112_three_body_refuted`
* **SFD+SND+FE** (82 theorems): `C42_in_bounds_partial`, `C43_mean_between`, `C43_no_smoothing`, `C43_normalised`, `C46_boundary_partial`, `C48_normalisation_partial`, `C48_unequal_bins_refuted`, `C48_efficiency_change_refuted`, `C49_fit_fractions`, `C52_cache_partial`, `C52_TD_cache`, `C52_stale_refuted`, `C52_overflow_refuted`, `C54_cell_share`, `C55_knots_partial`, `C55_last_refuted`, `C59_value_partial`, `C59_symmetric_partial`, `C61_mean_partial`, `C61_value_partial`, `C61_efficiency_refuted`, `C62_generation_refuted`, `C63_two_refuted`, `C64_changed_refuted`, `C65_first_refuted`, `C65_reads_refuted`, `C74_resolution_partial`, `C76_resolution_partial`, `C77_integrals_partial`, `C77_fractions_refuted`, `C86_propagator_open`, `C86_propagator_closed_partial`, `C86_inverse_partial`, `C86_value_open`, `C86_value_partial`, `C86_below_poles_partial`, `C87_two_body`, `C87_jump_refuted`, `C88_rbw_partial`, `C88_sbw_partial`, `C88_nonres_partial`, `C88_orbital_refuted`, `C90_lass_partial`, `C90_lass_refuted`, `C91`, `C93_partial`, `C93_isospin_refuted`, `C94_knots_partial`, `C94_jump_refuted`, `C95_invariant`, `C95_reflection`, `C95_no_other`, `C96_covariant_partial`, `C96_form_factor`, `C96_tensor_partial`, `C96_tensor_refuted`, `C97_first`, `C97_second`, `C97_pairs`, `C98_PtoVP`, `C98_VS`, `C98_AtoSP`, `C98_V1V2`, `C101_first_partial`, `C101_refuted`, `C62_TD_generation_refuted`, `C102_value_partial`, `C104_integer_partial`, `C108_histogram_partial`, `C108_third_mass_refuted`, `C109_announced_partial`, `C109_stale_refuted`, `C110_returned`, `C110_normalisation`, `C110_decays`, `C110_extremes`, `C111_normalisation`, `C111_attached_again_partial`, `C111_data_refuted`, `C106_batches_partial`, `C118_sum_partial`, `C118_second_refuted`
* **SFD+SND+CL+FE** (253 theorems): `C01_unbinned_is_list_of_events`, `C01_throw_keeps_events`, `C02_accept_iff_in_range`, `C02_range_check`, `C03_handles_are_names`, `C03_write_read_alias`, `C03_write_frame`, `C03_free_variable_constructor_refuted`, `C04_fillWithGrid`, `C04_reachable_separated`, `C04_event_number_counts`, `C04_grid_of_bin_centres`, `C04_event_number_restart_refuted`, `C05_import_export`, `C05_import_filtered`, `C07_value_in_bin_partial`, `C07_upper_limit_refuted`, `C07_upper_limit_wrong_bin_refuted`, `C07_rounding_refuted`, `C08_contents_are_sums`, `C08_counts_exact`, `C08_refused_changes_nothing`, `C09_unweighted_partial`, `C09_weights_refuted`, `C10_center_is_midpoint`, `C10_center_found_again`, `C10_volumes_fill_box`, `C11_default_error`, `C11_set_error`, `C11_other_errors_partial`, `C11_first_set_refuted`, `C12_flattened_evaluation_partial`, `C12_variable_bin_refuted`, `C12_weight_twice_refuted`, `C12_composite_column_refuted`, `C13_metric_reached_partial`, `C13_metric_applied_partial`, `C13_fit_control_selects`, `C13_variable_bin_refuted`, `C14_leaf_consumes_what_it_registers_partial`, `C14_variable_bin_refuted`, `C14_same_observable_refuted`, `C15_refresh_equals_rebuild_partial`, `C15_refreshed_value_partial`, `C15_shared_component_refuted`, `C15_other_pdf_refuted`, `C16_getParameters`, `C17_columns`, `C18_device_formula_partial`, `C18_normalize_components_partial`, `C18_different_observables_refuted`, `C18_shared_component_refuted`, `C19_extended_partial`, `C20_device_formula_partial`, `C20_overlap_detection_partial`, `C20_overlap_normalised_partial`, `C20_not_adjacent_refuted`, `C21_selected_component_partial`, `C22_unbinned_nll_partial`, `C22_any_schedule`, `C23_one_dimension_partial`, `C23_any_schedule`, `C23_two_dimensions_refuted`, `C23_normalised_tree_partial`, `C24_exp`, `C24_step`, `C24_gaussian_whole_line_partial`, `C24_johnson_whole_line_partial`, `C24_gaussian_refuted`, `C24_johnson_refuted`, `C24_exp_vector_refuted`, `C25_unbinned_layout`, `C26_binned_layout`, `C27_unbinned_in_bounds_partial`, `C27_binned_in_bounds_partial`, `C27_null_data_refuted`, `C27_binned_then_unbinned_refuted`, `C27_other_pdf_refuted`, `C28_nll_keeps_partial`, `C28_comp_probs_keeps_partial`, `C28_getValue_refuted`, `C28_evaluateAtPoints_refuted`, `C29_reattached_partial`, `C29_other_data_refuted`, `C30_split`, `C30_nll`, `C30_nll_error`, `C30_values`, `C30_event_number`, `C30_event_number_refuted`, `C31_split`, `C31_sum`, `C31_last_rank_has_all`, `C32_parameters_partial`, `C32_two_fits_refuted`, `C32_minuit1_names_refuted`, `C33_changed_partial`, `C33_blind_refuted`, `C33_assignment_refuted`, `C34_current_point_partial`, `C34_blind_refuted`, `C34_no_parameters_refuted`, `C35_results_partial`, `C35_free_variable_refuted`, `C35_arrays_stale_refuted`, `C36_during_fit_partial`, `C36_combined_component_refuted`, `C36_second_fit_refuted`, `C36_after_fit_refuted`, `C37_precision`, `C37_exactness_refuted`, `C37_same_names_refuted`, `C39_step_correction_exact`, `C39_error_bound`, `C40_never_negative`, `C42_in_bounds_double_partial`, `C42_default_constants_refuted`, `C42_negative_limit_refuted`, `C43_evaluation_partial`, `C43_upper_limit_refuted`, `C44_evaluation`, `C45_partition_of_unity_partial`, `C45_nonnegative`, `C45_mindeg_refuted`, `C46_massless_refuted`, `C47_four_vectors`, `C50_evaluation_partial`, `C50_outside_partial`, `C50_integral_partial`, `C50_outside_refuted`, `C50_integral_refuted`, `C51_value_partial`, `C51_weights_refuted`, `C51_integral_refuted`, `C53_integral`, `C54_generation_partial`, `C54_edge_refuted`, `C56_formulas_partial`, `C56_gaussian`, `C56_other_formulas_partial`, `C56_breit_wigner_refuted`, `C56_scaled_gaussian_refuted`, `C56_corr_gaussian_refuted`, `C56_exp_poly_offset_refuted`, `C56_offset_polynomial_refuted`, `C56_voigtian_refuted`, `C56_novosibirsk_refuted`, `C56_kin_limit_refuted`, `C57_binned_fit_partial`, `C57_scale_refuted`, `C59_asymmetric_refuted`, `C60_lineshape_masses`, `C64_smooth_partial`, `C64_two_refuted`, `C66_average`, `C67_amplitude`, `C67_not_negative`, `C68_smeared_partial`, `C68_series_partial`, `C68_mixing_refuted`, `C69_true_time`, `C69_measured_time_partial`, `C69_mixing_refuted`, `C70_smeared_partial`, `C70_mixing_refuted`, `C70_series_refuted`, `C71_true_time`, `C71_measured_time_partial`, `C72_moments`, `C72_smeared_partial`, `C72_tail_refuted`, `C72_mixing_refuted`, `C72_knots_refuted`, `C73_term`, `C73_true_time_partial`, `C73_series_partial`, `C73_measured_time_partial`, `C73_mixing_refuted`, `C73_first_knot_refuted`, `C74_value_partial`, `C74_smeared_partial`, `C74_not_negative`, `C74_header_refuted`, `C75_mixture_partial`, `C75_lifetime_refuted`, `C75_right_tag_refuted`, `C76_truth_partial`, `C76_three_gauss_partial`, `C76_three_gauss_ext_partial`, `C76_mistag_refuted`, `C76_range_refuted`, `C77_then_normalize_refuted`, `C79_value_partial`, `C79_phase_partial`, `C79_mother_refuted`, `C79_width_refuted`, `C80_angle_partial`, `C80_mixing_refuted`, `C81_renamed_partial`, `C81_refuted`, `C82_exchange_partial`, `C82_spin1`, `C82_spin1_refuted`, `C82_ignored_refuted`, `C83_value_partial`, `C83_phase_partial`, `C83_width_refuted`, `C84_background_partial`, `C84_resonance_refuted`, `C85_value`, `C85_continuous`, `C86_pivot_refuted`, `C89`, `C90_glass`, `C92_value_partial`, `C92_jump_refuted`, `C92_same_refuted`, `C94_outside_refuted`, `C99_gauss`, `C99_mixing`, `C100_nan_refuted`, `C100_refuted`, `C100_foreign_refuted`, `C102_rate_partial`, `C102_twice_refuted`, `C103_mean_partial`, `C103_efficiency_refuted`, `C104_fraction_refuted`, `C106_accept_partial`, `C106_envelope_refuted`, `C107_variables`, `C107_variables_back`, `C107_event_back`, `C94_width_partial`, `C106_generated_partial`, `C113_rule_partial`, `C113_near_zero_partial`, `C114_reflection`, `C114_symmetric`, `C114_positive_partial`, `C115_positive_partial`, `C115_device_partial`, `C115_limits_refuted`, `C116_spin_factor`, `C116_lineshape`, `C116_data`, `C116_covariant_partial`, `C117_constants_refuted`, `C117_limits_refuted`, `C117_unannounced_refuted`, `C119_getValue_partial`, `C119_no_data_refuted`, `C119_evaluateAtPoints_partial`

## What is modelled

| source | model | remarks |
|--------|-------|---------|
| `include/goofit/Variable.h`, `src/goofit/Variable.cpp` | `VariableModel` | handles, limits, blinding offset, changed flags; string output left out |
| `src/goofit/DataSet.cpp`, `UnbinnedDataSet.cpp` | `DataSetModel` | all calls but printing |
| `src/goofit/BinnedDataSet.cpp` | `BinModel` | all calls but printing |
| `src/PDFs/PdfBase.cu`, `src/goofit/PdfBase.cpp` | `PdfModel`, `RunModel`, `McModel`, `MpiModel` | registration, flattening, setData, fit controls, event generation; file status and `checkInitStatus` messages left out |
| `src/PDFs/GooPdf.cu`, `GooPdf.cpp`, `MetricTaker.cu`, `MetricPointer.cu`, `ParameterContainer.cu`, `detail/Globals.cu` | `DeviceModel`, `NormModel`, `RunModel`, `Reduce` | evaluation, metrics, normalisation, likelihood |
| `src/PDFs/basic/*.cu` | `LeafGen` (formulas), `DeviceModel` (argument reads and cursor), `SmoothModel` | 27 classes; `InterHistPdf` is in `InterModel` |
| `src/PDFs/combine/*.cu` | `DeviceModel`, `NormModel`, `ConvModel` | AddPdf, ProdPdf, MappedPdf, CompositePdf, EventWeightedAddPdf, ConvolutionPdf (work spaces in `WorkModel`, shared cache in `ShareModel`) |
| `src/PDFs/utilities/VariableBinTransform1DPdf.cu`, `physics/DalitzVetoPdf.cu`, `SquareDalitzEffPdf.cu` | `LeafGen`, `DeviceModel` | |
| `src/PDFs/physics/Amp3Body.cu`, `Amp3Body_IS.cu` and their calculators | `AmpModel`, `AmpDevice` | a resonance is an arbitrary function of the masses |
| `src/PDFs/physics/Amp4Body.cu`, `Amp4Body_TD.cu` and their calculators | `Amp4Model` | lineshapes and spin factors are arbitrary functions of the event |
| `src/PDFs/physics/DalitzPlotHelpers.cu` | `KinModel` | `inDalitz`, `get4Vecs`, masses and angles used by the lineshapes |
| `src/PDFs/physics/resonances/Spline.cu`, `lineshapes/GSpline.cu`, `detail/ComplexUtils.h` | `SplineModel` | Eigen's inverse is an arbitrary function |
| `src/PDFs/physics/TruthResolution.cu`, `ThreeGaussResolution.cu`, `ThreeGaussResolutionExt.cu`, `ThreeGaussResolutionSplice.cu` | `ResolModel`, `SpliceModel` | |
| `src/goofit/FCN.cpp`, `Params.cpp`, `FitManagerMinuit1.cpp`, `FitManagerMinuit2.cpp` | `FitModel` | Minuit is an arbitrary sequence of calls of the cost function followed by a result |
| `src/goofit/FunctorWriter.cpp` | `IoModel` | streams as lists of characters; number printing and parsing as specified functions |
| `src/goofit/MathUtils.cpp`, `include/goofit/utilities/Uncertain.h`, `detail/SmartVector*.h` | `UtilModel` | |
| `src/PDFs/physics/Amp3Body_TD.cu`, `detail/SpecialDalitzIntegrator.cu`, `detail/SpecialWaveCalculator.cu` | `TdModel.v` | value, normalisation, kept waves and integrals, `getFractions`, table of wave pointers; resonances, efficiency and resolution are parameters; cursors over the flattened arrays left out; builds without MPI; one resolution |
| `src/PDFs/physics/resonances/{RBW,GS,LASS,FLATTE,Gauss,NonRes,RhoOmegaMix}.cu`, `Resonance.cu` | `WaveModel.v` | the formulas for any arithmetic; cursors and parameter reads are in `AmpDevice.v`; complex quotients written out |
| `src/PDFs/physics/kMatrixUtils.cu`, `lineshapes/kMatrix.cu`, `resonances/kMatrix.cu` | `KmModel.v` | for any arithmetic; `inverse`, `adjoint`, `getCofactor` (not called) left out; cursors left out |
| `src/PDFs/physics/lineshapes/{Common,BW,GLASS,NonRes,One,Flatte,Bugg,FOCUS}.cu` | `LineModel.v` | the formulas for any arithmetic; cursors left out; a complex square root of a real number written out; order of factors changed in one place |
| `src/PDFs/physics/lineshapes/GSpline.cu` | `SplModel.v` (also `SplineModel.v`) | for any arithmetic; elements never written and constants never registered are a distinct outcome; Eigen's inverse, fmod and the conversion to integer are parameters |
| `src/PDFs/physics/SpinFactors.cu`, `detail/SpinHelper.h` | `SpinModel.v` | for any arithmetic; the momenta of the event given as vectors; functions of SpinHelper.h that no spin factor calls left out |
| `src/PDFs/basic/InterHistPdf.cu`, `detail/compute_inverse5.h` | `InterModel.v` | reads of parameters the PDF does not have are a distinct outcome; printf left out; the 25 equal expressions of compute_inverse5 written once |
| `src/PDFs/physics/Amp4Body_TD.cu` (constructor, device function, normalize, acceptance of GenerateSig), `NormEvents_4Body_*.cu`, `detail/NormIntegrator_TD.cu` | `Td4Model.v` | lineshapes, spin factors, resolution, efficiency as arguments; random numbers and phase space generation left out; reductions in the order of the list |
| `include/goofit/PDFs/physics/detail/Dim5.h` | `Dim5Model.v` | the unused first half of phi left out; Vector4R of MCBooster (not in the repository) as documented |
| `include/goofit/PDFs/physics/DalitzPlotter.h` | `PlotModel.v`, `McModel.v` | overallSignal and signalDalitz the same Amp3Body; component values (getVal with num > 0) left out |
| `src/PDFs/physics/Amp3Body.cu` (GenerateSig), `Amp3BodyBase.cu`, `detail/Dim2.h`, `python/PDFs/physics/Amp3Body.cpp` | `GenModel.v` | mcbooster (momenta, weights, random numbers) given; memory ownership of the event array left out |
| `src/PDFs/basic/VoigtianPdf.cu` (device_Faddeeva_2), `src/goofit/Faddeeva.cpp` | `FadModel.v` | the UNROLL_LOOP variant (not compiled) and rounding left out; device and host function are one definition since their text is the same |
| `src/PDFs/physics/detail/{SF,LS,NormSpin,NormLS}Calculator{,_TD}.cu` | `CalcModel.v` | the walk of the parameter cursor to the functions left out; the lineshape is a parameter |
| `src/PDFs/combine/ConvolutionPdf.cu` (work spaces over the life of the object) | `WorkModel.v` | model and resolution as functions; normalisation factors of the components left out; fewer than 100 convolutions |
| `src/PDFs/combine/ConvolutionPdf.cu` (shared cache) | `ShareModel.v` | constants that hold whole numbers as integers; all threads of the block evaluate the PDF; objects told apart by their work space |

## What is not modelled

* Numerical accuracy of `exp`, `log`, `erf`, `cexp` and of the Faddeeva tables; rounding of the basic PDFs' formulas.
* CUDA/OpenMP scheduling (beyond an arbitrary reduction order), memory transfers, MPI transport, Minuit's algorithm,
  ROOT, Eigen, and the Python bindings; they appear as arbitrary inputs (the vector Minuit passes, the numbers drawn).
* Not modelled although expressible: functions that nothing calls (e.g. `inverse`, `adjoint` in `kMatrixUtils.cu`) and code switched off by the preprocessor.
* `Application.cpp`, logging, version and style headers, debugging tools: no semantic property listed.

## Plan per property

Model = the files that hold the definitions the theorems speak about.  The theorems of each property and what is
missing from the partial ones are in `MANIFEST.json`.

| id | property | model | how it is proved | status |
|----|----------|-------|------------------|--------|
| C01 | Unbinned data set behaves as a list of accepted events | DataSetModel: columns, counters, shared observable values; one step per API call | refinement to a list of events, induction over call histories | proved |
| C02 | An event outside the limits is rejected, one inside is accepted | VariableModel, F64 | case analysis on binary64 comparisons; inclusion into the reals | proved |
| C03 | A copy of a Variable or Observable is a handle to the same quantity | VariableModel: heap of shared cells, handles are pointers | simulation invariant over histories, frame lemma | proved |
| C04 | fillWithGrid enumerates every grid point exactly once | DataSetModel: recursion of the grid builder | induction over observables against a mixed-radix specification; history for the refutation | partial |
| C05 | Matrix import/export round trip | DataSetModel: import and export of matrices | induction over events and columns | proved |
| C06 | Global bin number and local bin numbers are a bijection | BinModel: global/local bin numbers with 32-bit wrap-around | mixed-radix bijection by induction on dimensions | proved |
| C07 | Every accepted value falls in the bin that contains it | BinModel on binary64 | Flocq rounding-error bound for the division; witnesses at the edges | partial |
| C08 | Histogram contents are the sums of the weights filled into each bin | BinModel: histories of fills | refinement to a function from bins to weights | proved |
| C09 | The weighted number of events is the sum of the weights | BinModel: accumulator of type int | induction for unit weights; witness for fractional weights | partial |
| C10 | Bin centres and volumes describe the binning | BinModel, BinGeom | floor of the centre with rounding bounds; finite sums | proved |
| C11 | Bin errors | BinModel: optional error vector | case analysis; witness history | partial |
| C12 | Flattened evaluation computes the PDF tree | PdfModel (registration, flattening), DeviceModel (device functions with a cursor), RunModel | mutual induction on PDF trees: value and final cursor position; invariants of host programs | partial |
| C13 | The metric called after evaluation is the one selected by the fit control | same, with metrics and fit controls | corollary of the tree induction, invariants over host programs | partial |
| C14 | Each basic PDF consumes exactly what it registers | PdfModel/DeviceModel: one registration and one device function per class | per-class computation, uniform in vector sizes | partial |
| C15 | Parameter refresh equals rebuild | PdfModel: updateParameters | induction on trees; witness programs for sharing | partial |
| C16 | getParameters lists every parameter of the tree | PdfModel: getParameters | induction on trees, set equality without duplicates | proved |
| C17 | Observable numbering | PdfModel: setupObservables | induction on trees | proved |
| C18 | AddPdf of normalised components is normalised | DeviceModel/NormModel: AddPdf | finite sums over the reals, list induction; witness programs | partial |
| C19 | Extended likelihood term | RunModel: extended likelihood | computation on top of C22 | partial |
| C20 | ProdPdf normalisation factorises | DeviceModel/NormModel: ProdPdf | finite products, overlap detection by list induction; witness program | partial |
| C21 | MappedPdf evaluates the selected component and leaves the cursor at the end | DeviceModel: EventWeightedAddPdf, MappedPdf selection | corollary of the tree induction | partial |
| C22 | Unbinned NLL is the sum of -log(P/N) | RunModel, Reduce: transform_reduce over events | any binary reduction tree equals a rearranged sum; value of every event by C12 | partial |
| C23 | Numerical normalisation samples every grid cell centre once | NormModel: grid integration | cell decode, sum against the midpoint sum; uninitialised read in two dimensions | partial |
| C24 | Analytic integrals agree with the density | NormModel/LeafGen: declared analytic integrals | Coquelicot: fundamental theorem, Gaussian integral (GaussInt); strict inequalities for the refutations | partial |
| C25 | Unbinned event buffer layout | RunModel: setData unbinned | layout by induction over events and columns | proved |
| C26 | Binned event buffer layout | RunModel: setData binned | layout by induction over bins | proved |
| C27 | Reads of the event buffer stay inside it | RunModel: buffer bounds | invariants over host programs; witness histories | partial |
| C28 | Queries do not change the model | RunModel: calls that evaluate | state equality; witness histories | partial |
| C29 | Data attached to one PDF is not disturbed by another | RunModel: one device buffer | invariant; witness history | partial |
| C30 | MPI split of the events | MpiModel: distribution of events over ranks | prefix sums, permutation of the sum, rounding bound | proved |
| C31 | MPI split of binned data | MpiModel: distribution of bins | prefix sums | proved |
| C32 | Minimiser vector to parameters | FitModel: parameter object, calls of the cost function | invariants over programs; witness programs | partial |
| C33 | Changed flag | FitModel: changed flags | invariants over consecutive calls; witnesses | partial |
| C34 | Evaluating the cost function at the current point changes nothing | FitModel: value at the current point | invariants; witnesses | partial |
| C35 | Fit results are written back | FitModel: registration and write-back | list induction; witnesses | partial |
| C36 | Caches are refreshed whenever an input changed | CacheModel: caches keyed by changed flags | invariant over fit histories; witnesses | partial |
| C37 | Parameter file round trip | IoModel: character-level writer and reader of parameter files | round trip by induction on the list; divergence by invariance of the loop state | partial |
| C38 | List of numbers round trip | IoModel: list of numbers | same | partial |
| C39 | Neumaier summation | UtilModel: Neumaier summation | invariant over the reals; Flocq error-free transformation and error bound | proved |
| C40 | Uncertain arithmetic | UtilModel: Uncertain | algebra; witnesses | partial |
| C41 | Device copies follow the host arrays | UtilModel: smart vectors | invariant over histories; witnesses | partial |
| C42 | Convolution reads inside its work space | ConvModel: table sizes and indices of ConvolutionPdf | integer bounds, floor of quotients; witnesses in binary64 | partial |
| C43 | Smoothed histogram | SmoothModel: SmoothHistogramPdf | enumeration of {-1,0,1}^n by induction, mixed radix | partial |
| C44 | Multi-dimensional polynomial coefficients | LeafGen/PdfModel: PolynomialPdf | bijection between the loop's index boxes and the monomials; binomial count | partial |
| C45 | Bernstein basis | LeafGen: BernsteinPdf | binomial theorem, induction | partial |
| C46 | Phase-space boundary | KinModel: inDalitz | existence of three on-shell momenta, real algebra; witness in binary64 | partial |
| C47 | Four-momenta reconstruction | KinModel: get4Vecs | real algebra (square roots), Lorentz boosts | proved |
| C48 | Coherent-sum normalisation | AmpModel: Amp3Body normalisation and its kept integrals | invariant over histories; exchange of finite sums | partial |
| C49 | Fit fractions | AmpModel: fit fractions | finite complex sums | proved |
| C50 | Efficiency component of amplitude PDFs | AmpDevice: Amp3Body in the flattened arrays | cursor proof on top of C12; witness trees | partial |
| C51 | Incoherent sum amplitudes | AmpDevice: Amp3Body_IS | cursor computation; witnesses | partial |
| C52 | Amplitude cache of four-body decays | Amp4Model: amplitude table and kept values of Amp4Body and Amp4Body_TD | invariant over histories; witnesses | partial |
| C53 | Time integral of the mixing rate | ResolModel: TruthResolution | improper integrals (Coquelicot), derivatives of the primitive | proved |
| C54 | Monte Carlo generation from a grid | McModel: generation from a one-dimensional PDF | correctness of bisection, sums; rounding bounds | partial |
| C55 | Spline interpolation | SplineModel: cubic spline resonance | invariant of the knot search; real algebra | partial |
| C56 | Basic PDFs compute their documented formulas | LeafGen: basic PDFs over any arithmetic, read in the reals | algebra per class; strict inequalities for the refutations | partial |
| C57 | Scale of binned fits | RunModel: binned metrics | value of every bin by C12/C26 | partial |
| C58 | Each histogram PDF uses its own histogram | SmoothModel: the table of histograms | invariant over histories; witnesses | partial |
| C59 | Convolution value | ConvModel: the convolution sum | change of variables in finite sums, Lipschitz bound of the midpoint rule | partial |
| C60 | Masses handed to lineshapes | KinModel: masses seen by the lineshapes | real algebra on top of C47 | proved |
| C61 | Normalisation of Amp4Body is the mean over its normalisation events | Amp4Model: normalisation of Amp4Body | invariant over histories; witness | partial |
| C62 | Generating toy events does not change later normalisations | Amp4Model: toy generation | state equality over all histories | partial |
| C63 | Four-body PDFs in one program do not disturb each other | Amp4Model: capacity of the table | witnesses, on top of C61 | partial |
| C64 | Spline resonance is a smooth curve | SplineModel: second derivatives | tridiagonal elimination by induction, derivatives of cubics | partial |
| C65 | GSpline width follows the given values | SplineModel: GSpline width | computation for every input | partial |
| C66 | Average decay time | ResolModel: mean decay time | improper integrals | proved |
| C67 | Mixing rate is a squared amplitude | ResolModel: rate as a squared modulus | real algebra | proved |
| C68 | Three-Gaussian resolution smears the rate | ResolModel: ThreeGaussResolution | Gaussian moments as improper integrals (ResolMoment), convolution; strict inequality for the refutation | partial |
| C69 | Normalisation of the three-Gaussian resolution | ResolModel: its normalisation | exchange of integrals, series bounds | partial |
| C70 | Resolution with a two-slope acceptance smears the rate | ResolModel: ThreeGaussResolutionExt | moments from a threshold on | partial |
| C71 | Normalisation of the resolution with a two-slope acceptance | ResolModel: its normalisation | as C69 | partial |
| C72 | Resolution with a spliced acceptance smears the rate | SpliceModel: ThreeGaussResolutionSplice | moments over the pieces between knots, recurrences, induction over knots | partial |
| C73 | Normalisation of the resolution with a spliced acceptance | SpliceModel: its normalisation | induction over knots and powers, series | partial |
| C74 | Value of the time-dependent Dalitz plot | TdModel: Amp3Body_TD, any resolution | freshness invariant over histories, finite complex sums, C67 | partial |
| C75 | Mistagged events in the time-dependent Dalitz plot | TdModel: the mistag branch | same; monotonicity of exp for the refutation | partial |
| C76 | Normalisation of the time-dependent Dalitz plot | TdModel: normalize with what it keeps | linearity of the rate and of the improper integral over cells, freshness invariant, C53, C69, C71 | partial |
| C77 | getFractions of the time-dependent Dalitz plot | TdModel: getFractions | induction over the pairs of resonances; exchange of rows and columns of the grid | partial |
| C78 | Every Dalitz-plot PDF reads its own cached waves | TdModel: the table of wave pointers | induction over the calls | partial |
| C79 | A relativistic Breit-Wigner resonance is the published formula | WaveModel: RBW and the helpers of Resonance.cu | momenta in closed form, then field; examples with rational momenta | partial |
| C80 | Resonances decay with the angles of their spin | WaveModel: spinFactor, all resonances | Zemach tensors computed from momenta; factorisation of each kind | partial |
| C81 | The numbering of the daughters does not matter | WaveModel: all resonances, daughters named anew | symmetry of the momentum in the two daughters; case analysis on pairs | partial |
| C82 | A symmetrised resonance is symmetric | WaveModel: symmetrised resonances | sign of the spin factor under exchange | partial |
| C83 | Gounaris-Sakurai | WaveModel: GS | derivative of h by Coquelicot, then field | partial |
| C84 | LASS is elastic scattering | WaveModel: LASS | |1 + 2iT|^2 = 1 by algebra with sin^2 + cos^2 = 1 | partial |
| C85 | Flatté | WaveModel: FLATTE | case analysis at the thresholds; continuity of sqrt on all reals | proved |
| C86 | The K-matrix amplitude | KmModel: LU decomposition and substitution as folds of updates, for any size; kMatrix | loop invariants of the decomposition; regular leading blocks have non-zero pivots; v* rho v = 0 for a kernel vector | partial |
| C87 | The K-matrix amplitude is continuous in the mass | KmModel: phase spaces | continuity of sqrt; limits from the right for a particular model | partial |
| C88 | Breit-Wigner lineshapes and their form factors | LineModel: RBW, SBW, NonRes, Common.cu | kinematics of the break-up momentum, field identities per angular momentum | partial |
| C89 | SBW is normalised | LineModel: SBW | primitive with logarithm and arctangents, fundamental theorem, limits at infinity | proved |
| C90 | GLASS and LASS satisfy elastic unitarity | LineModel: GLASS, LASS | 1 + 2 i sin d exp(i d) = exp(2 i d); value at the nominal mass | partial |
| C91 | The Flatte lineshape | LineModel: Flatte | as C85 | proved |
| C92 | The sigma lineshapes of Bugg | LineModel: Bugg, Bugg3 | sign of the imaginary part of the denominator; continuity by composition; one-sided limit | partial |
| C93 | The FOCUS K-matrix | LineModel: FOCUS | Cramer's rule in two dimensions, determinant not zero | partial |
| C94 | The amplitude of GSpline | SplModel: GSpline with its matrix and amplitude | induction over the writes to the matrix; one-sided limit at the knots | partial |
| C95 | Spin factors do not depend on the frame | SpinModel: all 16 kinds with their tensors | invariance of the scalar product and the antisymmetric tensor; determinant of a Lorentz matrix | proved |
| C96 | Spin factors are the covariant tensor amplitudes | SpinModel | each kind rewritten as a contraction of tensors with explicit indices | partial |
| C97 | Exchange of particles in a spin factor | SpinModel | as C96, without division where the masses may vanish | proved |
| C98 | Angular distributions of the spin factors | SpinModel | C96 in the given frame | proved |
| C99 | The other resonances of three-body decays | WaveModel: gauss, rho_omega | computation in the real numbers | proved |
| C100 | InterHistPdf interpolates its histogram | InterModel: constructor and device function | computation for all histograms and events | partial |
| C101 | compute_inverse5 returns the inverse | InterModel: compute_inverse5 | Cramer's rule by cofactors; two elements of one row | partial |
| C102 | Value of a time-dependent four-body PDF | Td4Model: constructor, device function; Amp4Model: caches | induction over the built list and over the history | partial |
| C103 | Normalisation of a time-dependent four-body PDF | Td4Model: normalize, batches, NormIntegrator_TD | invariant of the cached values of each batch; linearity of the integral | partial |
| C104 | Weighted normalisation events | Td4Model: getSumInitWeights with its int accumulator | induction over the weights; counterexample | partial |
| C105 | Normalisation events on host or device | Td4Model: both kinds of batches | equality of the two functions, then induction over the calls | proved |
| C106 | Generated time-dependent events follow the PDF | Td4Model: gammamin, wmax, exp_functor | bounds of cosh, sinh, cos and sin; counterexample at the decay time pi | partial |
| C107 | The five variables of a four-body event | Dim5Model: Dim5; KinModel: get4Vecs | algebra of three- and four-vectors; the angle from its sine and cosine | proved |
| C108 | Plots of a Dalitz-plot PDF | PlotModel: constructor, make2D, getters; AmpModel: normalize | induction over the list of bins; C48 | partial |
| C109 | Making a plot does not disturb a fit | PlotModel: the calls made by the constructor | C48 for histories; counterexample and its general form | partial |
| C110 | Generated three-body events carry the weight of the PDF | GenModel: Dim2, strided copies, results, flags; AmpModel: normalize | index arithmetic of strided copies by induction; C46, C48 | proved |
| C111 | Generating three-body events does not disturb a fit | GenModel: the calls GenerateSig makes and leaves behind | C48 for histories; counterexample and its general form | partial |
| C112 | Python gets the generated four-momenta | GenModel: the copies to Python arrays | lists; mirror images as counterexample | partial |
| C113 | The Voigtian's Faddeeva function is the trapezoidal rule with the term of the pole | FadModel: tables, Pade branch, choice of the table, loop, pole term | complex algebra; alternating series for exp(-1/4), exp(-0.2809) and integer arithmetic for the tables; case analysis on the nodes | partial |
| C114 | A Voigtian is symmetric about its mean and positive | FadModel; LeafGen.voigt | every operation commutes with the reflection | partial |
| C115 | The host Voigtian agrees with the device | FadModel: cpuvoigtian | case analysis | partial |
| C116 | An event gives the same spin factors and lineshapes from its momenta and from its five variables | CalcModel: the functors, on top of KinModel, SpinModel and Dim5Model | a Lorentz matrix of determinant 1 built from two of the momenta brings both events to the same components; C95, C107, C60 | proved |
| C117 | A convolution follows its parameters and its integration constants | WorkModel: the object over its life; ConvModel: the sum | invariant over histories; binary64 witnesses for the refutations | partial |
| C118 | Convolutions that share a cache have the same values as without it | ShareModel: constructor, registerOthers, cooperative loading, cursor of the metric taker | induction over the rounds of loading; case analysis | partial |
| C119 | getValue and evaluateAtPoints return the value of the PDF | RunModel (getValue, evaluateAtPoints), AskSpec: the answer at the current point, the bin centres | flattened evaluation (C12), normalisation (C23), layout of the temporary data set, the values of the parameters do not alias the moved observable; concrete history for the refutation | partial |
