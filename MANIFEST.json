{
 "claims": [
  {
   "property": "C01",
   "status": "proved",
   "theorems": [
    "C01_myula_schedule",
    "C01_skrock_schedule",
    "C01_schedule_formula",
    "C01_saved_iff_on_grid",
    "C01_myula_terminates",
    "C01_skrock_terminates",
    "C01_not_before",
    "C01_fuel_irrelevant",
    "C01_terminates_on",
    "C01_numerical_runs_end",
    "C01_numerical_runs_stopped"
   ],
   "note": "For every operator, prior, random stream and schedule (also negative nburn/ngap); same for SKROCK."
  },
  {
   "property": "C02",
   "status": "proved",
   "theorems": [
    "C02_stored_values",
    "C02_myula_rows",
    "C02_skrock_rows",
    "C02_pxmala_rows",
    "C02_stopped_rows"
   ],
   "note": "All three samplers; casts to the array dtype are the abstract row maps o_rowV/o_rowD/o_rowK."
  },
  {
   "property": "C03",
   "status": "proved",
   "theorems": [
    "C03_pxmala_refines_reference",
    "C03_pxmala_refines_reference_stopped",
    "C03_reference_deterministic"
   ],
   "note": "mh_reference is the uncached reference (recomputes everything from the current sample)."
  },
  {
   "property": "C04",
   "status": "proved",
   "theorems": [
    "C04_acceptance"
   ],
   "note": ""
  },
  {
   "property": "C05",
   "status": "proved",
   "theorems": [
    "C05_saved_iterates",
    "C05_fixed_stride_refuted"
   ],
   "note": "What is saved is proved (C05_saved_iterates); the documented fixed stride is REFUTED by C05_fixed_stride_refuted."
  },
  {
   "property": "C06",
   "status": "proved",
   "theorems": [
    "C06_terminates_iff",
    "C06_always_terminates_refuted",
    "C06_terminates_on",
    "C06_numerical_runs_end_iff"
   ],
   "note": "Termination iff proved; termination for every stream is REFUTED by C06_always_terminates_refuted."
  },
  {
   "property": "C07",
   "status": "proved",
   "theorems": [
    "C07_tuned",
    "C07_untuned",
    "C07_adaptation_vanishes"
   ],
   "note": "Stated for complete PxMALA runs: the recorded step sizes follow the adaptation rule of the accept/reject history."
  },
  {
   "property": "C08",
   "status": "proved",
   "theorems": [
    "C08_myula_observation",
    "C08_skrock_observation",
    "C08_thinned_is_subsampled",
    "C08_pxmala_prefix"
   ],
   "note": ""
  },
  {
   "property": "C09",
   "status": "proved",
   "theorems": [
    "C09_myula_stopped",
    "C09_skrock_stopped",
    "C09_pxmala_stopped",
    "C09_myula_crashed",
    "C09_skrock_crashed",
    "C09_pxmala_crashed"
   ],
   "note": ""
  },
  {
   "property": "C10",
   "status": "proved",
   "theorems": [
    "C10_start_point",
    "C10_run_rejects",
    "C10_rejected_before_recording"
   ],
   "note": "The sampler-level theorems hold for any operators; C10_start_point/C10_run_rejects are for the numerical model."
  },
  {
   "property": "C11",
   "status": "proved",
   "theorems": [
    "C11_myula_rerun",
    "C11_skrock_rerun",
    "C11_pxmala_rerun",
    "C11_pxmala_untuned_delta",
    "C11_pxmala_tuned_rerun_refuted"
   ],
   "note": "Rerun theorems proved for MYULA, SKROCK, untuned PxMALA; for tuned PxMALA REFUTED by C11_pxmala_tuned_rerun_refuted."
  },
  {
   "property": "C12",
   "status": "proved",
   "theorems": [
    "C12_step",
    "C12_zero_lmda",
    "C12_moreau_gradient",
    "C12_envelope_exists"
   ],
   "note": "Gradient of the envelope is stated as a first-order expansion with an explicit quadratic remainder."
  },
  {
   "property": "C13",
   "status": "proved",
   "theorems": [
    "C13_logtransition_value",
    "C13_logalpha",
    "C13_accept_rule",
    "C13_accept_rule_complex",
    "C13_detailed_balance",
    "C13_proposal_density",
    "C13_transition_density_refuted",
    "C13_reversible_refuted"
   ],
   "note": "The positive clause is C13_detailed_balance (with the q the code computes); the two negative clauses are C13_transition_density_refuted and C13_reversible_refuted."
  },
  {
   "property": "C14",
   "status": "proved",
   "theorems": [
    "C14_decomposition",
    "C14_real_data",
    "C14_priors_nonneg",
    "C14_complex_data_not_real"
   ],
   "note": "The complex-data clause is C14_complex_data_not_real."
  },
  {
   "property": "C15",
   "status": "proved",
   "theorems": [
    "C15_gradient_of_half_L2",
    "C15_gradient_unique",
    "C15_gradient_of_L2_refuted"
   ],
   "note": "The negative clause is C15_gradient_of_L2_refuted."
  },
  {
   "property": "C16",
   "status": "proved",
   "theorems": [
    "C16_construction",
    "C16_one_stage",
    "C16_step",
    "C16_one_stage_consistent",
    "C16_not_consistent",
    "C16_consistency_refuted"
   ],
   "note": "The property of a consistent scheme is REFUTED for every s >= 2 (C16_not_consistent, C16_consistency_refuted); s = 1 is C16_one_stage and C16_one_stage_consistent."
  },
  {
   "property": "C17",
   "status": "proved",
   "theorems": [
    "C17_accepted_iff",
    "C17_errors",
    "C17_matrix",
    "C17_matrix_complex_data",
    "C17_complex_data_refuted",
    "C17_operator_shapes"
   ],
   "note": "For complex data a real error gives entries with a phase instead of 1/sig^2: C17_complex_data_refuted."
  },
  {
   "property": "C18",
   "status": "proved",
   "theorems": [
    "C18_one_entry_per_name",
    "C18_contents",
    "C18_fresh_file",
    "C18_success_and_failure",
    "C18_path"
   ],
   "note": "h5py's conversions and file opening are oracles; also the exact success condition and what a failed save leaves behind (C18_success_and_failure)."
  },
  {
   "property": "C19",
   "status": "proved",
   "theorems": [
    "C19_roundtrip_multires",
    "C19_flatten_order",
    "C19_roundtrip_nscales",
    "C19_flatten_expand",
    "C19_expand_flattened",
    "C19_expand_nscalcoefs",
    "C19_errors"
   ],
   "note": ""
  },
  {
   "property": "C20",
   "status": "proved",
   "theorems": [
    "C20_soft_prox",
    "C20_soft_components",
    "C20_soft_nonexpansive",
    "C20_soft_shape_error"
   ],
   "note": "Exact real/complex arithmetic; broadcasting of thresholds and shape errors included."
  },
  {
   "property": "C21",
   "status": "proved",
   "theorems": [
    "C21_overwrites",
    "C21_argument_changed",
    "C21_hard_keeps_largest",
    "C21_hard_exactly_k",
    "C21_hard_kept_above_zeroed",
    "C21_hard_small_fraction_keeps_all",
    "C21_hard_negative_fraction",
    "C21_hard_out_of_range",
    "C21_hard_cases"
   ],
   "note": "The overwrite clause is proved on a heap of arrays with views (Arrays.v)."
  },
  {
   "property": "C22",
   "status": "proved",
   "theorems": [
    "C22_cheb1_cos",
    "C22_cheb2_sin",
    "C22_cheb1_outside",
    "C22_cheb2_outside",
    "C22_cheb2_ends",
    "C22_parametrisation",
    "C22_derivative",
    "C22_negative_order"
   ],
   "note": "Every real x is covered by the two parametrisations (C22_parametrisation)."
  },
  {
   "property": "C23",
   "status": "proved",
   "theorems": [
    "C23_positive",
    "C23_total",
    "C23_patch_areas",
    "C23_empty"
   ],
   "note": "Sample positions as in pyssht's documentation; C23_patch_areas adds that every entry is the integral over its patch."
  },
  {
   "property": "C24",
   "status": "proved",
   "theorems": [
    "C24_quadrature_exact",
    "C24_harmonics_exact",
    "C24_weights_positive",
    "C24_weights_sum",
    "C24_weights_exist",
    "C24_integral_unique",
    "C24_wrong_size",
    "C24_monopole"
   ],
   "note": "Exact arithmetic. C24_harmonics_exact gives the clause about every function band-limited at L; C24_monopole the value for a harmonic expansion; MW sample positions transcribed from pyssht's documentation."
  },
  {
   "property": "C25",
   "status": "proved",
   "theorems": [
    "C25_scaling",
    "C25_antisymmetric",
    "C25_norm",
    "C25_monotone",
    "C25_zero"
   ],
   "note": "Exact arithmetic; division by a zero norm not modelled."
  },
  {
   "property": "C26",
   "status": "proved",
   "theorems": [
    "C26_shape",
    "C26_exact",
    "C26_galactic",
    "C26_monotone",
    "C26_lookup_is_antipode"
   ],
   "note": "astropy's galactic latitude is an oracle assumed odd under the antipodal map (true of the latitude above any great circle, C26_galactic); C26_lookup_is_antipode shows the code looks up the antipode."
  },
  {
   "property": "C27",
   "status": "proved",
   "theorems": [
    "C27_restores",
    "C27_nested",
    "C27_silent",
    "C27_users",
    "C27_nested_threads",
    "C27_threads_refuted",
    "C27_two_threads"
   ],
   "note": "One thread: any body and nesting (C27_restores, C27_nested, C27_silent). Threads: C27_threads_refuted is the failing schedule; C27_two_threads decides every schedule of two threads, C27_nested_threads any number of properly nested ones."
  },
  {
   "property": "C28",
   "status": "proved",
   "theorems": [
    "C28_bandlimits",
    "C28_range",
    "C28_errors",
    "C28_vanishing_raises"
   ],
   "note": "pys2let.wavelet_tiling is an oracle (the tiling is arbitrary)."
  },
  {
   "property": "C29",
   "status": "proved",
   "theorems": [
    "C29_values",
    "C29_adjoint",
    "C29_equal_sizes"
   ],
   "note": ""
  },
  {
   "property": "C30",
   "status": "proved",
   "theorems": [
    "C30_values",
    "C30_adjoint"
   ],
   "note": ""
  },
  {
   "property": "C31",
   "status": "proved",
   "theorems": [
    "C31_construction",
    "C31_forward",
    "C31_self_adjoint",
    "C31_sks_estimate",
    "C31_wrong_length"
   ],
   "note": "Also the other order forward(sks_estimate(x)), and ValueError on vectors of another length."
  },
  {
   "property": "C32",
   "status": "proved",
   "theorems": [
    "C32_mask_forward",
    "C32_mask_forward_shape",
    "C32_mask_adjoint",
    "C32_mask_adjoint_pair",
    "C32_mask_adjoint_size",
    "C32_mask_adjoint_single",
    "C32_construction",
    "C32_construction_errors",
    "C32_mask_shape_error_refuted",
    "C32_nan_rejected_refuted",
    "C32_forward",
    "C32_adjoint",
    "C32_forward_size"
   ],
   "note": "pyssht's transforms are oracles; their adjointness is the hypothesis of C32_adjoint. The two documented behaviours that do not hold are C32_mask_shape_error_refuted and C32_nan_rejected_refuted; C32_construction_errors gives the error for every mask shape."
  },
  {
   "property": "C33",
   "status": "proved",
   "theorems": [
    "C33_construction",
    "C33_roundtrip",
    "C33_projection",
    "C33_adjoints",
    "C33_harmonic_split",
    "C33_harmonic_roundtrip_refuted",
    "C33_identity_transform"
   ],
   "note": "pys2let's transforms are oracles (adjoint / inverse pairs as hypotheses). The harmonic clause: C33_harmonic_split gives the values, C33_harmonic_roundtrip_refuted the clause that does not hold."
  },
  {
   "property": "C34",
   "status": "proved",
   "theorems": [
    "C34_synthesis_prox",
    "C34_synthesis_prox_array",
    "C34_prior_norm",
    "C34_setting"
   ],
   "note": ""
  },
  {
   "property": "C35",
   "status": "proved",
   "theorems": [
    "C35_analysis_prox",
    "C35_prior_prox_refuted",
    "C35_frame_refuted"
   ],
   "note": "The two negative clauses are C35_prior_prox_refuted and C35_frame_refuted."
  },
  {
   "property": "C36",
   "status": "proved",
   "theorems": [
    "C36_weights",
    "C36_prox",
    "C36_prior",
    "C36_errors",
    "C36_power_weights",
    "C36_eta",
    "C36_power_consistent_iff",
    "C36_power_threshold_prior",
    "C36_power_same_bandlimits",
    "C36_power_prox_refuted",
    "C36_shapes",
    "C36_power_shapes"
   ],
   "note": "Positive for S2_Wavelets_L1; for the power-weighted class the property is REFUTED (C36_power_prox_refuted), with an exact criterion (C36_power_consistent_iff). Also shown: the power-weighted constructor raises TypeError when all wavelet scales share one band limit."
  },
  {
   "property": "C37",
   "status": "proved",
   "theorems": [
    "C37_defined",
    "C37_value",
    "C37_bounds",
    "C37_monotone",
    "C37_reorder",
    "C37_affine"
   ],
   "note": "numpy's quantile (linear) transcribed from its documentation; C37_value gives the exact value from the order statistics; covers 0<=alpha<=2 and the errors outside."
  },
  {
   "property": "C38",
   "status": "proved",
   "theorems": [
    "C38_defined",
    "C38_enough_samples",
    "C38_downward_closed",
    "C38_map_excluded",
    "C38_exact_count",
    "C38_hpd_refuted"
   ],
   "note": "The negative clauses are C38_hpd_refuted (concrete) and C38_map_excluded (a unique MAP is excluded for every alpha>0); C38_exact_count gives the exact size for distinct values."
  },
  {
   "property": "C39",
   "status": "proved",
   "theorems": [
    "C39_partition",
    "C39_errors"
   ],
   "note": "The wavelet tiling is arbitrary; C39_errors gives every exception."
  },
  {
   "property": "C40",
   "status": "proved",
   "theorems": [
    "C40_centre0",
    "C40_pixels",
    "C40_plot_map_errors",
    "C40_oversample_coefficients",
    "C40_oversample_same_function",
    "C40_wavelet_maps",
    "C40_wavelet_maps_errors"
   ],
   "note": "Drawing itself is not modelled. The last clause assumes the documented behaviour of pyssht's transforms (hypotheses of C40_oversample_same_function)."
  },
  {
   "property": "C41",
   "status": "proved",
   "theorems": [
    "C41_format_total",
    "C41_field",
    "C41_file",
    "C41_output",
    "C41_truncation_unnoticed"
   ],
   "note": "The record format is the reader's own block table (laid_out); float32 decoding and healpy's write_map are oracles. Also shown: truncation is never noticed."
  },
  {
   "property": "C42",
   "status": "proved",
   "theorems": [
    "C42_soft",
    "C42_S2_init",
    "C42_shared_T",
    "C42_Power_init",
    "C42_proxf",
    "C42_prior",
    "C42_operators",
    "C42_samplers",
    "C42_new_sampler",
    "C42_session"
   ],
   "note": "Heap of numpy buffers with views; user operators are arbitrary as long as they write to no existing array and return a new array or one sharing their argument's buffer. pyssht, pys2let and scipy are assumed not to write to their arguments. Also shown: S2_Wavelets_L1_Power_Weights multiplies the array T in place twice (C42_Power_init)."
  },
  {
   "property": "C43",
   "status": "proved",
   "theorems": [
    "C43_myula_exceptions",
    "C43_skrock_exceptions",
    "C43_pxmala_no_exception",
    "C43_verbosity_zero",
    "C43_myula_lines",
    "C43_skrock_lines",
    "C43_pxmala_lines",
    "C43_exceptions_on",
    "C43_fuel_irrelevant"
   ],
   "note": "Proved as stated; the title claim (never breaks a run) is false for untracked arrays: C43_myula_exceptions characterises exactly when."
  },
  {
   "property": "C44",
   "status": "proved",
   "theorems": [
    "C44_one_attribute_per_name",
    "C44_generator_advances",
    "C44_params_untouched",
    "C44_saved_delta",
    "C44_construction",
    "C44_arrays_after_session",
    "C44_run_touches_self_only",
    "C44_pxmala_traces",
    "C44_new_sampler",
    "C44_new_sampler_exists"
   ],
   "note": "C44_new_sampler is the arrays part on the sampler record; the others are about the object heap and hold for any interleaving of constructions and runs."
  },
  {
   "property": "C45",
   "status": "proved",
   "theorems": [
    "C45_construction",
    "C45_wavelet_forward",
    "C45_path_forward",
    "C45_gradient",
    "C45_real_data_hermitian"
   ],
   "note": "Adjointness of the pys2let oracles is the hypothesis of C45_gradient; C45_real_data_hermitian discharges the covariance hypothesis for real data."
  },
  {
   "property": "C46",
   "status": "proved",
   "theorems": [
    "C46_options",
    "C46_rejects",
    "C46_nres14_refuted"
   ],
   "note": "The clause about nres=14 is C46_nres14_refuted."
  },
  {
   "property": "C47",
   "status": "proved",
   "theorems": [
    "C47_map_index",
    "C47_chain_sample"
   ],
   "note": ""
  },
  {
   "property": "C48",
   "status": "proved",
   "theorems": [
    "C48_input",
    "C48_block",
    "C48_noise_level",
    "C48_noisy_data",
    "C48_noiseless_data",
    "C48_reproducible",
    "C48_negative_factor",
    "C48_error_bars",
    "C48_units_refuted",
    "C48_mw_unusable",
    "C48_mw_refuted",
    "C48_operator",
    "C48_residual"
   ],
   "note": "HEALPix, file reading, pixel lookup and the normal generator are oracles. The false clauses are C48_units_refuted and C48_mw_refuted (C48_mw_unusable is the general form). C48_operator describes the operator built (B = 3/2, error bars), C48_residual the residual with two-dimensional data."
  },
  {
   "property": "C49",
   "status": "proved",
   "theorems": [
    "C49_read",
    "C49_read_errors",
    "C49_one_path_refuted",
    "C49_matrix",
    "C49_matrix_failure",
    "C49_operator",
    "C49_assertion",
    "C49_rerun",
    "C49_other_bandlimit",
    "C49_similar_paths",
    "C49_stored_paths_refuted"
   ],
   "note": "GreatCirclePath and the .npz files are oracles/maps; the pool is a sequential map in order (starmap keeps order). The false clauses are C49_one_path_refuted and C49_stored_paths_refuted."
  },
  {
   "property": "C50",
   "status": "proved",
   "theorems": [
    "C50_survey_unique",
    "C50_measurement",
    "C50_operator",
    "C50_truth_fits",
    "C50_misfit",
    "C50_double_weighting",
    "C50_analysis_unusable",
    "C50_misfit_refuted",
    "C50_analysis_refuted"
   ],
   "note": "healpy, pyssht and pys2let are oracles. The false clauses are C50_misfit_refuted (C50_double_weighting is the general form) and C50_analysis_refuted (C50_analysis_unusable)."
  },
  {
   "property": "C51",
   "status": "proved",
   "theorems": [
    "C51_saved",
    "C51_settings",
    "C51_unknown_algorithm",
    "C51_other_files",
    "C51_ends",
    "C51_regulariser",
    "C51_phasevel_regulariser_refuted",
    "C51_pxmala_steps",
    "C51_myula_step"
   ],
   "note": "Operators are given (C48-C50 describe them); argparse, datetime and h5py are oracles. Also shown: C51_other_files, C51_unknown_algorithm, C51_settings (no analysis run), C51_phasevel_regulariser_refuted, C51_pxmala_steps (the saved delta is not the step used)."
  },
  {
   "property": "C52",
   "status": "proved",
   "theorems": [
    "C52_map_sample",
    "C52_chain_pix",
    "C52_negative_burn_refuted",
    "C52_mean",
    "C52_cbar",
    "C52_topo",
    "C52_topo_completes",
    "C52_topo_noise_array",
    "C52_topo_noise_refuted",
    "C52_relative_error",
    "C52_phasevel",
    "C52_phasevel_interval",
    "C52_phasevel_interval_refuted",
    "C52_phasevel_completes",
    "C52_phasevel_analysis",
    "C52_phasevel_analysis_refuted",
    "C52_limits",
    "C52_lensing_mask",
    "C52_lensing_mask_refuted",
    "C52_complex_range",
    "C52_lensing",
    "C52_lensing_shear",
    "C52_lensing_nan",
    "C52_lensing_completes",
    "C52_lensing_nan_refuted"
   ],
   "note": "pys2let, pyssht, healpy, h5py and matplotlib are oracles; argparse is not modelled; arrays of other shapes than the truth map raise (numpy broadcasting of truth - MAP is not modelled). Complete runs: C52_topo, C52_phasevel, C52_lensing; completion: the *_completes theorems. The false clauses are C52_negative_burn_refuted, C52_topo_noise_refuted (general: C52_topo_noise_array), C52_phasevel_interval_refuted, C52_phasevel_analysis_refuted, C52_lensing_nan_refuted (general: C52_lensing_nan), C52_lensing_mask_refuted."
  },
  {
   "property": "C53",
   "status": "proved",
   "theorems": [
    "C53_opened",
    "C53_regulariser",
    "C53_shapes",
    "C53_main_ends",
    "C53_readable",
    "C53_topo_plot",
    "C53_phasevel_plot",
    "C53_lensing_plot",
    "C53_noise_refuted",
    "C53_file_read",
    "C53_file_unusable"
   ],
   "note": "h5py is a pair of conversions that return numbers, strings and arrays as stored (hypothesis reads_back); libraries, generator and file system are oracles with the size conditions named. Assembled from C17, C33, C36, C48-C52; C53_file_read and C53_file_unusable treat any file. The false clause is C53_noise_refuted (general: C53_topo_plot)."
  },
  {
   "property": "C54",
   "status": "proved",
   "theorems": [
    "C54_flatten",
    "C54_expand",
    "C54_soft",
    "C54_hard",
    "C54_chebyshev",
    "C54_areas",
    "C54_parallel",
    "C54_parallel_refuted",
    "C54_harmonic_kernel",
    "C54_forward",
    "C54_l1",
    "C54_s2",
    "C54_fixtures",
    "C54_mcmc"
   ],
   "note": "np.isclose is equality in exact arithmetic; the tests themselves are not run. calc_pixel_areas is also C23_total, s2_integrate C24_monopole, the multiresolution round trip C19_roundtrip_multires, test_transforms.py C33_roundtrip and C33_adjoints, the remaining dot tests C30_adjoint, C31_self_adjoint and C32_adjoint. The false clause is C54_parallel_refuted."
  },
  {
   "property": "C55",
   "status": "proved",
   "theorems": [
    "C55_names",
    "C55_url",
    "C55_download",
    "C55_found",
    "C55_refused",
    "C55_conversion",
    "C55_every_outcome",
    "C55_no_transfer",
    "C55_failed_conversion",
    "C55_other_names",
    "C55_status_ignored",
    "C55_interrupted",
    "C55_leftover",
    "C55_second_run",
    "C55_resume_refuted",
    "C55_error_page_refuted",
    "C55_retry_refuted"
   ],
   "note": "Network, float32 decoding and FITS serialisation are oracles; opening, writing and renaming succeed; healpy 1.16 refuses to overwrite. int() is modelled for digits only. The false clauses are C55_resume_refuted, C55_error_page_refuted, C55_retry_refuted (general: C55_interrupted, C55_status_ignored, C55_leftover)."
  },
  {
   "property": "C56",
   "status": "proved",
   "theorems": [
    "C56_rate",
    "C56_step",
    "C56_paths",
    "C56_runs",
    "C56_skrock_one_stage",
    "C56_runs_exist",
    "C56_proximal",
    "C56_regularisers",
    "C56_frames",
    "C56_drift_zero",
    "C56_default_step_refuted"
   ],
   "note": "Exact arithmetic; the generator is an oracle shared by both runs. Hypotheses are those of C15, the curvature bounds and firm non-expansiveness of X - proxf(X), which C56_proximal, C56_regularisers and C56_frames provide. Not stated: convergence in distribution, PxMALA; SKROCK with two or more stages is C61. The false clause is C56_default_step_refuted."
  },
  {
   "property": "C57",
   "status": "proved",
   "theorems": [
    "C57_private_effects",
    "C57_myula_calls",
    "C57_pxmala_calls",
    "C57_skrock_calls",
    "C57_totals",
    "C57_stage_cost",
    "C57_s_gradients_refuted",
    "C57_counters",
    "C57_counted_runs",
    "C57_stage_values"
   ],
   "note": "Calls of the four user methods; what they call themselves (transforms, measurement operators) is not counted. Attributes of the operators are fixed during a run and the methods do not touch the sampler object. The false clause is C57_s_gradients_refuted."
  },
  {
   "property": "C58",
   "status": "proved",
   "theorems": [
    "C58_accepted",
    "C58_pxmala_records",
    "C58_stuck_start",
    "C58_acceptance_cases",
    "C58_zero_draw",
    "C58_myula_nan_stays",
    "C58_step_nan",
    "C58_logpi_nan",
    "C58_myula_records",
    "C58_nan_step_size",
    "C58_tuned",
    "C58_pxmala_finite",
    "C58_runs_end",
    "C58_zero_lmda",
    "C58_numbers_refuted",
    "C58_add_limit",
    "C58_neg_limit",
    "C58_sub_limit",
    "C58_mul_limit",
    "C58_div_limit",
    "C58_less_limit",
    "C58_ln_limit",
    "C58_sqrt_limit",
    "C58_rounding"
   ],
   "note": "Real case of mcmc.py on floats with an arbitrary rounding function; zeros have no sign and sums are taken from left to right. The tables for infinities and NaN are the limits of the real operations (C58_add_limit and the others). Operators are arbitrary functions on floats. SKROCK is left out. Runs that raise are not covered by the clause on recorded rows. The false clause is C58_numbers_refuted."
  },
  {
   "property": "C59",
   "status": "proved",
   "theorems": [
    "C59_parametric",
    "C59_exact_floats",
    "C59_reordered"
   ],
   "note": "The float clause is for MYULA and PxMALA (the float model has no SKROCK) and for arithmetic without rounding. For the reordering the caller supplies operators and generator in the new order (record reordered)."
  },
  {
   "property": "C60",
   "status": "proved",
   "theorems": [
    "C60_spread_at_most",
    "C60_spread_at_least",
    "C60_spread_small_steps",
    "C60_centre",
    "C60_exact",
    "C60_exact_limit",
    "C60_runs_exist",
    "C60_target_refuted"
   ],
   "note": "Noise laws have finitely many values (white), so the Gaussian law of randn is not an instance; only its first two moments are used. The generator returns the entries of a list (tape_runs; such runs exist by C60_runs_exist). The exact formulas are for problems without regulariser whose curvature is the same in all directions. The false clause is C60_target_refuted."
  },
  {
   "property": "C61",
   "status": "proved",
   "theorems": [
    "C61_step",
    "C61_paths",
    "C61_runs",
    "C61_spread",
    "C61_two_stages",
    "C61_runs_exist",
    "C61_stability_refuted"
   ],
   "note": "The false clause is C61_stability_refuted. Chains with complex=False must have real samples with real gradients (faithful), since the chain array keeps real parts. Noise laws as in C60; runs exist by C61_runs_exist. Nothing is stated for three or more stages with larger steps."
  },
  {
   "property": "C62",
   "status": "proved",
   "theorems": [
    "C62_relative",
    "C62_paths",
    "C62_runs"
   ],
   "note": "Real parameters (complex=False). C62_relative turns the relative and absolute error of an IEEE format into the hypothesis on the rounding function. The errors of the float forward operator, gradg and proxf are a hypothesis (approximates), shown for a concrete problem in grid_approximates; both runs exist in C62_case."
  },
  {
   "property": "C63",
   "status": "proved",
   "theorems": [
    "C63_soft_specials",
    "C63_soft_numbers",
    "C63_soft_monotone",
    "C63_prior_nan",
    "C63_uncrossed_forward",
    "C63_uncrossed_paths",
    "C63_spread_step",
    "C63_spread_paths",
    "C63_spread_runs",
    "C63_uncrossed_runs",
    "C63_infinite_entry",
    "C63_weights",
    "C63_zero_error",
    "C63_zero_error_pxmala",
    "C63_zero_error_myula",
    "C63_zero_error_paths",
    "C63_runs_end",
    "C63_assertions"
   ],
   "note": "Real parameters, analysis setting without a transform, error vector. C63_case shows all of it on one problem with four pixels and two paths under a rounding function with overflow (chop, proved to be a rounding)."
  },
  {
   "property": "C64",
   "status": "proved",
   "theorems": [
    "C64_init",
    "C64_exact",
    "C64_weights",
    "C64_operators",
    "C64_convex",
    "C64_runs"
   ],
   "note": "Absolute errors; C62_relative gives eps for IEEE formats on a bounded range. Lower and upper curvature of the data term are hypotheses of C64_runs (curvature_between), as in C56. C64_case: two pixels, three paths, fixed-point numbers with 20 binary places, runs of any length within 12/1000 of the exact run."
  },
  {
   "property": "C65",
   "status": "proved",
   "theorems": [
    "C65_construction",
    "C65_coefficients",
    "C65_exact_coefficients",
    "C65_stages",
    "C65_gradient",
    "C65_exact_runs",
    "C65_runs_end",
    "C65_stays",
    "C65_stage_stays",
    "C65_records",
    "C65_spread",
    "C65_infinite_entry",
    "C65_uncrossed",
    "C65_zero_error",
    "C65_apart",
    "C65_leaves",
    "C65_leaves_eventually",
    "C65_near_exact",
    "C65_construction_refuted"
   ],
   "note": "The clause that construction succeeds in any arithmetic whenever it does with exact numbers is false: C65_construction_refuted (a coarse rounding, three stages). The closeness of the float step to the exact one is a hypothesis of C65_apart and C65_leaves (step_near); C65_near_exact shows it for exact arithmetic, and C67_skrock_leaves is without it for path integrals. C65_overflow_case: a chain that grows, overflows to -inf and is NaN from then on; C65_leaves_case: two chains out of [-1000, 1000] within eleven steps for any noise."
  },
  {
   "property": "C66",
   "status": "proved",
   "theorems": [
    "C66_myula",
    "C66_skrock",
    "C66_pxmala",
    "C66_new_sampler",
    "C66_ties_refuted"
   ],
   "note": "The clause on PxMALA is false as it stands: C66_ties_refuted (one path, one iteration, log u = log alpha: for every accuracy there is an arithmetic of that accuracy that decides otherwise). C66_pxmala proves it for runs without ties (no_ties: the sampler that accepts ties makes the same decisions). The uniform random numbers are taken to be positive, since np.log(0) is not finite. C66_case: grids of spacing 2^-p, two pixels and three paths; C66_pxmala_case: a run without ties."
  },
  {
   "property": "C67",
   "status": "proved",
   "theorems": [
    "C67_curvature",
    "C67_averages",
    "C67_convex",
    "C67_myula",
    "C67_skrock_leaves",
    "C67_skrock_when",
    "C67_runs_end"
   ],
   "note": "C67_runs_end shows that the runs of C67_myula and C67_skrock_leaves exist; C67_skrock_when that the schedule can be chosen. The accuracy depends on the starts, the schedule and the random numbers, as in C66. C67_case: two pixels, three paths, both loads 3; SKROCK leaves [-1000, 1000] within twelve steps."
  },
  {
   "property": "C68",
   "status": "proved",
   "theorems": [
    "C68_defined",
    "C68_nan",
    "C68_infinite_neighbours",
    "C68_top",
    "C68_number",
    "C68_ranges",
    "C68_columns",
    "C68_nan_range",
    "C68_number_range",
    "C68_region_nan",
    "C68_region",
    "C68_quantile_close",
    "C68_range_close",
    "C68_region_close",
    "C68_exact_quantile",
    "C68_exact",
    "C68_ranges_limit",
    "C68_region_limit",
    "C68_nan_start",
    "C68_myula_limit",
    "C68_skrock_limit",
    "C68_pxmala_limit",
    "C68_hard",
    "C68_hard_nan",
    "C68_norm",
    "C68_snr",
    "C68_exact_utils",
    "C68_median_refuted",
    "C68_hidden_refuted"
   ],
   "note": "C68_median_refuted: np.quantile([0, 1, inf], 1/2) is NaN. C68_hidden_refuted: samples 0, inf, 2, 3, 1, 4 at alpha 4/5 give the range 1. The two clauses of the statement that they concern are stated as false and refuted. The accuracy in the limit theorems depends on the run, as in C66."
  },
  {
   "property": "C69",
   "status": "proved",
   "theorems": [
    "C69_settles",
    "C69_unique",
    "C69_average",
    "C69_average_off",
    "C69_balance",
    "C69_flat_refuted"
   ],
   "note": "Laws are given by their means of Lipschitz functions; random vectors have a finite law (not the normal law). C69_flat_refuted: with a measurement that does not see the parameter and threshold 0, no law is left as it is by a step; the clause is stated as false and refuted."
  },
  {
   "property": "C70",
   "status": "proved",
   "theorems": [
    "C70_usual",
    "C70_tables",
    "C70_accepted",
    "C70_help",
    "C70_otherwise",
    "C70_meaning_unique",
    "C70_order",
    "C70_option",
    "C70_flag",
    "C70_unknown",
    "C70_run_arguments",
    "C70_topography",
    "C70_phase_velocity",
    "C70_lensing",
    "C70_plots",
    "C70_positional_default_refuted",
    "C70_exponent_refuted",
    "C70_eta_refuted",
    "C70_defaults"
   ],
   "note": "float() and int() are oracles; messages are not modelled. C70_positional_default_refuted, C70_exponent_refuted and C70_eta_refuted refute the three clauses that are false."
  },
  {
   "property": "C71",
   "status": "proved",
   "theorems": [
    "C71_not_too_many",
    "C71_not_too_few",
    "C71_rate",
    "C71_other_rates",
    "C71_ends_reached",
    "C71_iterations",
    "C71_half_refuted"
   ],
   "note": "Deterministic: holds for every sequence of random numbers. C71_half_refuted refutes the sentence of the documentation as it stands."
  },
  {
   "property": "C72",
   "status": "proved",
   "theorems": [
    "C72_subtraction",
    "C72_topo_truth",
    "C72_topo_snr",
    "C72_topo_reported",
    "C72_topo_other_map_refuted",
    "C72_lens_truth",
    "C72_lens_error",
    "C72_column",
    "C72_column_ragged",
    "C72_phase_files",
    "C72_phase_error",
    "C72_phase_bandlimit",
    "C72_phase_bandlimit_refuted",
    "C72_phase_other_data_refuted"
   ],
   "note": "The three refuted sentences are C72_topo_other_map_refuted, C72_phase_bandlimit_refuted and C72_phase_other_data_refuted."
  },
  {
   "property": "C73",
   "status": "proved",
   "theorems": [
    "C73_turned",
    "C73_gradient",
    "C73_step",
    "C73_misfit",
    "C73_rate",
    "C73_runs",
    "C73_exact",
    "C73_exact_limit",
    "C73_wider",
    "C73_grows",
    "C73_runs_exist",
    "C73_real_range_refuted",
    "C73_recorded_refuted"
   ],
   "note": "The two refuted sentences are C73_real_range_refuted and C73_recorded_refuted."
  },
  {
   "property": "C74",
   "status": "proved",
   "theorems": [
    "C74_ratio",
    "C74_proper",
    "C74_reversed",
    "C74_where",
    "C74_many",
    "C74_locked",
    "C74_wells",
    "C74_moves_on_refuted",
    "C74_certain_refuted"
   ],
   "note": "The two refuted sentences are C74_moves_on_refuted and C74_certain_refuted; C74_wells shows that the problems spoken of exist in every dimension."
  },
  {
   "property": "C75",
   "status": "proved",
   "theorems": [
    "C75_ratio",
    "C75_phase",
    "C75_proper",
    "C75_certain",
    "C75_directions",
    "C75_wells",
    "C75_phase_refuted"
   ],
   "note": "The refuted sentence is C75_phase_refuted; C75_wells shows that the problems spoken of exist in every dimension."
  },
  {
   "property": "C76",
   "status": "proved",
   "theorems": [
    "C76_ratio",
    "C76_locked",
    "C76_outside",
    "C76_regularisers",
    "C76_sparse"
   ],
   "note": "C76_sparse puts the clauses together for parameters observed directly with an L1 prior."
  },
  {
   "property": "C77",
   "status": "proved",
   "theorems": [
    "C77_locked",
    "C77_outside",
    "C77_sparse",
    "C77_half_refuted"
   ],
   "note": "The refuted sentence is C77_half_refuted."
  }
 ]
}