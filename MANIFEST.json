{
 "claims": [
  {
   "property": "C01",
   "status": "proved",
   "theorems": [
    "C01_rmsynth_linear"
   ],
   "note": ""
  },
  {
   "property": "C02",
   "status": "proved",
   "theorems": [
    "C02_rmsynth_thin_source",
    "C02_thin_source_is_shifted_rmsf"
   ],
   "note": "on antisymmetric grids, which are the ones the tools build (C09)"
  },
  {
   "property": "C03",
   "status": "proved",
   "theorems": [
    "C03_flagged_channels_dropped",
    "C03_cube_flagged_channels_dropped",
    "C03_nan_weight_is_zero"
   ],
   "note": ""
  },
  {
   "property": "C04",
   "status": "proved",
   "theorems": [
    "C04_rmsynth_weight_scale",
    "C04_rmsf_weight_scale"
   ],
   "note": ""
  },
  {
   "property": "C05",
   "status": "proved",
   "theorems": [
    "C05_pixel_alone",
    "C05_other_pixels_irrelevant"
   ],
   "note": ""
  },
  {
   "property": "C06",
   "status": "proved",
   "theorems": [
    "C06_lam0_phase"
   ],
   "note": ""
  },
  {
   "property": "C07",
   "status": "proved",
   "theorems": [
    "C07_rmsf_refines",
    "C07_rmsf_norm_bound_sym"
   ],
   "note": ""
  },
  {
   "property": "C08",
   "status": "partial",
   "theorems": [
    "C08_rmsynth_on_grid",
    "C08_rmsynth_asymmetric_grid_refuted"
   ],
   "note": "true for antisymmetric grids; refuted for others (finding F1)"
  },
  {
   "property": "C09",
   "status": "proved",
   "theorems": [
    "C09_depth_grid_properties",
    "C09_depth_grid_exists",
    "C09_depth_grid_same",
    "C09_depth_grid_zero_step",
    "C09_tool_grid_centred",
    "C09_default_grid"
   ],
   "note": ""
  },
  {
   "property": "C10",
   "status": "proved",
   "theorems": [
    "C10_rmsf_grid_fits_clean"
   ],
   "note": "for odd centred uniform grids with at least three samples, the ones the tools build (C09)"
  },
  {
   "property": "C11",
   "status": "proved",
   "theorems": [
    "C11_depth_axis_round_trip",
    "C11_tool_grid_round_trip",
    "C11_lin_axis_world",
    "C11_depth_axis_decreasing_refuted"
   ],
   "note": "for increasing grids of at least two samples; decreasing ones cannot be read back (finding F10)"
  },
  {
   "property": "C12",
   "status": "proved",
   "theorems": [
    "C12_C13_rmclean_conserves_restores"
   ],
   "note": "positive cutoff; RMSF with one largest sample (see C16_rmsf_unit_peak)"
  },
  {
   "property": "C13",
   "status": "proved",
   "theorems": [
    "C12_C13_rmclean_conserves_restores"
   ],
   "note": ""
  },
  {
   "property": "C14",
   "status": "proved",
   "theorems": [
    "C14_rmclean_stops",
    "C14_rmclean_stops_window",
    "C14_rmclean_1d_total"
   ],
   "note": ""
  },
  {
   "property": "C15",
   "status": "proved",
   "theorems": [
    "C15_clean_shift_is_depth_difference"
   ],
   "note": ""
  },
  {
   "property": "C16",
   "status": "proved",
   "theorems": [
    "C16_rmclean_single_source",
    "C16_single_source_converges",
    "C16_rmsf_unit_peak"
   ],
   "note": ""
  },
  {
   "property": "C17",
   "status": "proved",
   "theorems": [
    "C17_clean_components_predict"
   ],
   "note": ""
  },
  {
   "property": "C18",
   "status": "proved",
   "theorems": [
    "C18_rmclean_quiet_pixel"
   ],
   "note": ""
  },
  {
   "property": "C19",
   "status": "partial",
   "theorems": [
    "C19_rmclean_pool_same_cubes",
    "C19_pool_iterations_refuted",
    "C19_pool_iterations_zero"
   ],
   "note": "true for the three cubes; refuted for the iteration map (finding F2)"
  },
  {
   "property": "C20",
   "status": "partial",
   "theorems": [
    "C20_rmclean_window_sound",
    "C20_rmclean_window_complete",
    "C20_window_edge_refuted"
   ],
   "note": "sound everywhere; complete away from the lower edge; refuted at the lower edge (finding F3)"
  },
  {
   "property": "C21",
   "status": "partial",
   "theorems": [
    "C21_chunk_round_trip",
    "C21_default_output_name",
    "C21_single_chunk_refuted",
    "C21_marker_prefix_refuted",
    "C21_sibling_product_refuted"
   ],
   "note": "round trip proved for two or more chunks; refuted for one chunk, a marker in the prefix and derived products in the directory (findings F14, F15, F16)"
  },
  {
   "property": "C22",
   "status": "partial",
   "theorems": [
    "C22_missing_chunk_refuted"
   ],
   "note": "always an error and an existing output is kept without the overwrite flag; refuted because a blank output is written before the count check (finding F17)"
  },
  {
   "property": "C23",
   "status": "partial",
   "theorems": [
    "C23_region_box",
    "C23_minus_one_refuted",
    "C23_two_dimensions_refuted",
    "C23_z_minus_one_refuted",
    "C23_outside_refuted"
   ],
   "note": "proved for 3- and 4-axis images with ordered limits; 2-D images, -1 limits and boxes outside the image refuted (findings F18, F19, F20, F21)"
  },
  {
   "property": "C24",
   "status": "proved",
   "theorems": [
    "C24_read_cube",
    "C24_write_cube",
    "C24_rmsynth3d_voxels",
    "C24_write_needs_ctype_refuted"
   ],
   "note": "axes without CTYPE can be read but not written (finding F22)"
  },
  {
   "property": "C25",
   "status": "partial",
   "theorems": [
    "C25_rmclean3d_axes",
    "C25_rmclean3d_total",
    "C25_one_wide_refuted"
   ],
   "note": "exact condition on the degenerate axes under which the order is kept; refuted otherwise (finding F23); a Faraday depth axis of length one is excluded"
  },
  {
   "property": "C26",
   "status": "partial",
   "theorems": [
    "C26_header_2d",
    "C26_header_2d_defined",
    "C26_cd_left_refuted"
   ],
   "note": "all listed keywords (NAXISn, CRPIXn, CDELTn, CUNITn, CTYPEn, CRVALn, PCi_j); CD and CROTA keywords are left, headers without celestial keywords raise (finding F24)"
  },
  {
   "property": "C27",
   "status": "partial",
   "theorems": [
    "C27_renormalize_same_model",
    "C27_renormalize_twice",
    "C27_renormalize_same_ref",
    "C27_linear_errors_propagated",
    "C27_log_errors_propagated_partial",
    "C27_log_error_6_amplitude_partial",
    "C27_log_error_5_refuted",
    "C27_log_error_6_refuted",
    "C27_twice_errors_refuted"
   ],
   "note": "values and composition proved in full; errors proved for linear models and for four of six log parameters, refuted for the other two (findings F5, F6, F7)"
  },
  {
   "property": "C28",
   "status": "proved",
   "theorems": [
    "C28_fit_order_selection",
    "C28_first_stop_best",
    "C28_fit_total",
    "C28_fit_dof_refuted"
   ],
   "note": "for every fitter; the reduced chi-squared counts flagged channels (finding F8)"
  },
  {
   "property": "C29",
   "status": "partial",
   "theorems": [
    "C29_frac_spectra_spec",
    "C29_frac_errors_positive_model_partial",
    "C29_frac_errors_refuted"
   ],
   "note": "fractions, flags and fallback proved in full; errors proved for positive models, refuted for negative ones and for NaN values (finding F9)"
  },
  {
   "property": "C30",
   "status": "proved",
   "theorems": [
    "C30_parabola_unique",
    "C30_vertex",
    "C30_vertex_sound",
    "C30_symmetric",
    "C30_vertex_of_peak",
    "C30_zero_middle_refuted"
   ],
   "note": "middle ordinate not zero (finding F29)"
  },
  {
   "property": "C31",
   "status": "partial",
   "theorems": [
    "C31_defined",
    "C31_undefined",
    "C31_peak",
    "C31_interior",
    "C31_angles",
    "C31_interpolated",
    "C31_noise",
    "C31_bias",
    "C31_errors",
    "C31_exact",
    "C31_thin_source",
    "C31_convex_minimum",
    "C31_edge_peak_refuted",
    "C31_outside_snr_refuted"
   ],
   "note": "all clauses for increasing grids; next to the edges the fitted amplitude can be a minimum (finding F27)"
  },
  {
   "property": "C32",
   "status": "proved",
   "theorems": [
    "C32_sigma_add",
    "C32_likelihood",
    "C32_percentile",
    "C32_percentile_monotone"
   ],
   "note": "yMed given (as every caller does); positive range of the data"
  },
  {
   "property": "C33",
   "status": "partial",
   "theorems": [
    "C33_thin_sum",
    "C33_burn_partial",
    "C33_burn_refuted",
    "C33_slabs",
    "C33_slab_is_model5",
    "C33_slab_list_refuted",
    "C33_thin",
    "C33_residual",
    "C33_scaled_burn",
    "C33_scaled_slabs",
    "C33_scaled_thin"
   ],
   "note": "slabs, thin sources, absolute spectra in full; Burn's law only for dispersions 0 and 1, refuted otherwise (findings F30, F31)"
  },
  {
   "property": "C34",
   "status": "partial",
   "theorems": [
    "C34_m2_m1",
    "C34_m3_m11",
    "C34_m4_m3",
    "C34_m111_m11",
    "C34_m12_m7",
    "C34_m7_m5",
    "C34_m11_m1",
    "C34_m4_m2",
    "C34_m6_m5",
    "C34_m11_sum",
    "C34_m111_sum",
    "C34_m4_sum",
    "C34_m3_sum",
    "C34_m6_sum",
    "C34_sum_comm",
    "C34_periodic",
    "C34_m5_average",
    "C34_m7_average",
    "C34_m12_average",
    "C34_m5_near_m1",
    "C34_single_bounded",
    "C34_pair_bounded",
    "C34_triple_bounded",
    "C34_m1_bound",
    "C34_m2_bound",
    "C34_m5_bound",
    "C34_m7_bound",
    "C34_m12_bound",
    "C34_m11_bound",
    "C34_m3_bound",
    "C34_m4_bound",
    "C34_m6_bound",
    "C34_m111_bound",
    "C34_order",
    "C34_nan_refuted"
   ],
   "note": "reductions, superposition, periods, depth averages, bounds for all ten models; the slab models are NaN at zero extent (finding F32), where closeness to the thin model is proved with a rate instead"
  },
  {
   "property": "C35",
   "status": "partial",
   "theorems": [
    "C35_difference",
    "C35_value_refuted",
    "C35_chisq",
    "C35_criteria_partial"
   ],
   "note": "differences, chi-squared, AIC and BIC proved; the value and AICc refuted (findings F33, F34)"
  },
  {
   "property": "C36",
   "status": "proved",
   "theorems": [
    "C36_quantile_median",
    "C36_angle",
    "C36_split_refuted",
    "C36_plain",
    "C36_error_bars",
    "C36_error_bar_points",
    "C36_quantile_mono",
    "C36_wrap",
    "C36_wrap_refuted"
   ],
   "note": "see findings F35, F36 for what the claim does not promise"
  },
  {
   "property": "C37",
   "status": "proved",
   "theorems": [
    "C37_mean",
    "C37_bound",
    "C37_zero",
    "C37_conj",
    "C37_width_sign"
   ],
   "note": "erf is the exact contour integral; channels with positive edges"
  },
  {
   "property": "C38",
   "status": "proved",
   "theorems": [
    "C38_refinement",
    "C38_thin_source",
    "C38_sensitivity",
    "C38_tool"
   ],
   "note": "library call for cubes and spectra, and the whole tool"
  },
  {
   "property": "C39",
   "status": "partial",
   "theorems": [
    "C39_run_partial",
    "C39_six_columns_refuted",
    "C39_eight_columns_refuted",
    "C39_verbose_refuted",
    "C39_nan_error_refuted",
    "C39_rmsf_response",
    "C39_rmsf_depths_refuted"
   ],
   "note": "five and seven columns without the verbose flag are processed as documented; six and eight columns, verbose, NaN errors and the depths of the saved spread function refuted (findings F37 to F40)"
  },
  {
   "property": "C40",
   "status": "partial",
   "theorems": [
    "C40_pixel",
    "C40_run",
    "C40_blank",
    "C40_blank_rule",
    "C40_outside",
    "C40_blank_refuted",
    "C40_pixel_zero_refuted",
    "C40_fraction_refuted"
   ],
   "note": "three-axis cubes, pixels inside the image; the blank test, pixel 0 and fractional coordinates refuted (findings F45 to F47)"
  },
  {
   "property": "C41",
   "status": "proved",
   "theorems": [
    "C41_rmclean_sigma_levels",
    "C41_rmclean_absolute_levels",
    "C41_default_window_refuted"
   ],
   "note": "rmclean1d; the library default window=0 refutes the last clause (finding F4)"
  },
  {
   "property": "C42",
   "status": "partial",
   "theorems": [
    "C42_companion_names",
    "C42_peakfit_names",
    "C42_marker_directory_refuted"
   ],
   "note": "proved for directories and prefixes without the markers, refuted otherwise (finding F25)"
  },
  {
   "property": "C43",
   "status": "partial",
   "theorems": [
    "C43_spectra",
    "C43_renormalize",
    "C43_blank",
    "C43_runs",
    "C43_linear",
    "C43_fit_then_rescale",
    "C43_frequency_refuted",
    "C43_gap_refuted"
   ],
   "note": "the spectra are kept; refuted: the frequency from an FDF and files lost after an order that is zero everywhere (findings F58, F59); float32 rounding is not modelled"
  },
  {
   "property": "C44",
   "status": "proved",
   "theorems": [
    "C44_pixels",
    "C44_runs",
    "C44_one_raises",
    "C44_history",
    "C44_read_back",
    "C44_labels",
    "C44_hole_refuted",
    "C44_flat_refuted",
    "C44_label_refuted",
    "C44_first_axis_refuted"
   ],
   "note": "mpfit is an arbitrary function; the findings F60 to F63 are stated beside it; float32 rounding is not modelled"
  },
  {
   "property": "C45",
   "status": "proved",
   "theorems": [
    "C45_peak_maps",
    "C45_synth_columns",
    "C45_partial_blank_refuted"
   ],
   "note": "every pixel blank or complete, as RM-synthesis guarantees; partially blank pixels misbehave (finding F26)"
  },
  {
   "property": "C46",
   "status": "partial",
   "theorems": [
    "C46_files",
    "C46_maps",
    "C46_strip",
    "C46_lists",
    "C46_saved",
    "C46_unknown_name_refuted",
    "C46_column_refuted",
    "C46_column_noise_refuted",
    "C46_single_pixel_refuted",
    "C46_zero_reference_refuted",
    "C46_negative_noise_refuted",
    "C46_save_here_refuted"
   ],
   "note": "images with two sky axes longer than one, in full, and strips without Stokes I; strips of one column with Stokes I and single pixels refuted, unknown names blank everything (findings F48 to F53)"
  },
  {
   "property": "C47",
   "status": "partial",
   "theorems": [
    "C47_number",
    "C47_text",
    "C47_columns",
    "C47_short_row",
    "C47_files",
    "C47_ignored",
    "C47_flags",
    "C47_help_refuted",
    "C47_dispersion_refuted",
    "C47_flags_refuted",
    "C47_shape_refuted"
   ],
   "note": "text, columns, files and flags are proved; refuted: the order of the columns and the meaning of the dispersion in the help, flags that do not parse, and the shape columns of the cube tool (findings F64 to F68); numbers beyond decimal numerals (inf, nan, underscores) are modelled but no theorem describes them"
  },
  {
   "property": "C48",
   "status": "proved",
   "theorems": [
    "C48_affine",
    "C48_permutation",
    "C48_nan",
    "C48_nonneg",
    "C48_definition",
    "C48_median_halves"
   ],
   "note": "one-dimensional arrays, the only use"
  },
  {
   "property": "C49",
   "status": "partial",
   "theorems": [
    "C49_noise_variance_weights",
    "C49_noise_uniform_weights",
    "C49_noise_optimal",
    "C49_FDF_noise_propagates",
    "C49_noise_flagged_refuted"
   ],
   "note": "proved when every channel is good; refuted when channels are flagged and weights are uniform (finding F11)"
  },
  {
   "property": "C50",
   "status": "partial",
   "theorems": [
    "C50_Ifreq0_ascending",
    "C50_Ifreq0_error_partial",
    "C50_Ifreq0_midpoint_partial",
    "C50_Ifreq0_interp_refuted",
    "C50_Ifreq0_descending_refuted"
   ],
   "note": "ascending axes: mean of the bracketing channels; linear interpolation and descending axes refuted (findings F12, F13)"
  },
  {
   "property": "C51",
   "status": "proved",
   "theorems": [
    "C51_affine",
    "C51_scale",
    "C51_zero"
   ],
   "note": "exact arithmetic"
  },
  {
   "property": "C52",
   "status": "proved",
   "theorems": [
    "C52_peak"
   ],
   "note": ""
  },
  {
   "property": "C53",
   "status": "partial",
   "theorems": [
    "C53_constant",
    "C53_refuted"
   ],
   "note": "proved for a constant model, refuted otherwise (finding F41)"
  },
  {
   "property": "C54",
   "status": "proved",
   "theorems": [
    "C54_predictions"
   ],
   "note": ""
  },
  {
   "property": "C55",
   "status": "partial",
   "theorems": [
    "C55_peak_fit_partial",
    "C55_refuted"
   ],
   "note": "proved when the normalised amplitude peaks at the same channel; refuted otherwise (finding F42)"
  },
  {
   "property": "C56",
   "status": "proved",
   "theorems": [
    "C56_spectrum"
   ],
   "note": "mpfit and the RMSF fitter are arbitrary functions"
  },
  {
   "property": "C57",
   "status": "partial",
   "theorems": [
    "C57_channels",
    "C57_rmsf",
    "C57_rmsf_alike",
    "C57_rmsf_refuted"
   ],
   "note": "proved when Q and U are flagged alike, refuted otherwise (finding F43)"
  },
  {
   "property": "C58",
   "status": "proved",
   "theorems": [
    "C58_thin_source"
   ],
   "note": ""
  },
  {
   "property": "C59",
   "status": "partial",
   "theorems": [
    "C59_ends",
    "C59_table_super_refuted"
   ],
   "note": "a Stokes I table with super-resolution never ends (finding F44); a table needs different frequencies throughout"
  },
  {
   "property": "C60",
   "status": "proved",
   "theorems": [
    "C60_noise"
   ],
   "note": ""
  },
  {
   "property": "C61",
   "status": "proved",
   "theorems": [
    "C61_table",
    "C61_no_stokes_I"
   ],
   "note": ""
  },
  {
   "property": "C62",
   "status": "proved",
   "theorems": [
    "C62_parameters",
    "C62_width",
    "C62_complexity",
    "C62_medians"
   ],
   "note": "mpfit and the RMSF fitter are arbitrary functions"
  },
  {
   "property": "C63",
   "status": "proved",
   "theorems": [
    "C63_files"
   ],
   "note": "the RMSF fitter is an arbitrary function"
  },
  {
   "property": "C64",
   "status": "proved",
   "theorems": [
    "C64_voxels",
    "C64_spread",
    "C64_maps"
   ],
   "note": ""
  },
  {
   "property": "C65",
   "status": "proved",
   "theorems": [
    "C65_pixel",
    "C65_spectrum_1D"
   ],
   "note": "two cubes: without Stokes I; against the 1-D tool: with any Stokes I"
  },
  {
   "property": "C66",
   "status": "partial",
   "theorems": [
    "C66_one_column_refuted",
    "C66_few_axes_refuted",
    "C66_spread_refuted"
   ],
   "note": "refuted for one-column images, images with fewer than two sky axes, and channels without U (findings F54 to F56); the positive part is C63 and C64"
  },
  {
   "property": "C67",
   "status": "partial",
   "theorems": [
    "C67_cubes",
    "C67_catalogue_to_map",
    "C67_catalogue_to_spectrum",
    "C67_empty_refuted",
    "C67_shared_refuted"
   ],
   "note": "the cubes are proved if astropy's copy of an image copies its pixels, else the three cubes are one (finding F70); refuted for flagged channels of a sky without sources (F69); the noise curve is an argument, its extrapolation from a template is not modelled; random numbers are an argument"
  },
  {
   "property": "C68",
   "status": "partial",
   "theorems": [
    "C68_result",
    "C68_reported",
    "C68_gradient",
    "C68_ends",
    "C68_optimal_start",
    "C68_reported_refuted",
    "C68_stokes",
    "C68_stokes_ends",
    "C68_few_channels"
   ],
   "note": "refuted: the chi squared reported (finding F72); the run is modelled for the options RM-Tools uses (no limits, ties or steps); a zero error among others (residuals inf or NaN) is left to an arbitrary function; runs that need more than the fuel are not described unless the start is no worse than zero parameters"
  },
  {
   "property": "C69",
   "status": "partial",
   "theorems": [
    "C69_factor",
    "C69_step_partial",
    "C69_damped_refuted",
    "C69_inverse",
    "C69_covariance"
   ],
   "note": "the damped step is proved for one and two unknowns and refuted for three (finding F71)"
  },
  {
   "property": "C70",
   "status": "proved",
   "theorems": [
    "C70_linear",
    "C70_exact",
    "C70_constant",
    "C70_polynomial",
    "C70_fractions"
   ],
   "note": "exact real arithmetic; the start must be within reach of the first trust region (110 times its scaled length)"
  },
  {
   "property": "C71",
   "status": "proved",
   "theorems": [
    "C71_ends",
    "C71_zero_noise_refuted",
    "C71_spectra",
    "C71_no_noise_refuted",
    "C71_measures"
   ],
   "note": "refuted without noise (findings F74, F75); the text files between the tools are taken to keep the numbers, plots and messages are not modelled"
  },
  {
   "property": "C72",
   "status": "proved",
   "theorems": [
    "C72_saved",
    "C72_thin_source"
   ],
   "note": "for a source at a depth of the grid, a grid that is not aliased by two of the channels, Q and U flagged alike, positive flux and threshold"
  },
  {
   "property": "C73",
   "status": "partial",
   "theorems": [
    "C73_command_refuted",
    "C73_prediction",
    "C73_thin_source_partial",
    "C73_thin_source_refuted"
   ],
   "note": "refuted: the prediction is too large by the flux at the reference frequency (F77) and the command line never works (F76); for the power-law Stokes I model only, which is the only one the tool knows"
  },
  {
   "property": "C74",
   "status": "proved",
   "theorems": [
    "C74_any_grid",
    "C74_symmetric_grid",
    "C74_rmsf"
   ],
   "note": "in exact arithmetic the NUFFT is the sum it approximates"
  },
  {
   "property": "C75",
   "status": "partial",
   "theorems": [
    "C75_ends",
    "C75_synthesis",
    "C75_agrees",
    "C75_isolated_flag_refuted",
    "C75_clean",
    "C75_clean_ends",
    "C75_grids",
    "C75_shape",
    "C75_spread"
   ],
   "note": "refuted for isolated flags (F78); CLEAN for finite spectra, plots off, with the RMSF given; the width fit is an oracle"
  },
  {
   "property": "C76",
   "status": "partial",
   "theorems": [
    "C76_synthesis",
    "C76_lam0_map",
    "C76_lam0_number_refuted",
    "C76_low_weights_refuted",
    "C76_agrees",
    "C76_rmsf",
    "C76_rmsf_lam0_refuted",
    "C76_real_fit_refuted",
    "C76_shapes",
    "C76_widths"
   ],
   "note": "for three axes; refuted for fewer axes (F79), a single reference wavelength (F80, F81) and the fit of the real part (F82)"
  },
  {
   "property": "C77",
   "status": "partial",
   "theorems": [
    "C77_lobe",
    "C77_no_lobe",
    "C77_one_sample",
    "C77_fit",
    "C77_ends",
    "C77_pixels",
    "C77_width",
    "C77_parts",
    "C77_near_start_refuted",
    "C77_near_start_fails_refuted",
    "C77_sign"
   ],
   "note": "termination for lobes above the lines from the peak to 0.4; how close the fitted width is to the true one, and its sign, are not bounded; refuted for peaks near the first sample (F83)"
  },
  {
   "property": "C78",
   "status": "partial",
   "theorems": [
    "C78_two_columns",
    "C78_one_column",
    "C78_weight_file",
    "C78_generated",
    "C78_wavelengths",
    "C78_integer_wavelengths",
    "C78_integer_overflow_refuted",
    "C78_mixed_columns_refuted",
    "C78_one_row_refuted",
    "C78_report",
    "C78_default",
    "C78_default_width"
   ],
   "note": "the figure is not modelled; text columns and zero frequencies are left out; refuted for large integer frequencies, mixed columns and single rows (F84-F86)"
  },
  {
   "property": "C79",
   "status": "partial",
   "theorems": [
    "C79_report",
    "C79_fractional",
    "C79_flat",
    "C79_exact",
    "C79_exact_run",
    "C79_flat_stokes",
    "C79_endings",
    "C79_no_model",
    "C79_fixed_refuted",
    "C79_fixed_raises_refuted",
    "C79_blank_counted_refuted"
   ],
   "note": "the sampler is an oracle, figures and all-NaN fractions are left out; bilby is taken to update the posterior from the samples; refuted for fixed parameters before an angle and for blank channels (F87, F88)"
  },
  {
   "property": "C80",
   "status": "proved",
   "theorems": [
    "C80_proportional",
    "C80_flat_fit",
    "C80_flat_spectrum",
    "C80_flat_same",
    "C80_fractional",
    "C80_table",
    "C80_ends"
   ],
   "note": "with the modelled mpfit; the spread-function fit is an oracle common to both runs; runs that end"
  },
  {
   "property": "C81",
   "status": "partial",
   "theorems": [
    "C81_close",
    "C81_lam0",
    "C81_lam0_given",
    "C81_exact",
    "C81_thin",
    "C81_peak",
    "C81_rmsf",
    "C81_sums",
    "C81_single",
    "C81_tolerance_refuted"
   ],
   "note": "no overflow or underflow; the input conversion to nBits is not an error source here; spread function for one spectrum without mask; that the error is of the size of the transform's tolerance is refuted (F89)"
  },
  {
   "property": "C82",
   "status": "partial",
   "theorems": [
    "C82_strip_keeps",
    "C82_strip_removes",
    "C82_strip_defined",
    "C82_strip_data",
    "C82_strip_data_defined",
    "C82_beam_line",
    "C82_beam",
    "C82_beam_unreadable",
    "C82_beam_area",
    "C82_cut_pixels",
    "C82_cut_header",
    "C82_cut_defined",
    "C82_bounds",
    "C82_centre",
    "C82_steps",
    "C82_strip_terms_refuted",
    "C82_strip_too_few_refuted",
    "C82_channels_refuted",
    "C82_zero_limit_refuted",
    "C82_outside_refuted",
    "C82_blank_refuted",
    "C82_turn_refuted"
   ],
   "note": "wcslib is an oracle; removal of PCi_j and CD3_j terms, the check for too few axes, channel ranges, positions outside the image, blank cut-outs and the step at 0/360 degrees are refuted (F90-F95)"
  },
  {
   "property": "C83",
   "status": "proved",
   "theorems": [
    "C83_operations",
    "C83_conserves",
    "C83_total",
    "C83_stops",
    "C83_stops_window",
    "C83_source",
    "C83_exact",
    "C83_single"
   ],
   "note": "overflow and underflow are outside the model (unbounded exponents); numpy.abs of a complex number and the exponential are oracles with a stated error"
  },
  {
   "property": "C84",
   "status": "partial",
   "theorems": [
    "C84_synth_fdf",
    "C84_synth_rmsf",
    "C84_synth_peak",
    "C84_synth_defined",
    "C84_synth_names",
    "C84_cube_read",
    "C84_clean_cubes",
    "C84_clean_defined",
    "C84_clean_read",
    "C84_fit_maps",
    "C84_fit_cov",
    "C84_fit_model",
    "C84_fit_defined",
    "C84_rescale",
    "C84_cd_refuted",
    "C84_fwhm_refuted",
    "C84_peak_pixel_refuted",
    "C84_iter_axis_refuted"
   ],
   "note": "four expectations refuted (F98-F101); comments of cards and the cards astropy sets from the data are left out"
  },
  {
   "property": "C85",
   "status": "partial",
   "theorems": [
    "C85_dms",
    "C85_dms_negative",
    "C85_dms_close",
    "C85_hms",
    "C85_hms_negative",
    "C85_labels_defined",
    "C85_deg2dms",
    "C85_deg2dms_invalid",
    "C85_deg",
    "C85_exp",
    "C85_exp_plain",
    "C85_exp_defined",
    "C85_sign_refuted",
    "C85_sixty_refuted",
    "C85_minus_zero_refuted"
   ],
   "note": "three expectations refuted (F102-F104); the plain number format of logarithmic labels is an argument"
  },
  {
   "property": "C86",
   "status": "partial",
   "theorems": [
    "C86_filter",
    "C86_filter_nan_refuted",
    "C86_lines",
    "C86_gauss",
    "C86_hist",
    "C86_hist_area",
    "C86_hist_empty",
    "C86_scale",
    "C86_scale_defined",
    "C86_scale_flat",
    "C86_midpoint",
    "C86_stats",
    "C86_stats_fail",
    "C86_stats_one_refuted",
    "C86_limits_defined",
    "C86_limits_auto",
    "C86_limits_given",
    "C86_sqrt_refuted",
    "C86_zmin_refuted",
    "C86_blank_refuted",
    "C86_box",
    "C86_box_refuted"
   ],
   "note": "six expectations refuted (F106-F111); drawing itself is not modelled"
  },
  {
   "property": "C87",
   "status": "partial",
   "theorems": [
    "C87_text",
    "C87_lines",
    "C87_table",
    "C87_ragged",
    "C87_round_trip",
    "C87_round_trip_one_refuted",
    "C87_accepts",
    "C87_double",
    "C87_single",
    "C87_count",
    "C87_bytes_refuted",
    "C87_one_refuted",
    "C87_short_refuted",
    "C87_columns_refuted",
    "C87_same",
    "C87_same_single_refuted"
   ],
   "note": "six expectations refuted (F112-F116); wcslib is an oracle, and a minus zero is written without its sign"
  },
  {
   "property": "C88",
   "status": "partial",
   "theorems": [
    "C88_pqu",
    "C88_pqu_runs",
    "C88_no_errors_refuted",
    "C88_others",
    "C88_negative_refuted",
    "C88_browser_refuted",
    "C88_psi_sign",
    "C88_p_error",
    "C88_p_error_equal",
    "C88_p_bar_refuted",
    "C88_limits_refuted",
    "C88_psi",
    "C88_bands",
    "C88_psi_bands",
    "C88_psi_median_refuted",
    "C88_axes",
    "C88_dirty",
    "C88_peak_line_refuted",
    "C88_rmsf",
    "C88_clean",
    "C88_complex_refuted",
    "C88_normal",
    "C88_normal_refuted",
    "C88_ecdf",
    "C88_ecdf_refuted",
    "C88_chi",
    "C88_chi_refuted",
    "C88_cpdf",
    "C88_zoom",
    "C88_bell"
   ],
   "note": "eleven expectations refuted (F117-F126); colours, ticks and the drawing itself are matplotlib's"
  },
  {
   "property": "C89",
   "status": "partial",
   "theorems": [
    "C89_thin",
    "C89_thin_mod",
    "C89_thin_mismatch",
    "C89_runs",
    "C89_cubes",
    "C89_peak",
    "C89_any_size",
    "C89_no_noise",
    "C89_u_noise",
    "C89_u_noise_refuted",
    "C89_header",
    "C89_axis",
    "C89_axis_refuted",
    "C89_synthesis",
    "C89_synthesis_peak",
    "C89_beam"
   ],
   "note": "two expectations refuted (F127, F128)"
  },
  {
   "property": "C90",
   "status": "partial",
   "theorems": [
    "C90_config",
    "C90_config_comment",
    "C90_config_comment_refuted",
    "C90_config_quotes_refuted",
    "C90_config_blank_comma",
    "C90_cleanup_words",
    "C90_cleanup_tidy",
    "C90_cleanup_keeps",
    "C90_cleanup_blank_refuted",
    "C90_sort_perm",
    "C90_sort_order",
    "C90_sort_stable",
    "C90_sort_numbered",
    "C90_sort_decimals_refuted",
    "C90_xfloat",
    "C90_xfloat_default",
    "C90_progress",
    "C90_records",
    "C90_records_bytes_refuted",
    "C90_records_array",
    "C90_view",
    "C90_view_all",
    "C90_view_missing",
    "C90_view_order_refuted",
    "C90_delete",
    "C90_delete_others",
    "C90_delete_left_refuted",
    "C90_l2_array",
    "C90_l2_forth"
   ],
   "note": "seven expectations refuted (F129-F135)"
  },
  {
   "property": "C91",
   "status": "partial",
   "theorems": [
    "C91_documented",
    "C91_any_order",
    "C91_block",
    "C91_stray",
    "C91_too_few",
    "C91_count",
    "C91_stem",
    "C91_rmsynth1d",
    "C91_rmclean1d",
    "C91_qufit",
    "C91_bwdepol",
    "C91_bwpredict",
    "C91_rmsynth3d",
    "C91_rmclean3d",
    "C91_fitIcube",
    "C91_peakfitcube",
    "C91_rescale",
    "C91_createchunks",
    "C91_optional",
    "C91_assemblechunks",
    "C91_freqfile",
    "C91_negative_refuted",
    "C91_short_forms_refuted",
    "C91_fits_order_refuted",
    "C91_bwpredict_samples_refuted",
    "C91_testdata_help_refuted",
    "C91_cores_mpi"
   ],
   "note": "expectations refuted (F136-F144); a word -- is not modelled"
  },
  {
   "property": "C92",
   "status": "partial",
   "theorems": [
    "C92_within",
    "C92_descends",
    "C92_refused",
    "C92_no_raise",
    "C92_max_step",
    "C92_plain",
    "C92_missing_value_refuted",
    "C92_ints_refuted",
    "C92_flag_refuted",
    "C92_max_step_refuted",
    "C92_stuck_refuted",
    "C92_step",
    "C92_upper",
    "C92_linear",
    "C92_quadratic",
    "C92_lower_refuted"
   ],
   "note": "expectations refuted (F145-F150); termination with limits is not proved"
  }
 ]
}