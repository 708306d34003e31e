{
 "claims": [
  {
   "property": "C01",
   "status": "proved",
   "theorems": [
    "C01_unique",
    "C01_unique_baselines"
   ],
   "note": ""
  },
  {
   "property": "C02",
   "status": "proved",
   "theorems": [
    "C02_row_map_total"
   ],
   "note": ""
  },
  {
   "property": "C03",
   "status": "proved",
   "theorems": [
    "C03_duplicates_rejected",
    "C03_only_value_error"
   ],
   "note": ""
  },
  {
   "property": "C04",
   "status": "proved",
   "theorems": [
    "C04_no_baseline_mixing"
   ],
   "note": ""
  },
  {
   "property": "C05",
   "status": "proved",
   "theorems": [
    "C05_time_ordered"
   ],
   "note": ""
  },
  {
   "property": "C06",
   "status": "proved",
   "theorems": [
    "C06_time_mean_interval_sum",
    "C06_flagged_rows_excluded_refuted"
   ],
   "note": "C06_time_mean_interval_sum proves the claim as stated; C06_flagged_rows_excluded_refuted shows the docstring's other reading (flagged rows excluded) is false of the code."
  },
  {
   "property": "C07",
   "status": "proved",
   "theorems": [
    "C07_row_flag_iff_all"
   ],
   "note": ""
  },
  {
   "property": "C08",
   "status": "proved",
   "theorems": [
    "C08_bin_width",
    "C08_varying_interval_refuted"
   ],
   "note": "Proved for a common interval; C08_varying_interval_refuted shows the restriction is needed."
  },
  {
   "property": "C09",
   "status": "partial",
   "theorems": [
    "C09_bin_opening_rule_partial",
    "C09_greedy_refuted"
   ],
   "note": "The greedy reading is false of the code: C09_greedy_refuted gives a witness (stale bin_low). C09_bin_opening_rule_partial states the rule that does hold; see also C79."
  },
  {
   "property": "C10",
   "status": "proved",
   "theorems": [
    "C10_channel_map"
   ],
   "note": ""
  },
  {
   "property": "C11",
   "status": "proved",
   "theorems": [
    "C11_row_average"
   ],
   "note": ""
  },
  {
   "property": "C12",
   "status": "proved",
   "theorems": [
    "C12_row_chan_average"
   ],
   "note": ""
  },
  {
   "property": "C13",
   "status": "proved",
   "theorems": [
    "C13_zero_filled_iff",
    "C13_time_and_channel_total",
    "C13_cell_flag_iff_all",
    "C13_nonbinary_row_flags_refuted"
   ],
   "note": "C13_nonbinary_row_flags_refuted shows that flag_row values other than 0/1 can raise Zero-filled bin; the positive theorems cover 0/1 flags."
  },
  {
   "property": "C14",
   "status": "proved",
   "theorems": [
    "C14_weighted_vis_conserved"
   ],
   "note": ""
  },
  {
   "property": "C15",
   "status": "proved",
   "theorems": [
    "C15_chan_average",
    "C15_bandwidth_conserved"
   ],
   "note": ""
  },
  {
   "property": "C16",
   "status": "proved",
   "theorems": [
    "C16_merge_flags"
   ],
   "note": ""
  },
  {
   "property": "C17",
   "status": "proved",
   "theorems": [
    "C17_chan_corrs"
   ],
   "note": ""
  },
  {
   "property": "C18",
   "status": "proved",
   "theorems": [
    "C18_aggregate_chunks"
   ],
   "note": ""
  },
  {
   "property": "C19",
   "status": "proved",
   "theorems": [
    "C19_greedy_no_empty"
   ],
   "note": ""
  },
  {
   "property": "C20",
   "status": "proved",
   "theorems": [
    "C20_corr_shape"
   ],
   "note": ""
  },
  {
   "property": "C21",
   "status": "proved",
   "theorems": [
    "C21_grids"
   ],
   "note": ""
  },
  {
   "property": "C22",
   "status": "proved",
   "theorems": [
    "C22_register_cycles"
   ],
   "note": ""
  },
  {
   "property": "C23",
   "status": "proved",
   "theorems": [
    "C23_singleton",
    "C23_subclass_refuted",
    "C23_falsy_refuted"
   ],
   "note": "Proved for truthy instances of classes not derived from one another; C23_subclass_refuted and C23_falsy_refuted show both conditions are needed."
  },
  {
   "property": "C24",
   "status": "proved",
   "theorems": [
    "C24_memoize",
    "C24_one_success"
   ],
   "note": "Calls of the wrapped function are atomic in the model: the wrapped function does not call its own memoised wrapper (the lock is not re-entrant)."
  },
  {
   "property": "C25",
   "status": "proved",
   "theorems": [
    "C25_requires_optional",
    "C25_call"
   ],
   "note": ""
  },
  {
   "property": "C26",
   "status": "proved",
   "theorems": [
    "C26_measurement_equation",
    "C26_apply_gains"
   ],
   "note": "Over any commutative ring with conjugation; arrays that share an axis have the same extent (hypothesis shapes)."
  },
  {
   "property": "C27",
   "status": "proved",
   "theorems": [
    "C27_superposition",
    "C27_reorder"
   ],
   "note": ""
  },
  {
   "property": "C28",
   "status": "proved",
   "theorems": [
    "C28_chunked_predict",
    "C28_stream_completes",
    "C28_no_sources",
    "C28_base_vis_only_refuted",
    "C28_graph_length",
    "C28_graph_length_refuted"
   ],
   "note": "C28_base_vis_only_refuted shows why a term other than base_vis is required; C28_graph_length_refuted shows that len() of the reduction graph is not its number of keys with several source blocks (no effect on values)."
  },
  {
   "property": "C29",
   "status": "proved",
   "theorems": [
    "C29_checks",
    "C29_accepts",
    "C29_dask_chunks"
   ],
   "note": "On numbers of dimensions, as checked by the code; extents of the correlation axes are not checked by the code."
  },
  {
   "property": "C30",
   "status": "proved",
   "theorems": [
    "C30_phase_fourier",
    "C30_phase_casa",
    "C30_unit_modulus",
    "C30_conventions_conjugate",
    "C30_negated_uvw",
    "C30_phase_centre",
    "C30_added_uvw",
    "C30_unknown_convention"
   ],
   "note": "Over the reals; phase_delay computed loop by loop equals cis of the delay formula. sqrt of a negative number is 0 in the model (NaN in the code)."
  },
  {
   "property": "C31",
   "status": "proved",
   "theorems": [
    "C31_linear",
    "C31_linear_entries",
    "C31_linear_compose",
    "C31_circular",
    "C31_basis_change",
    "C31_basis_change_unitary",
    "C31_invalid"
   ],
   "note": "Over the reals."
  },
  {
   "property": "C32",
   "status": "proved",
   "theorems": [
    "C32_values",
    "C32_rotates_iff",
    "C32_assertions",
    "C32_rotation_refuted"
   ],
   "note": "The property is reworded to what holds; C32_rotation_refuted shows the intended rotation claim is false of the code (rime/transform.py:30-31 overwrites l before computing m)."
  },
  {
   "property": "C33",
   "status": "proved",
   "theorems": [
    "C33_values",
    "C33_raises",
    "C33_superposition",
    "C33_conjugate_symmetry",
    "C33_zero_extent",
    "C33_chunks",
    "C33_coefficient_chunks_refuted"
   ],
   "note": "Over the reals. C33_coefficient_chunks_refuted: coefficients in several chunks, all but the first are dropped (rime/dask_predict.py)."
  },
  {
   "property": "C34",
   "status": "proved",
   "theorems": [
    "C34_bracket",
    "C34_unique",
    "C34_interpolates"
   ],
   "note": "Over real numbers. The bracketing planes are unique (C34_unique)."
  },
  {
   "property": "C35",
   "status": "proved",
   "theorems": [
    "C35_value",
    "C35_weights",
    "C35_bounds",
    "C35_node",
    "C35_small_cube",
    "C35_long_map_refuted",
    "C35_chunks",
    "C35_chunked_beam"
   ],
   "note": "Over real numbers; sin, cos and sqrt are exact. C35_long_map_refuted shows the unchecked precondition: a frequency map longer than the cube reads outside it."
  },
  {
   "property": "C36",
   "status": "proved",
   "theorems": [
    "C36_corrupt_vis",
    "C36_rebasing_idempotent"
   ],
   "note": ""
  },
  {
   "property": "C37",
   "status": "proved",
   "theorems": [
    "C37_correct_undoes_corrupt",
    "C37_correct_vis",
    "C37_one_direction_only"
   ],
   "note": ""
  },
  {
   "property": "C38",
   "status": "proved",
   "theorems": [
    "C38_residual_vis"
   ],
   "note": ""
  },
  {
   "property": "C39",
   "status": "proved",
   "theorems": [
    "C39_chunkify_rows",
    "C39_zero_times_per_chunk"
   ],
   "note": ""
  },
  {
   "property": "C40",
   "status": "proved",
   "theorems": [
    "C40_chunked_corrupt",
    "C40_chunked_residual",
    "C40_chunked_correct",
    "C40_chunkify_chunks_aligned",
    "C40_several_refused"
   ],
   "note": ""
  },
  {
   "property": "C41",
   "status": "proved",
   "theorems": [
    "C41_check_type"
   ],
   "note": ""
  },
  {
   "property": "C42",
   "status": "proved",
   "theorems": [
    "C42_values",
    "C42_is_corrupt_vis_of_prediction",
    "C42_chunks",
    "C42_unchunked_axes"
   ],
   "note": "Real arithmetic; division by n as in RCF (n = 0 not meaningful). Chunked version for aligned chunks."
  },
  {
   "property": "C43",
   "status": "proved",
   "theorems": [
    "C43_jhj",
    "C43_jhr",
    "C43_jhj_and_jhr",
    "C43_jacobian",
    "C43_iterations",
    "C43_angle",
    "C43_pure_phases",
    "C43_exact_gains_kept",
    "C43_common_phase",
    "C43_other_modes",
    "C43_caller_arrays",
    "C43_inputs_unchanged_refuted",
    "C43_chunked_jhj",
    "C43_chunked_jhr",
    "C43_declared_shape_refuted"
   ],
   "note": "Real arithmetic, jhj = 0 gives 0 rather than NaN in the model. tol >= 0. Refuted: C43_inputs_unchanged_refuted (vis and model are scaled in place), C43_declared_shape_refuted (dask results declare the row chunks as sizes of the time axis)."
  },
  {
   "property": "C44",
   "status": "proved",
   "theorems": [
    "C44_flux_conserved",
    "C44_point_psf",
    "C44_psf_centre_refuted",
    "C44_restore",
    "C44_restore_with_psf",
    "C44_beam_peak",
    "C44_beam_shape"
   ],
   "note": "Real arithmetic; curve_fit is an oracle; fftconvolve is modelled as the exact convolution. Refuted: C44_psf_centre_refuted (a PSF centred on the middle pixel (n,n) is not subtracted where the component is placed)."
  },
  {
   "property": "C45",
   "status": "proved",
   "theorems": [
    "C45_run",
    "C45_errors",
    "C45_at_most_niter_refuted",
    "C45_absolute_threshold_refuted"
   ],
   "note": "Refuted: C45_at_most_niter_refuted (niter + 1 cycles are made), C45_absolute_threshold_refuted (threshold is relative to the first peak)."
  },
  {
   "property": "C46",
   "status": "proved",
   "theorems": [
    "C46_peak",
    "C46_empty",
    "C46_absolute_refuted",
    "C46_first_refuted"
   ],
   "note": "The original wording (absolute value, first position) is refuted by C46_absolute_refuted and C46_first_refuted."
  },
  {
   "property": "C47",
   "status": "proved",
   "theorems": [
    "C47_adjoint",
    "C47_im_to_vis_linear",
    "C47_vis_to_im_linear",
    "C47_vis_to_im_value"
   ],
   "note": "Over the reals, with any flags: flagged samples are removed from the visibility side."
  },
  {
   "property": "C48",
   "status": "proved",
   "theorems": [
    "C48_rows",
    "C48_flagged",
    "C48_chunks",
    "C48_corr_chunks_refuted",
    "C48_chunk_checks",
    "C48_unknown_convention"
   ],
   "note": "C48_corr_chunks_refuted: with correlation-dependent flags the dask result depends on the chunking of the correlations."
  },
  {
   "property": "C49",
   "status": "proved",
   "theorems": [
    "C49_sum_over_pixels",
    "C49_unknown_convention",
    "C49_chunks",
    "C49_chunk_checks"
   ],
   "note": "Over the reals."
  },
  {
   "property": "C50",
   "status": "proved",
   "theorems": [
    "C50_stokes_to_linear",
    "C50_stokes_to_circular",
    "C50_linear_to_stokes",
    "C50_circular_to_stokes",
    "C50_linear_roundtrip",
    "C50_circular_roundtrip",
    "C50_linear_roundtrip_back",
    "C50_circular_roundtrip_back",
    "C50_non_hermitian_refuted"
   ],
   "note": "C50_non_hermitian_refuted: correlations that are not Hermitian do not survive the round trip through Stokes parameters."
  },
  {
   "property": "C51",
   "status": "proved",
   "theorems": [
    "C51_schema_accepted",
    "C51_schema_positions",
    "C51_schema_shape",
    "C51_convert",
    "C51_convert_needs",
    "C51_convert_nothing",
    "C51_pointwise",
    "C51_unknown_output_refuted",
    "C51_ragged_refuted"
   ],
   "note": "C51_ragged_refuted: names at two depths are accepted although the shape then has unnamed (never written) elements. C51_unknown_output_refuted: an unknown output that comes first raises UnboundLocalError instead of ValueError. Broadcasting between operands of such irregular schemas is not modelled."
  },
  {
   "property": "C52",
   "status": "proved",
   "theorems": [
    "C52_envelope",
    "C52_range",
    "C52_origin",
    "C52_even",
    "C52_frequency_scaling",
    "C52_round"
   ],
   "note": "Over the reals."
  },
  {
   "property": "C53",
   "status": "proved",
   "theorems": [
    "C53_values",
    "C53_reference_frequency",
    "C53_unknown_base",
    "C53_dimensions",
    "C53_numpy_reference",
    "C53_long_list_refuted",
    "C53_chunks",
    "C53_pol_chunks_refuted",
    "C53_spi_chunks"
   ],
   "note": "Over the reals; logarithmic curves need a positive Stokes parameter. C53_long_list_refuted: with more bases than polarisations the compiled function succeeds and the reference raises. C53_pol_chunks_refuted: with a base list and chunked polarisations every chunk starts from the first base."
  },
  {
   "property": "C54",
   "status": "proved",
   "theorems": [
    "C54_values",
    "C54_raises",
    "C54_shapes",
    "C54_reference_frequency",
    "C54_numpy_reference",
    "C54_negative_coefficient_refuted"
   ],
   "note": "Over the reals. C54_negative_coefficient_refuted: a logarithmic source of positive flux but with a negative coefficient is rejected, although the reference computes it (spec_model.py:97)."
  },
  {
   "property": "C55",
   "status": "proved",
   "theorems": [
    "C55_written_file",
    "C55_aligned",
    "C55_bad_header",
    "C55_wrong_count",
    "C55_fields",
    "C55_nested_refuted",
    "C55_right_ascension",
    "C55_declination",
    "C55_not_an_angle",
    "C55_values",
    "C55_defaults",
    "C55_trailing_refuted",
    "C55_signs_refuted"
   ],
   "note": "The three refuted theorems state where the code is laxer than its documentation suggests: text after an angle is ignored, several signs are read differently in the two angle columns, and nested brackets are split at inner commas."
  },
  {
   "property": "C56",
   "status": "proved",
   "theorems": [
    "C56_exact_data",
    "C56_iterations",
    "C56_normal_equations",
    "C56_derivatives",
    "C56_stationary",
    "C56_variances",
    "C56_chunks",
    "C56_channel_chunks_refuted",
    "C56_raises"
   ],
   "note": "Exact reals. C56_channel_chunks_refuted: the dask wrapper silently fits only the first channel chunk. C56_raises: tolerance >= 1, no iterations, or two channels end in an error. The documented default intensity of 1.0 is not what the code uses; the theorems state the actual default (nearest channel)."
  },
  {
   "property": "C57",
   "status": "proved",
   "theorems": [
    "C57_kron_matvec",
    "C57_bad_length"
   ],
   "note": ""
  },
  {
   "property": "C58",
   "status": "proved",
   "theorems": [
    "C58_kron_tensorvec",
    "C58_int8_refuted"
   ],
   "note": "C58_int8_refuted shows the size restriction is needed: factor sizes are stored in int8 arrays."
  },
  {
   "property": "C59",
   "status": "proved",
   "theorems": [
    "C59_kron_matmat",
    "C59_bad_rows",
    "C59_kron_tensormat",
    "C59_complex_refuted"
   ],
   "note": "[store] is the conversion made by assigning into the float64 result; C59_complex_refuted shows the loss for complex data."
  },
  {
   "property": "C60",
   "status": "proved",
   "theorems": [
    "C60_split_box_tiles",
    "C60_row_major",
    "C60_zero_pieces",
    "C60_uneven_refuted",
    "C60_thin_piece_refuted"
   ],
   "note": "C60_uneven_refuted and C60_thin_piece_refuted show that boxes that cannot be cut into pieces two pixels wide stick out of the parent or raise QhullError."
  },
  {
   "property": "C61",
   "status": "proved",
   "theorems": [
    "C61_pad_box",
    "C61_too_small",
    "C61_contains_refuted"
   ],
   "note": "C61_contains_refuted: a 4x4 box padded to 4x4 is moved by one pixel."
  },
  {
   "property": "C62",
   "status": "proved",
   "theorems": [
    "C62_partition_of_unity",
    "C62_equal_shares",
    "C62_no_pixels",
    "C62_negative_x_refuted"
   ],
   "note": "C62_negative_x_refuted: with negative x the flattened indices collide and the weights are wrong. np.float (removed from recent numpy) is read as float."
  },
  {
   "property": "C63",
   "status": "proved",
   "theorems": [
    "C63_regional_data",
    "C63_project_regions",
    "C63_wrong_shape",
    "C63_extract_project",
    "C63_normalized_reconstruction",
    "C63_swapped_axes_refuted",
    "C63_oob_value_refuted"
   ],
   "note": "C63_swapped_axes_refuted: the range check compares x with the rows and y with the columns, so valid regions of non-square images raise ValueError. C63_oob_value_refuted: outside pixels are zero, not oob_value as documented. One image plane, exact rationals, no NaN."
  },
  {
   "property": "C64",
   "status": "proved",
   "theorems": [
    "C64_components",
    "C64_lm_components",
    "C64_unit_sphere",
    "C64_round_trip",
    "C64_lm_round_trip",
    "C64_lm_inverse",
    "C64_across_pole_refuted",
    "C64_behind_refuted",
    "C64_chunks",
    "C64_shapes"
   ],
   "note": "Over real numbers. C64_across_pole_refuted and C64_behind_refuted show where the unconditional inverse fails (arctan instead of arctan2; positive square root)."
  },
  {
   "property": "C65",
   "status": "proved",
   "theorems": [
    "C65_placement",
    "C65_tap_position",
    "C65_packed_scatter",
    "C65_packed_gather",
    "C65_unpack_pack",
    "C65_pack_unpack",
    "C65_layout"
   ],
   "note": "np.round halves to even and int truncation are modelled exactly.  numba's unchecked indexing is modelled as raising, so equality with the unpacked result also says that no read is out of bounds."
  },
  {
   "property": "C66",
   "status": "proved",
   "theorems": [
    "C66_scatter",
    "C66_gather",
    "C66_constant",
    "C66_adjoint",
    "C66_nearest",
    "C66_nearest_outside_refuted"
   ],
   "note": "C66_nearest_outside_refuted: conv_nn_scatter does not check bounds; a position left of the grid wraps to its right edge and one right of it writes outside the memory.  Exact arithmetic."
  },
  {
   "property": "C67",
   "status": "proved",
   "theorems": [
    "C67_to_correlations",
    "C67_from_correlations",
    "C67_roundtrip",
    "C67_missing_policy_refuted",
    "C67_unknown_to",
    "C67_unknown_from",
    "C67_short_view"
   ],
   "note": "C67_missing_policy_refuted: RLLR_FROM_Q exists but Q_FROM_RLLR does not."
  },
  {
   "property": "C68",
   "status": "proved",
   "theorems": [
    "C68_factor",
    "C68_modulus",
    "C68_undo",
    "C68_same_centre",
    "C68_behind_refuted",
    "C68_policies"
   ],
   "note": "C68_behind_refuted: for a facet more than 90 degrees away the sign of n is lost."
  },
  {
   "property": "C69",
   "status": "proved",
   "theorems": [
    "C69_matrix",
    "C69_rotate_length_refuted",
    "C69_rotate_reads_outside",
    "C69_wlinapprox",
    "C69_policies"
   ],
   "note": "C69_rotate_length_refuted and C69_rotate_reads_outside: the documented isometry is false of uvw_rotate."
  },
  {
   "property": "C70",
   "status": "proved",
   "theorems": [
    "C70_value",
    "C70_linear",
    "C70_additive",
    "C70_checks",
    "C70_facets",
    "C70_second_facet_refuted",
    "C70_chunked_mean",
    "C70_chunked_sum_refuted",
    "C70_chunked_channels_refuted"
   ],
   "note": "C70_second_facet_refuted, C70_chunked_sum_refuted and C70_chunked_channels_refuted show where the dask gridder departs from the sum: in-place transforms shared by facets, mean instead of sum over row blocks, later channel chunks dropped. C70_value is for the unpacked 1d policy; the packed one is equal by C65_packed_scatter."
  },
  {
   "property": "C71",
   "status": "proved",
   "theorems": [
    "C71_value",
    "C71_row_block",
    "C71_any_order",
    "C71_rotate_order_refuted",
    "C71_chunked",
    "C71_checks"
   ],
   "note": "C71_rotate_order_refuted: with baseline policy 'rotate' the parallel degridder depends on the order of rows because index 3 of a row is the first component of the next. C71_chunked covers the facets of the first facet chunk only, later facet chunks are dropped by the code; with other policies the dask degridder passes all centres at once and is modelled as failing."
  },
  {
   "property": "C72",
   "status": "proved",
   "theorems": [
    "C72_gridded_once",
    "C72_consumed_once",
    "C72_lengths",
    "C72_any_schedule",
    "C72_completes",
    "C72_whole",
    "C72_degrid",
    "C72_degrid_accepted",
    "C72_run_again",
    "C72_run_again_in_place_refuted",
    "C72_errors",
    "C72_negative_streams_refuted",
    "C72_config"
   ],
   "note": "nifty_gridder is an unknown library; assumptions on it are named and C72_library shows one that has them. Refuted: C72_run_again_in_place_refuted, C72_negative_streams_refuted."
  },
  {
   "property": "C73",
   "status": "proved",
   "theorems": [
    "C73_dirty_value",
    "C73_model_value",
    "C73_hessian_value",
    "C73_residual",
    "C73_adjoint",
    "C73_hessian_symmetric",
    "C73_chunked_dirty",
    "C73_chunked_hessian",
    "C73_chunked_residual",
    "C73_chunked_model",
    "C73_offset_refuted",
    "C73_one_channel_block_refuted",
    "C73_hessian_image_chunks_refuted",
    "C73_model_image_chunks_refuted",
    "C73_arguments",
    "C73_passed_on",
    "C73_no_bands",
    "C73_one_band_block_refuted"
   ],
   "note": "ducc's ms2dirty and dirty2ms are unknown functions; each theorem names the properties assumed of them (C73_library shows an exact library that has them all). Refuted: C73_offset_refuted (bins are shifted to channel 0), C73_one_channel_block_refuted, C73_hessian_image_chunks_refuted, C73_model_image_chunks_refuted. C73_one_band_block_refuted: one block of bands for several blocks of channels uses the first block only. C73_no_bands: without bins every function raises ValueError."
  },
  {
   "property": "C74",
   "status": "proved",
   "theorems": [
    "C74_distance",
    "C74_metric",
    "C74_numbers",
    "C74_too_few",
    "C74_too_many_refuted",
    "C74_covariance",
    "C74_positive",
    "C74_decreasing",
    "C74_spectrum",
    "C74_spectrum_errors",
    "C74_mixed"
   ],
   "note": "Over real numbers. C74_too_many_refuted: components of x beyond those of xp are ignored, so swapping the arguments need not transpose. C74_spectrum states the value the code computes: sqrt(2 pi l) and ordinary frequency, which is not the Fourier transform of the kernel (that has sqrt(2 pi) l and angular frequency)."
  },
  {
   "property": "C75",
   "status": "proved",
   "theorems": [
    "C75_only_slice_is_called",
    "C75_other_builtins",
    "C75_accepted",
    "C75_values",
    "C75_errors",
    "C75_rejected",
    "C75_not_assignment",
    "C75_parts",
    "C75_failing_part",
    "C75_always_ValueError_refuted",
    "C75_unpack_like_python_refuted",
    "C75_other_target"
   ],
   "note": "The tree made by ast.parse is the input; the text parser is not modelled. C75_always_ValueError_refuted and C75_unpack_like_python_refuted show where the intended behaviour is missed."
  },
  {
   "property": "C76",
   "status": "proved",
   "theorems": [
    "C76_type_to_id",
    "C76_id_to_type",
    "C76_inverse"
   ],
   "note": ""
  },
  {
   "property": "C77",
   "status": "proved",
   "theorems": [
    "C77_axis",
    "C77_count",
    "C77_accepted",
    "C77_grids",
    "C77_grids_found",
    "C77_argument_name_refuted",
    "C77_signed_ctype_refuted",
    "C77_strip",
    "C77_missing_cards",
    "C77_irregular_degrees_refuted",
    "C77_filename",
    "C77_filenames",
    "C77_unknown_id",
    "C77_files_differ",
    "C77_letters",
    "C77_naxis",
    "C77_argument_object"
   ],
   "note": "Numbers are real, strings ASCII. The original claim of ascending grids is false for negative CDELT and was dropped. Refuted: the axis name in l_axis/m_axis matters (only the sign does); a minus sign in CTYPE is understood; irregular grids in degrees are converted."
  },
  {
   "property": "C78",
   "status": "proved",
   "theorems": [
    "C78_warp_transpose"
   ],
   "note": ""
  },
  {
   "property": "C79",
   "status": "proved",
   "theorems": [
    "C79_only_first_bin_averages"
   ],
   "note": ""
  },
  {
   "property": "C80",
   "status": "proved",
   "theorems": [
    "C80_kron_cholesky",
    "C80_kron_cholesky_jitter"
   ],
   "note": "np.linalg.cholesky is an oracle with the textbook contract L L^H = A."
  },
  {
   "property": "C81",
   "status": "proved",
   "theorems": [
    "C81_hull_contains",
    "C81_hull_convex",
    "C81_no_overlap_sound",
    "C81_overlap_complete_refuted"
   ],
   "note": "Corners as delivered by scipy's ConvexHull are the input. C81_overlap_complete_refuted: overlaps_with returning True does not imply contact (distances are divided by the length of one edge)."
  },
  {
   "property": "C82",
   "status": "proved",
   "theorems": [
    "C82_axis_aligned",
    "C82_square",
    "C82_square_hull_refuted"
   ],
   "note": "C82_square_hull_refuted: a square box around a general hull need not contain it, since the centre is the vertex mean."
  },
  {
   "property": "C83",
   "status": "proved",
   "theorems": [
    "C83_first_read",
    "C83_normalised",
    "C83_reads_agree",
    "C83_stale_refuted"
   ],
   "note": "C83_stale_refuted: a mask set after the first read is not seen."
  },
  {
   "property": "C84",
   "status": "proved",
   "theorems": [
    "C84_backend",
    "C84_field_centre"
   ],
   "note": "The casacore and astropy backends are arbitrary results; astropy's warning is not modelled."
  },
  {
   "property": "C85",
   "status": "proved",
   "theorems": [
    "C85_index_bijective",
    "C85_index_order",
    "C85_value",
    "C85_edge",
    "C85_dde",
    "C85_chunks",
    "C85_poly_chunks_refuted"
   ],
   "note": "Over real numbers; factorials do not overflow. C85_poly_chunks_refuted: polynomial chunks after the first are lost by the dask wrapper."
  },
  {
   "property": "C86",
   "status": "proved",
   "theorems": [
    "C86_odd_support",
    "C86_shape",
    "C86_unit_sum",
    "C86_symmetric",
    "C86_detaper_dft",
    "C86_detaper_separable",
    "C86_detaper_fft",
    "C86_centre"
   ],
   "note": "numpy.fft.fft2 is its mathematical definition; the FFT version needs the padded image to hold the kernel (W + 2 <= npix).  kbsinc (Bessel functions) is not modelled."
  },
  {
   "property": "C87",
   "status": "proved",
   "theorems": [
    "C87_chunk",
    "C87_chunk_raises",
    "C87_one_row_chunk",
    "C87_sizes",
    "C87_errors",
    "C87_row_chunks_refuted",
    "C87_channel_chunks_refuted",
    "C87_rows_only_refuted"
   ],
   "note": "The wished-for independence of the chunking fails: C87_row_chunks_refuted, C87_channel_chunks_refuted, C87_rows_only_refuted. C87_chunk and C87_one_row_chunk give what does hold, C87_sizes what is declared and computed."
  },
  {
   "property": "C88",
   "status": "proved",
   "theorems": [
    "C88_interpolates",
    "C88_pieces",
    "C88_beyond",
    "C88_slope",
    "C88_lines",
    "C88_errors",
    "C88_queries",
    "C88_smooth_refuted",
    "C88_boundary_refuted",
    "C88_memory",
    "C88_right_slope_refuted",
    "C88_query_order_refuted",
    "C88_outside_queries"
   ],
   "note": "What a user would expect of a cubic spline fails: C88_smooth_refuted (slope jumps), C88_boundary_refuted, C88_right_slope_refuted, C88_query_order_refuted. Exact rational arithmetic. C88_lines holds from four knots and keeps the ends of line_ends; C88_outside_queries: queries below the first query or above the last one (not the knots) drop the cubic term and use the coefficients of a wrong knot."
  },
  {
   "property": "C89",
   "status": "proved",
   "theorems": [
    "C89_counts",
    "C89_orderly",
    "C89_estimate",
    "C89_format",
    "C89_numbers",
    "C89_sixty_refuted",
    "C89_steady_refuted",
    "C89_snapshot",
    "C89_dies",
    "C89_finish_race_refuted"
   ],
   "note": "Three expectations fail: C89_finish_race_refuted (_finish clears the bins without the lock, so the timer thread can die of RuntimeError), C89_steady_refuted (timer_func resets the previous values in every turn, so the estimate moves without newly finished tasks), C89_sixty_refuted (59.5 s is shown as 60s). Also: the division by zero of C89_estimate ends the timer thread."
  },
  {
   "property": "C90",
   "status": "proved",
   "theorems": [
    "C90_phase_delay",
    "C90_gaussian",
    "C90_transform",
    "C90_components",
    "C90_components_transform",
    "C90_feed",
    "C90_feed_value",
    "C90_parangles",
    "C90_field_centre",
    "C90_positions_refuted",
    "C90_casa",
    "C90_spectra",
    "C90_spectra_raises",
    "C90_spectra_first",
    "C90_spi_chunks_refuted",
    "C90_jax",
    "C90_feed_scalar"
   ],
   "note": "Equality for every chunking of the shared dimensions (C90_phase_delay, C90_gaussian, C90_transform, C90_feed, C90_parangles, C90_spectra, C90_spectra_raises). Refuted for cut contracted dimensions that are not unpacked: C90_spi_chunks_refuted (the wrapper takes spi[0], so later coefficients are dropped; C90_spectra_first says what is computed) and C90_positions_refuted (ap[0], shown with the test backend). Cut component dimensions raise ValueError (C90_components, C90_components_transform, C90_field_centre). The casacore position angle and the astropy backend are parameters; astropy is assumed to work element by element (per_element, instance C90_alone)."
  },
  {
   "property": "C91",
   "status": "proved",
   "theorems": [
    "C91_convert",
    "C91_rejects",
    "C91_cut_refuted",
    "C91_cut_raises"
   ],
   "note": "C91_convert for every chunking of the leading dimensions; regular schemas (names only at the bottom). C91_cut_refuted: [I,Q,U,V] in chunks (2,2) gives XX = I+Q+U+V without an error, C91_cut_raises: XY raises IndexError."
  },
  {
   "property": "C92",
   "status": "proved",
   "theorems": [
    "C92_measurement",
    "C92_same_as_cpu",
    "C92_flat_four",
    "C92_flat_four_refuted",
    "C92_base_only_refuted",
    "C92_other_corrs",
    "C92_one_by_one",
    "C92_sum",
    "C92_types",
    "C92_empty",
    "C92_corr_dims"
   ],
   "note": "C92_measurement and C92_same_as_cpu. Findings: flat (4,) correlations differ from the CPU (C92_flat_four says what is computed, C92_flat_four_refuted); base visibilities alone do not compile (C92_base_only_refuted), nor do correlations other than 1, 2, 4 with antenna terms (C92_other_corrs). The kernel uses the time and antenna dimensions of the direction dependent terms for the direction independent ones as well: indices_ok requires that they agree. Not modelled: the mask of __ballot_sync, whose argument WARP_SIZE-1 names lanes 0 to 4 only; broadcasting of arrays whose sizes disagree. Kernels run over exact complex numbers. C92_one_by_one and C92_sum treat 1 x 1 matrices and plain sums."
  },
  {
   "property": "C93",
   "status": "proved",
   "theorems": [
    "C93_phase",
    "C93_phase_cpu",
    "C93_strided_refuted",
    "C93_feed",
    "C93_feed_cpu",
    "C93_feed_raises",
    "C93_ends"
   ],
   "note": "Small step semantics of blocks, threads, barriers and shared memory in CudaModel.v; C93_phase, C93_phase_cpu, C93_feed, C93_feed_cpu. C93_strided_refuted: the kernel casts &lm[0] and &uvw[0] to packed vectors, so a transposed lm is misread silently. Threads outside the grid leave before the barrier; the barrier waits for the remaining threads only, as devices do. Only the fourier convention exists on the device. A scalar angle is accepted on the device and refused on the CPU (C90_feed_scalar). Exact reals; writes are atomic."
  },
  {
   "property": "C94",
   "status": "proved",
   "theorems": [
    "C94_beam",
    "C94_many_channels_refuted",
    "C94_short_row_refuted",
    "C94_lockstep_refuted",
    "C94_raises"
   ],
   "note": "C94_beam is conditional; C94_many_channels_refuted (beam_freqs is loaded where chan < 128 and not threadIdx.x < 128, so only block 0 fills it), C94_short_row_refuted and C94_lockstep_refuted show each condition is needed. The first holds for every input, the other two are witnessed by a small beam. Exact reals; writes are atomic; reads outside an array give some value; contiguous arrays; the length of the frequency map is that of the cube; the kernels have not been generated before."
  },
  {
   "property": "C95",
   "status": "proved",
   "theorems": [
    "C95_same_as_cpu",
    "C95_elements",
    "C95_verdict",
    "C95_accepts_refuted",
    "C95_unknown_output",
    "C95_missing_inputs",
    "C95_no_outputs"
   ],
   "note": "C95_accepts_refuted: the CPU converts [I, Q, V] into [XX, YY, RR] but no data type makes the CUDA version do so; C95_verdict says which CPU conversions it refuses and how (complex Stokes arrays to correlations do not compile, for example). Exact arithmetic; the mask of the shuffles, integer wrap around of integer inputs and the cache of kernels are not modelled."
  },
  {
   "property": "C96",
   "status": "proved",
   "theorems": [
    "C96_memoized",
    "C96_phase",
    "C96_feeds",
    "C96_predict",
    "C96_beam_frequencies",
    "C96_beam",
    "C96_beam_refuted",
    "C96_convert",
    "C96_convert_other_shapes",
    "C96_convert_refuted"
   ],
   "note": "C96_beam_refuted and C96_convert_refuted: the checks of the shape are made when a kernel is generated but the shape is not part of the key, so a cube with one frequency is accepted after one with several, and four numbers in a row are accepted as a 2 x 2 coherency after a proper one. C96_convert_other_shapes says exactly what then happens. Interleavings of threads are those of C24: the lock makes the calls a list."
  },
  {
   "property": "C97",
   "status": "proved",
   "theorems": [
    "C97_returned",
    "C97_returned_cub",
    "C97_returned_trove",
    "C97_present_cub",
    "C97_present_trove",
    "C97_kept",
    "C97_verified",
    "C97_bad_downloads",
    "C97_lock",
    "C97_complete_cub",
    "C97_complete_trove",
    "C97_recovery",
    "C97_interrupted_cub_refuted",
    "C97_interrupted_trove_refuted",
    "C97_two_processes_removed_refuted",
    "C97_two_processes_unverified_refuted",
    "C97_mkdtemp_refuted"
   ],
   "note": "The claims that fail are proved to fail: C97_interrupted_cub_refuted and C97_interrupted_trove_refuted (kill during a copy across file systems: any file but README.md and, for cub, cub/cub.cuh may be missing for ever), C97_two_processes_removed_refuted, C97_two_processes_unverified_refuted (the hash is compared and the archive opened in separate steps), C97_mkdtemp_refuted (UnboundLocalError instead of the installation error). Not in a theorem: cub's message about a wrong hash swaps the two hashes."
  },
  {
   "property": "C98",
   "status": "proved",
   "theorems": [
    "C98_product_matrix",
    "C98_product_vector",
    "C98_product_matrix_refused",
    "C98_product_vector_refused",
    "C98_product_terms_refused",
    "C98_product_sources_refused",
    "C98_model_data",
    "C98_model_data_beam",
    "C98_beam_value",
    "C98_source_order",
    "C98_inverted",
    "C98_unknown_source",
    "C98_empty_sky",
    "C98_correlations_refused",
    "C98_beam_refused",
    "C98_axes",
    "C98_axes_refuted",
    "C98_source_types"
   ],
   "note": "The claim about axes fails in general (C98_axes_refuted, orders with M first or third); C98_axes gives the exact rule. Findings: a fourth 2x2 brightness term is refused although the letters i, j, k, l are meant for it; all four Stokes parameters use the same spectral index; an empty sky model ends in AttributeError with four correlations. Exceptions of graph construction appear in the model when an element is read."
  },
  {
   "property": "C99",
   "status": "proved",
   "theorems": [
    "C99_cell_size",
    "C99_refused",
    "C99_documented_refuted",
    "C99_single",
    "C99_zero_float",
    "C99_zero_array",
    "C99_types",
    "C99_empty",
    "C99_zero_wavelength"
   ],
   "note": "The documented condition fails (C99_documented_refuted): the code refuses small images, the documentation large ones. For a single coordinate the refusal says only size < 2 factor. Division by zero is modelled as NumPy's infinities or Python's exception, depending on the types."
  },
  {
   "property": "C100",
   "status": "proved",
   "theorems": [
    "C100_round_trip",
    "C100_cube",
    "C100_accepted",
    "C100_single_channel_refuted",
    "C100_refused",
    "C100_step_refuted",
    "C100_default_band"
   ],
   "note": "Two parts of the claim fail. C100_single_channel_refuted: with one channel (or equal ends) the call succeeds only if all 31 inner random numbers are exactly one half, otherwise AssertionError. C100_step_refuted: CDELT3 is bandwidth / 33 - 1 (the division binds first), which is never the step bandwidth / 32; readers are saved by the GFREQ cards. dtype only decides BITPIX of a header that astropy rewrites for the float64 data. The same array goes to the real and the imaginary file of every correlation."
  },
  {
   "property": "C101",
   "status": "proved",
   "theorems": [
    "C101_visibilities",
    "C101_mirrored",
    "C101_interpolated",
    "C101_script_refuted",
    "C101_script_channels_refuted",
    "C101_refused",
    "C101_one_pixel_refuted",
    "C101_interpolation_refused",
    "C101_columns_refuted"
   ],
   "note": "Proved for the script's steps if the frequencies are handed on as a vector. Refuted of the script as it stands: it hands on the table with its row dimension, so im_to_vis always refuses (C101_script_refuted), and without the dimension only one channel would do (C101_script_channels_refuted). Columns that descend in l, the usual case, are mirrored because l is sorted and the image is not (C101_mirrored, C101_columns_refuted). One single bright pixel is refused (C101_one_pixel_refuted). Interpolation refuses images that are not square, and with SciPy before 1.9 rows that descend in m (C101_interpolation_refused)."
  },
  {
   "property": "C102",
   "status": "proved",
   "theorems": [
    "C102_image_transform",
    "C102_image_transform_2x2",
    "C102_components",
    "C102_points",
    "C102_corruption",
    "C102_corruption_one_direction",
    "C102_residual",
    "C102_unit_gains",
    "C102_unit_gains_refuted",
    "C102_unpolarised"
   ],
   "note": "All agreements are proved over the complex numbers (those of the calibration over any field with conjugation), except the one with compute_and_corrupt_vis, which divides every source by n: it is im_to_vis of the image divided by n (C102_unit_gains), and the amplitudes differ away from the phase centre (C102_unit_gains_refuted). Rounding is not modelled."
  },
  {
   "property": "C103",
   "status": "proved",
   "theorems": [
    "C103_first_chunk",
    "C103_first_task_rebases",
    "C103_finishes",
    "C103_race",
    "C103_any_schedule_refuted",
    "C103_reuse_same_chunks",
    "C103_reuse_other_chunks_refuted"
   ],
   "note": "The property is false in general (C103_any_schedule_refuted): in every chunk that does not start at row 0, two or more tasks can find the minimum before one of them subtracts it, and then go through rows that are too low by a multiple of the first row (C103_race). It holds for the chunk that starts at row 0 under every schedule (C103_first_chunk) and whenever one task has rebased before the others start (C103_first_task_rebases). Computing again with the array left behind is right with the same chunks, any number of times (C103_reuse_same_chunks, for corrupt_vis), and wrong with other chunks (C103_reuse_other_chunks_refuted). Single reads and writes of elements are atomic in the model; that da.from_array hands out views of the user's array, and that tasks share a block, is taken from dask's behaviour and not derived."
  },
  {
   "property": "C104",
   "status": "proved",
   "theorems": [
    "C104_gains",
    "C104_chunks_irrelevant",
    "C104_constant_gains",
    "C104_four_columns_refused",
    "C104_correlations_refused",
    "C104_dimensions_refused",
    "C104_times_refused",
    "C104_short_gains_refuted",
    "C104_unsorted_refuted"
   ],
   "note": "Proved for rows sorted by time, one to three columns and gains with as many times as the data (C104_gains, C104_chunks_irrelevant). The general claim is false in three ways: more than three columns are always refused because the directions are rechunked to three (C104_four_columns_refused); rows that are not sorted by time get the gains of other times (C104_unsorted_refuted); gains with too few times that fill as many chunks are accepted and the result depends on memory outside the array (C104_short_gains_refuted). Gains for one time work with one time per chunk because blockwise repeats a single block (C104_constant_gains). That blockwise repeats single blocks and refuses other numbers of blocks is part of the model. Rounding and the cast to complex64 are not modelled."
  },
  {
   "property": "C105",
   "status": "proved",
   "theorems": [
    "C105_simulated",
    "C105_chunks_irrelevant",
    "C105_refused",
    "C105_residual_at_true_gains",
    "C105_centre_explained",
    "C105_single_source_unexplained",
    "C105_true_gains_explain_refuted",
    "C105_calibration_needs_four",
    "C105_gains_from_file",
    "C105_gains_from_file_refused",
    "C105_calibration_shapes"
   ],
   "note": "The simulation is proved (C105_simulated, C105_chunks_irrelevant, C105_refused), as is the script with gains from a file (C105_gains_from_file, C105_gains_from_file_refused). That the calibration's model explains the data is false: compute_and_corrupt_vis divides by n and im_to_vis does not, so at the true gains the residual is the sum of flux (1/n - 1) with the phases of the data (C105_residual_at_true_gains). It vanishes with all sources in the phase centre (C105_centre_explained) and has the modulus |flux (1/n - 1)| for one source elsewhere (C105_single_source_unexplained, C105_true_gains_explain_refuted). With one or two correlations calibrate raises an IndexError on data that simulate just wrote (C105_calibration_needs_four). Rounding, the dtype declared to dask, and the absence of np.complex in recent NumPy are not modelled."
  },
  {
   "property": "C106",
   "status": "proved",
   "theorems": [
    "C106_beam",
    "C106_beam_raises",
    "C106_narrow_beam_raises",
    "C106_beam_shape",
    "C106_half_maximum_refuted",
    "C106_degrees_refuted",
    "C106_convolution",
    "C106_centre",
    "C106_shape",
    "C106_restored",
    "C106_restored_elsewhere",
    "C106_odd_image_refuted"
   ],
   "note": "Proved: the FFT route is a circular convolution of the padded arrays (C106_convolution, from orthogonality of the roots of unity); which pixel counts as the kernel's centre (C106_centre); the sum of clean beams at the model pixels when the reference pixel is that centre and the beam fits into image and padding (C106_restored), and the same image displaced by the difference otherwise (C106_restored_elsewhere). False in general: an odd image referenced to its middle pixel and padded to an even length comes out one pixel off in both directions (C106_odd_image_refuted). The widths are not full widths at half maximum: the exponent has 2 sqrt(2 ln 2) where 4 ln 2 belongs, so the beam is above one half at half the width (C106_half_maximum_refuted). The position angle plus 90 goes into cos and sin as radians, so 180 is not half a turn (C106_degrees_refuted). Without padding on an axis slice(a, -0) is empty, and numpy's irfftn loses a column of an odd axis (C106_shape). A beam narrower than a fifth of a pixel raises an IndexError (C106_narrow_beam_raises, C106_beam_raises). Rounding, negative padding fractions and widths that are not positive are not modelled."
  },
  {
   "property": "C107",
   "status": "proved",
   "theorems": [
    "C107_maps",
    "C107_threads_irrelevant",
    "C107_power_law",
    "C107_outcome",
    "C107_any_shape_refuted",
    "C107_refused",
    "C107_few_bands",
    "C107_files",
    "C107_missing_card",
    "C107_prefix",
    "C107_asked",
    "C107_beam_file"
   ],
   "note": "Proved: what the maps hold (C107_maps), independence of the number of threads (C107_threads_irrelevant), exactness on a sky of power laws of the starting index -0.7 (C107_power_law), the outcome of every run with complete headers (C107_outcome), refusals (C107_refused, C107_few_bands), the files (C107_files, C107_prefix). False: not every shape is handled; the maps are made with NAXIS1 and NAXIS2 exchanged, so a bright pixel in a row beyond NAXIS1 or a column beyond NAXIS2 raises an IndexError (C107_any_shape_refuted), and the shape written for any image that is not square is the exchanged one (C107_files). Fewer bright pixels than threads raise ZeroDivisionError (C107_outcome). The help text describes runs without a residual; none succeeds (C107_refused), so the dynamic range and channel weight options have no effect. A card missing from the residual header (such as EQUINOX) ends the script after the cubes were written and before the maps (C107_missing_card). One or two bands are never fitted (C107_few_bands). The interpolation of the beam is an argument here.  Rounding, missing cards of the model image, a residual of another shape and the letters of the header cards written are not modelled."
  },
  {
   "property": "C108",
   "status": "proved",
   "theorems": [
    "C108_files",
    "C108_directory_refuted",
    "C108_value",
    "C108_bounds",
    "C108_centre_refuted",
    "C108_axes_exchanged_refuted",
    "C108_refused"
   ],
   "note": "Proved: which images are used, in any order (C108_files); the exact value returned (C108_value) and its bounds, so a flat beam is divided out exactly (C108_bounds); the refusals (C108_refused). False as stated: the last coordinate of each axis is taken one pixel too far, so positions are shrunk and even the centre is missed: a peak of one in the central pixel is read as less than one half (C108_centre_refuted). Rows and columns are exchanged: a beam that changes with l alone gives the same value to all the sources of a row (C108_axes_exchanged_refuted). The tags are looked for in the whole path, so a directory with re in its name makes every beam unreadable (C108_directory_refuted). A negative step, as on the right ascension axis of sky images, is always refused (C108_refused). Beams whose frequencies decrease, images of different shapes and rounding are not modelled."
  },
  {
   "property": "C109",
   "status": "proved",
   "theorems": [
    "C109_phases",
    "C109_unit_modulus",
    "C109_refused",
    "C109_sky_distance_refuted"
   ],
   "note": "Proved for every routine that factorises positive definite matrices; one is constructed in GpGainsProofs.v (exact_cholesky).  The phases are the same linear combinations of the random numbers of each antenna and correlation, with the stated covariance (C109_phases) up to the jitter that kron_cholesky may add.  False as stated in two points: with as many times as channels as sources the script raises a TypeError, because the three matrices become one array (C109_refused); distances are taken in the tangent plane at right ascension and declination zero instead of the phase centre, so that even opposite points of the sky can have the same gains (C109_sky_distance_refuted).  A single time or channel divides by zero (NaNs)."
  },
  {
   "property": "C110",
   "status": "proved",
   "theorems": [
    "C110_cuda_path",
    "C110_cleaned_up",
    "C110_descriptors_refuted",
    "C110_compile",
    "C110_compile_error_refuted",
    "C110_python3_refuted",
    "C110_nvcc_variable_refuted",
    "C110_architecture_refuted",
    "C110_options_refuted",
    "C110_devices",
    "C110_version",
    "C110_lines",
    "C110_last_lines_refuted",
    "C110_files"
   ],
   "note": "Temporary directories, stderr, compiler object and CUDA directory are as stated after every history of calls (C110_cleaned_up, C110_cuda_path), and in a process that knows its devices the command is as stated (C110_compile).  False as stated: in Python 3 ast.literal_eval refuses the bytes printed by the stub, so that no CUDA source is ever compiled (C110_python3_refuted); with NVCC set, distutils.split_quoted does not exist (C110_nvcc_variable_refuted); the architecture is ignored (C110_architecture_refuted); errors of the compiler become a TypeError (C110_compile_error_refuted); every compilation costs a descriptor and leaves a directory with the object in the current directory (C110_descriptors_refuted); the caller's list gets -cubin each time (C110_options_refuted); the last lines of the messages are not searched (C110_last_lines_refuted).  Without a PATH, nvcc is looked for in the current directory."
  },
  {
   "property": "C111",
   "status": "proved",
   "theorems": [
    "C111_infer",
    "C111_infer_order",
    "C111_infer_other",
    "C111_promotion",
    "C111_declared",
    "C111_spectra_refuted",
    "C111_base_vis_refuted",
    "C111_compute_and_corrupt_refuted",
    "C111_times_refuted",
    "C111_jhj_refuted",
    "C111_predict",
    "C111_plain_and_chunked",
    "C111_dirty_refused",
    "C111_cuda_type",
    "C111_cuda_type_injective",
    "C111_cuda_type_refused",
    "C111_cuda_function",
    "C111_cuda_function_refused",
    "C111_cuda_phase",
    "C111_cuda_phase_refused",
    "C111_cuda_feeds",
    "C111_cuda_feeds_refused",
    "C111_cuda_predict",
    "C111_cuda_predict_refuted",
    "C111_cuda_predict_indices",
    "C111_cuda_coords",
    "C111_cuda_coords_refused"
   ],
   "note": "NumPy's promotion of types is part of the model (promote, result_type).  C111_declared says exactly for which types the declared type is right; it is wrong in these cases: C111_spectra_refuted (fluxes less precise than frequencies), C111_base_vis_refuted, C111_compute_and_corrupt_refuted, C111_times_refuted (single precision times), C111_jhj_refuted (always).  Without a type the discrete Fourier transforms differ between dask and NumPy (C111_plain_and_chunked).  On the graphics card predict_vis returns complex128 for complex64 terms unless all six are given, because NumPy reads None as float64 (C111_cuda_predict_refuted).  Left out: coherency conversion, averaging, the nifty and Perley gridders."
  },
  {
   "property": "C112",
   "status": "proved",
   "theorems": [
    "C112_area",
    "C112_circumference",
    "C112_first_corner",
    "C112_reversed",
    "C112_moved",
    "C112_axes_swapped",
    "C112_box",
    "C112_box_pixels",
    "C112_split",
    "C112_mask",
    "C112_mask_unchecked",
    "C112_mask_set",
    "C112_mask_box",
    "C112_normals",
    "C112_midpoints",
    "C112_centre",
    "C112_centre_box",
    "C112_pixels_refuted",
    "C112_mask_unchecked_refuted",
    "C112_centre_inside_refuted",
    "C112_centre_of_hull_refuted",
    "C112_centre_moves_refuted"
   ],
   "note": "What does not hold: the area of a hull is not the number of its pixels unless it is a box (C112_pixels_refuted); with check_limits=False the mask is that of the bounding rectangle (C112_mask_unchecked_refuted); the centre may lie outside the hull (C112_centre_inside_refuted), depends on points inside that are no corners (C112_centre_of_hull_refuted) and does not move with the hull, because of the truncation towards zero (C112_centre_moves_refuted)."
  },
  {
   "property": "C113",
   "status": "proved",
   "theorems": [
    "C113_predict",
    "C113_chunked",
    "C113_double",
    "C113_single",
    "C113_gamma",
    "C113_order_refuted",
    "C113_chunks_refuted"
   ],
   "note": "That the result does not depend on the order of the sources (C113_order_refuted) or on their chunking (C113_chunks_refuted) is false in double precision: the sources 1, 3*2^-55, 3*2^-55 sum to 1 in that order and to more than 1 in another or in chunks of one and two.  The inputs are the numbers as stored.  Overflow, underflow and contraction to fused operations are not modelled."
  },
  {
   "property": "C114",
   "status": "proved",
   "theorems": [
    "C114_row_times",
    "C114_width",
    "C114_width_refuted",
    "C114_visibilities",
    "C114_single_sample",
    "C114_single_weighted_refuted",
    "C114_frequencies",
    "C114_row_columns"
   ],
   "note": "In double precision two claims of exact arithmetic are false: that a bin is at most time_bin_secs long (C114_width_refuted: times -1/2 and 3*2^-55 with interval 2 fall in one bin of 5/2 seconds although they span more), and that a cell made of a single weighted sample is that sample (C114_single_weighted_refuted: a weight of 5 changes 1.75 + 7*2^-52, which is multiplied and then divided by it).  Overflow, underflow and the rounding of averaged sigmas are not stated."
  },
  {
   "property": "C115",
   "status": "proved",
   "theorems": [
    "C115_exact",
    "C115_phase_delay",
    "C115_constants",
    "C115_double",
    "C115_radicand",
    "C115_horizon_refuted",
    "C115_im_to_vis",
    "C115_vis_to_im"
   ],
   "note": "That every direction with l*l + m*m < 1 has a phase delay is false in double precision: C115_horizon_refuted gives l = 1 - (2^26+1) 2^-53, m = (2^30+5) 2^-43, for which the computed 1 - l*l - m*m is negative, and its square root NaN; C115_radicand says how far from the horizon this cannot happen.  Mixed precisions within one call, overflow and underflow are not modelled."
  },
  {
   "property": "C116",
   "status": "proved",
   "theorems": [
    "C116_improves",
    "C116_cycle",
    "C116_converges",
    "C116_sampled",
    "C116_gain_refuted",
    "C116_default_iterations_refuted"
   ],
   "note": "For gains above 2, which hogbom_clean does not refuse, convergence is false: C116_gain_refuted has gain 3 on a single pixel, whose residual doubles with every cycle.  The default of 3 n iterations need not be enough either: C116_default_iterations_refuted.  The threshold concerns the largest signed residual; C46 says what this leaves of negative ones.  Arithmetic is that of the reals."
  },
  {
   "property": "C117",
   "status": "proved",
   "theorems": [
    "C117_two_steps",
    "C117_channels",
    "C117_widths",
    "C117_frequencies",
    "C117_frequencies_refuted",
    "C117_unweighted_refuted"
   ],
   "note": "Without weight spectra it is false: C117_unweighted_refuted averages rows 0, 1, 2 by two and then together.  Frequencies are plain means, so a shorter last bin of the first step counts as much as a whole one in the second: C117_frequencies_refuted.  How time bins of two steps compose depends on where row_mapper starts a bin and is not claimed; the theorem takes any two row maps.  Arithmetic is that of the reals."
  },
  {
   "property": "C118",
   "status": "proved",
   "theorems": [
    "C118_dirty_is_convolution",
    "C118_psf",
    "C118_clean",
    "C118_w_refuted"
   ],
   "note": "With a w component the image is no convolution: C118_w_refuted has one baseline and two directions.  Dividing by the number of rows is left to the user by the code.  Arithmetic is that of the reals."
  },
  {
   "property": "C119",
   "status": "proved",
   "theorems": [
    "C119_converges",
    "C119_large_data_refuted",
    "C119_directions_refuted"
   ],
   "note": "Two limits of the solver: with data larger than the model an iteration can make the fit worse (C119_large_data_refuted: model 1, data 5 i), and so it can with several directions, even for data without noise (C119_directions_refuted: five directions in which the antennas have the same phase).  J^H J is only its diagonal, and the step is half a Gauss-Newton step, which is enough for one direction and not for several.  Arithmetic is that of the reals."
  },
  {
   "property": "C120",
   "status": "proved",
   "theorems": [
    "C120_corrupt",
    "C120_residual",
    "C120_round_trip",
    "C120_zero_residual_refuted"
   ],
   "note": "The residual of a corrupted model is not always exactly zero in double precision (C120_zero_residual_refuted: directions 1 and 3/2^55).  C40, proved without laws of arithmetic, says that the chunked functions compute the same floating point numbers as the whole ones, so the bounds hold for them too.  correct_vis is not bounded: it divides, and the error depends on the determinant of the gains.  Overflow and underflow are not modelled (C113)."
  },
  {
   "property": "C121",
   "status": "proved",
   "theorems": [
    "C121_components",
    "C121_recovers",
    "C121_single",
    "C121_wide_beam_refuted"
   ],
   "note": "The condition on the sidelobes is that of the coherence bound for matching pursuits.  It cannot be dropped: two sources within a beam are replaced by a component between them (C121_wide_beam_refuted), although the point spread function is below one outside its centre.  The gain must shrink with the number of sources because the peak of a source contains the sidelobes of the others.  Exact real arithmetic."
  },
  {
   "property": "C122",
   "status": "proved",
   "theorems": [
    "C122_unrounded",
    "C122_total",
    "C122_flux",
    "C122_residual",
    "C122_double",
    "C122_exact_refuted"
   ],
   "note": "The bound only needs the outputs: it does not refer to the exact run, which may pick other pixels.  Equality is false in double precision: a component can be too small to change the residual (C122_exact_refuted).  Overflow and underflow are not modelled."
  },
  {
   "property": "C123",
   "status": "proved",
   "theorems": [
    "C123_sources",
    "C123_full_coverage",
    "C123_full_clean",
    "C123_few_baselines_refuted"
   ],
   "note": "Composition of C47, C118 and C121.  With one baseline of length zero a component is put where there is no source (C123_few_baselines_refuted).  Exact real arithmetic; baselines with a w component are excluded because the image is then no convolution (C118_w_refuted)."
  },
  {
   "property": "C124",
   "status": "proved",
   "theorems": [
    "C124_to_linear",
    "C124_to_circular",
    "C124_from_linear",
    "C124_from_circular",
    "C124_linear_roundtrip",
    "C124_circular_roundtrip",
    "C124_double",
    "C124_weak_refuted"
   ],
   "note": "The error of Q is relative to the larger of I and Q: polarisation below 1e-16 of the total intensity is lost in linear correlations (C124_weak_refuted: I = 1, Q = 2^-60 comes back as Q = 0).  Rounding with unbounded exponents: no overflow, no underflow."
  },
  {
   "property": "C125",
   "status": "proved",
   "theorems": [
    "C125_image",
    "C125_visibilities",
    "C125_sources",
    "C125_low_threshold_refuted"
   ],
   "note": "Contains C121 and C123 as the case eps = 0 (for sidelobes below one).  With a threshold below the noise, noise becomes components (C125_low_threshold_refuted): the default threshold of a fifth of the peak protects only if the peak is high enough above the noise.  The bound is on each error, not on its variance."
  },
  {
   "property": "C126",
   "status": "proved",
   "theorems": [
    "C126_fields",
    "C126_only_templates",
    "C126_malformed",
    "C126_replace",
    "C126_joined",
    "C126_one_after_another",
    "C126_straddle_refuted",
    "C126_digest"
   ],
   "note": "A search string that straddles two fields of a documentation tuple is not replaced (C126_straddle_refuted); a tuple that is neither named nor a dictionary is a TypeError.  ${name} of string.Template is refused.  ASCII text; str.replace, the regular expression engine and Template.substitute are modelled from their documentation."
  },
  {
   "property": "C127",
   "status": "proved",
   "theorems": [
    "C127_exact",
    "C127_stack",
    "C127_gridder",
    "C127_double",
    "C127_order_refuted"
   ],
   "note": "The bound is relative to the sizes of the terms: an error small relative to the cell itself, or independence of the order of the rows, cannot be had (C127_order_refuted).  Coordinates and Stokes values are those the machine has computed; a coordinate is placed on the grid exactly; no overflow, underflow or NaN."
  },
  {
   "property": "C128",
   "status": "proved",
   "theorems": [
    "C128_exact",
    "C128_gather",
    "C128_packed",
    "C128_double"
   ],
   "note": "Kernels are not negative (with taps of both signs the weight may cancel).  The coordinates are those the machine has computed and are placed on the grid exactly; the phase rotation after degridding is not part of it; no overflow, underflow or NaN."
  }
 ]
}