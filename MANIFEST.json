{
 "claims": [
  {
   "property": "C01",
   "status": "proved",
   "theorems": [
    "C01_round_trip"
   ],
   "note": ""
  },
  {
   "property": "C02",
   "status": "proved",
   "theorems": [
    "C02_write_grouping_irrelevant",
    "C02_write_bits_returns_rest",
    "C02_read_grouping_irrelevant"
   ],
   "note": ""
  },
  {
   "property": "C03",
   "status": "proved",
   "theorems": [
    "C03_write_positions",
    "C03_read_positions"
   ],
   "note": ""
  },
  {
   "property": "C04",
   "status": "proved",
   "theorems": [
    "C04_memory_after_write_session",
    "C04_unchecked_overflow_refuted"
   ],
   "note": "the capacity bound is a hypothesis the caller must meet; the refuted theorem shows it is needed"
  },
  {
   "property": "C05",
   "status": "proved",
   "theorems": [
    "C05_copy"
   ],
   "note": ""
  },
  {
   "property": "C09",
   "status": "proved",
   "theorems": [
    "C09_lossless",
    "C09_lossless_long"
   ],
   "note": "Any width P, any word size, any start position, 1..64 coefficients (any number for the long coder)."
  },
  {
   "property": "C10",
   "status": "proved",
   "theorems": [
    "C10_same_count",
    "C10_decode_any_input"
   ],
   "note": "Also for decoding arbitrary memory contents."
  },
  {
   "property": "C11",
   "status": "proved",
   "theorems": [
    "C11_prefix",
    "C11_truncated_decode"
   ],
   "note": ""
  },
  {
   "property": "C12",
   "status": "proved",
   "theorems": [
    "C12_encoders_agree",
    "C12_decoders_agree"
   ],
   "note": ""
  },
  {
   "property": "C06",
   "status": "proved",
   "theorems": [
    "C06_bijection",
    "C06_negabinary",
    "C06_truncation"
   ],
   "note": "Exact numeral for values with two guard bits, modulo 2^P for all words."
  },
  {
   "property": "C07",
   "status": "proved",
   "theorems": [
    "C07_permutation",
    "C07_degree_order",
    "C07_order_round_trip"
   ],
   "note": ""
  },
  {
   "property": "C08",
   "status": "proved",
   "theorems": [
    "C08_separable",
    "C08_matrices",
    "C08_forward_no_overflow",
    "C08_near_inverse",
    "C08_stability",
    "C08_two_guard_bits_refuted"
   ],
   "note": "The refuted theorem shows that two guard bits alone are not enough for the inverse transform in two dimensions."
  },
  {
   "property": "C13",
   "status": "proved",
   "theorems": [
    "C13_blocks",
    "C13_fixed_rate",
    "C13_decode_any_input"
   ],
   "note": "Any number of blocks in one stream, any start position."
  },
  {
   "property": "C14",
   "status": "proved",
   "theorems": [
    "C14_near_lossless",
    "C14_precision",
    "C14_two_guard_bits_refuted"
   ],
   "note": "Also with reduced precision; the refuted theorem shows the overflow in the decoder at the guard-bit limit."
  },
  {
   "property": "C16",
   "status": "proved",
   "theorems": [
    "C16_gather",
    "C16_scatter",
    "C16_round_trip"
   ],
   "note": "All four dimensionalities, full and partial blocks, any integer strides."
  },
  {
   "property": "C17",
   "status": "proved",
   "theorems": [
    "C17_compress",
    "C17_exactly_once",
    "C17_decompress",
    "C17_int_array",
    "C17_int_array_near_lossless",
    "C17_default_strides_refuted"
   ],
   "note": "Requires the strides to be representable as C int; C17_default_strides_refuted shows that the defaults of arrays with 2^31 or more elements are not."
  },
  {
   "property": "C22",
   "status": "proved",
   "theorems": [
    "C22_parallel_is_serial",
    "C22_chunk_count",
    "C22_second_array_refuted"
   ],
   "note": "Integer codec, both with and without private buffers.  C22_second_array_refuted: at a word-multiple fixed rate on a stream that already holds whole words the parallel path frees a pointer into the caller's buffer.  One block encoding is one atomic step of the model."
  },
  {
   "property": "C47",
   "status": "proved",
   "theorems": [
    "C47_block",
    "C47_array",
    "C47_near_power_of_two_refuted"
   ],
   "note": "Finite inputs; conditions on the blocks are spelled out in accurate_block (FloatSpec.v)."
  },
  {
   "property": "C48",
   "status": "proved",
   "theorems": [
    "C48_block_code",
    "C48_block",
    "C48_array"
   ],
   "note": "Requires maxbits to hold at least the exponent, which zfp_stream_set_rate guarantees."
  },
  {
   "property": "C49",
   "status": "proved",
   "theorems": [
    "C49_zero_block",
    "C49_tiny_block_undefined",
    "C49_every_finite_block_refuted"
   ],
   "note": ""
  },
  {
   "property": "C15",
   "status": "proved",
   "theorems": [
    "C15_value",
    "C15_fits",
    "C15_wrap_refuted"
   ],
   "note": "Sizes at most 2^32-4 and fewer than 2^64-211 bits in all; C15_wrap_refuted shows the wrap-around beyond that.  Integer data within the guard range, floating-point blocks codable, maxbits at least exponent width + 1 for them."
  },
  {
   "property": "C18",
   "status": "proved",
   "theorems": [
    "C18_round_trip",
    "C18_reject",
    "C18_accept",
    "C18_large_sizes_refuted"
   ],
   "note": "Parameters valid and encodable in the sense of C19; sizes within the metadata field widths."
  },
  {
   "property": "C19",
   "status": "proved",
   "theorems": [
    "C19_round_trip",
    "C19_set_mode",
    "C19_code_size",
    "C19_all_valid_refuted"
   ],
   "note": "The round trip holds exactly for the parameters described by encodable; C19_all_valid_refuted: not for all valid ones."
  },
  {
   "property": "C20",
   "status": "proved",
   "theorems": [
    "C20_set_precision",
    "C20_set_accuracy",
    "C20_zero_tolerance",
    "C20_set_rate",
    "C20_mode_reported_refuted"
   ],
   "note": ""
  },
  {
   "property": "C21",
   "status": "proved",
   "theorems": [
    "C21_round_trip",
    "C21_demote",
    "C21_low_bits_free"
   ],
   "note": ""
  },
  {
   "property": "C25",
   "status": "proved",
   "theorems": [
    "C25_every_command_line",
    "C25_lookup",
    "C25_count",
    "C25_command_line_wins",
    "C25_no_arguments",
    "C25_history"
   ],
   "note": ""
  },
  {
   "property": "C26",
   "status": "proved",
   "theorems": [
    "C26_every_value",
    "C26_values",
    "C26_room",
    "C26_conversions_stop",
    "C26_pieces"
   ],
   "note": "Types a, h, u, i, p, l, v; the floating-point types f and d use strtod, which is not modelled (C26_values covers them for any conversion that stops at commas)."
  },
  {
   "property": "C27",
   "status": "proved",
   "theorems": [
    "C27_complete",
    "C27_no_newline_refuted",
    "C27_leading_quote_refuted",
    "C27_missing_file"
   ],
   "note": ""
  },
  {
   "property": "C28",
   "status": "proved",
   "theorems": [
    "C28_signed",
    "C28_unsigned",
    "C28_unsigned_minus",
    "C28_negative_unsigned_refuted",
    "C28_no_number",
    "C28_no_number_refuted",
    "C28_stale_errno_refuted"
   ],
   "note": "strtol and strtoul are modelled from the C standard (base 10, 64-bit long).  strtod (eatof, eatod) is not modelled."
  },
  {
   "property": "C37",
   "status": "proved",
   "theorems": [
    "C37_kernels_stay_in_grid",
    "C37_elastic4_refuted",
    "C37_acoustic2_refuted",
    "C37_acoustic2_taper_refuted",
    "C37_rigid_left_refuted"
   ],
   "note": "PML, moving surface and elastic free surface are not modelled."
  },
  {
   "property": "C38",
   "status": "proved",
   "theorems": [
    "C38_threads_do_not_matter",
    "C38_team_finishes",
    "C38_acoustic2_refuted",
    "C38_free_surface_refuted",
    "C38_elastic4dc_refuted"
   ],
   "note": "Any operations on values: no law of arithmetic is used."
  },
  {
   "property": "C39",
   "status": "proved",
   "theorems": [
    "C39_superposition",
    "C39_scaling"
   ],
   "note": "Exact arithmetic (the laws in linear)."
  },
  {
   "property": "C40",
   "status": "proved",
   "theorems": [
    "C40_domain_of_dependence"
   ],
   "note": "No rigid sides."
  },
  {
   "property": "C50",
   "status": "proved",
   "theorems": [
    "C50_acoustic_step",
    "C50_sh_step",
    "C50_elastic_step"
   ],
   "note": "All four sides tapered, pressure source type."
  },
  {
   "property": "C51",
   "status": "proved",
   "theorems": [
    "C51_taylor4_exact",
    "C51_taylor6_exact",
    "C51_optimal"
   ],
   "note": "Rational arithmetic."
  },
  {
   "property": "C52",
   "status": "proved",
   "theorems": [
    "C52_free_surface"
   ],
   "note": "Acoustic and SH schemes, top free, other sides tapered."
  },
  {
   "property": "C35",
   "status": "proved",
   "theorems": [
    "C35_in_bounds_iff",
    "C35_default_iff",
    "C35_default_refuted"
   ],
   "note": ""
  },
  {
   "property": "C36",
   "status": "proved",
   "theorems": [
    "C36_samples",
    "C36_every_step",
    "C36_time_refuted",
    "C36_split_refuted",
    "C36_negative_times"
   ],
   "note": "One file; the split over files is refuted by a witness."
  },
  {
   "property": "C41",
   "status": "proved",
   "theorems": [
    "C41_snapshot",
    "C41_times",
    "C41_inside",
    "C41_position_refuted",
    "C41_with_boundaries",
    "C41_with_boundaries_refuted",
    "C41_beams"
   ],
   "note": ""
  },
  {
   "property": "C42",
   "status": "proved",
   "theorems": [
    "C42_shots_partition"
   ],
   "note": "Up to 2^21 shots; single precision rounding as any monotone function with relative error 2^-23."
  },
  {
   "property": "C43",
   "status": "proved",
   "theorems": [
    "C43_keeps_extension",
    "C43_adds_extension",
    "C43_distinct",
    "C43_path_refuted",
    "C43_long_suffix"
   ],
   "note": ""
  },
  {
   "property": "C53",
   "status": "proved",
   "theorems": [
    "C53_shots_independent"
   ],
   "note": "Trace files; beams are not modelled here."
  },
  {
   "property": "C54",
   "status": "proved",
   "theorems": [
    "C54_positions",
    "C54_elastic_vx_refuted",
    "C54_colocation_refuted",
    "C54_derivatives",
    "C54_bilinear"
   ],
   "note": "Exact arithmetic."
  },
  {
   "property": "C55",
   "status": "proved",
   "theorems": [
    "C55_receivers_inside",
    "C55_untapered_refuted"
   ],
   "note": ""
  },
  {
   "property": "C44",
   "status": "proved",
   "theorems": [
    "C44_windows",
    "C44_plane_windows",
    "C44_tshift_windows",
    "C44_complement",
    "C44_cosine_complement",
    "C44_cosine_range",
    "C44_symmetric",
    "C44_plane_reversed",
    "C44_minus2_refuted",
    "C44_late_refuted",
    "C44_plane_psi_refuted"
   ],
   "note": "Windows inside the trace.  The cosine taper is over the real numbers (standard library axioms of Reals)."
  },
  {
   "property": "C45",
   "status": "proved",
   "theorems": [
    "C45_positions",
    "C45_nearest",
    "C45_in_grid",
    "C45_off_grid_refuted"
   ],
   "note": "Rational coordinates."
  },
  {
   "property": "C46",
   "status": "proved",
   "theorems": [
    "C46_schedules",
    "C46_result",
    "C46_same_position_refuted"
   ],
   "note": "C46_schedules uses no law of arithmetic; C46_result exact arithmetic.  The Fourier transforms are any functions rc, cr (rc linear at zero)."
  },
  {
   "property": "C56",
   "status": "proved",
   "theorems": [
    "C56_iteration",
    "C56_equations",
    "C56_greens",
    "C56_no_iterations_refuted"
   ],
   "note": "Exact arithmetic, any transforms; f1plus and f1min options of marchenko.c, not the plane-wave and multiple variants."
  },
  {
   "property": "C57",
   "status": "proved",
   "theorems": [
    "C57_padding",
    "C57_padding_refuted"
   ],
   "note": ""
  },
  {
   "property": "C58",
   "status": "proved",
   "theorems": [
    "C58_rotation",
    "C58_odd_refuted"
   ],
   "note": ""
  },
  {
   "property": "C29",
   "status": "proved",
   "theorems": [
    "C29_complex",
    "C29_real",
    "C29_usable",
    "C29_small",
    "C29_logarithm",
    "C29_refuted",
    "C29_large_refuted"
   ],
   "note": "The test on the logarithm is modelled exactly on rationals bounding it; C29_logarithm justifies it over the reals."
  },
  {
   "property": "C30",
   "status": "proved",
   "theorems": [
    "C30_smallest",
    "C30_smallest_real",
    "C30_cheapest",
    "C30_cheapest_real",
    "C30_limit_refuted"
   ],
   "note": ""
  },
  {
   "property": "C31",
   "status": "proved",
   "theorems": [
    "C31_transform",
    "C31_inverse",
    "C31_factors",
    "C31_prime_factor",
    "C31_prime_factor_inverse"
   ],
   "note": "Exact real arithmetic; rounding is not modelled."
  },
  {
   "property": "C32",
   "status": "proved",
   "theorems": [
    "C32_history",
    "C32_one_direction",
    "C32_parallel_forward",
    "C32_directions_refuted",
    "C32_parallel_backward_refuted"
   ],
   "note": "A call is two steps, set-up and transform; each is taken as one unit. Exact real arithmetic."
  },
  {
   "property": "C33",
   "status": "proved",
   "theorems": [
    "C33_complex",
    "C33_real",
    "C33_back",
    "C33_round_trip",
    "C33_round_trip_odd",
    "C33_even_refuted"
   ],
   "note": "Exact real arithmetic; static tables included."
  },
  {
   "property": "C34",
   "status": "proved",
   "theorems": [
    "C34_xt2wx",
    "C34_wx2xt",
    "C34_wx_round_trip",
    "C34_xt2wkx",
    "C34_wkx2xt",
    "C34_wkx_round_trip"
   ],
   "note": "The transforms of the single vectors are the discrete Fourier transform (see C31, C33, C59)."
  },
  {
   "property": "C59",
   "status": "proved",
   "theorems": [
    "C59_forward",
    "C59_back",
    "C59_round_trip"
   ],
   "note": "Exact real arithmetic."
  },
  {
   "property": "C23",
   "status": "proved",
   "theorems": [
    "C23_history",
    "C23_read_back",
    "C23_cache_invisible",
    "C23_cache_lines",
    "C23_cache_bytes",
    "C23_block_limit_refuted"
   ],
   "note": "Operations are atomic (the C++ arrays are not thread safe).  Values are finite; resizing to size 0, deep copies and the reference/iterator wrappers are not modelled.  C23_block_limit_refuted: the tag of block 2^31 - 1 overflows."
  },
  {
   "property": "C24",
   "status": "proved",
   "theorems": [
    "C24_isolation",
    "C24_unaligned_refuted"
   ],
   "note": "float and double blocks, 1D to 3D."
  },
  {
   "property": "C60",
   "status": "proved",
   "theorems": [
    "C60_division",
    "C60_read_records",
    "C60_truncated",
    "C60_write",
    "C60_write_read"
   ],
   "note": "Little-endian headers; the file does not change while it is read."
  },
  {
   "property": "C61",
   "status": "proved",
   "theorems": [
    "C61_scan",
    "C61_equal_records",
    "C61_room",
    "C61_single_refuted"
   ],
   "note": "Exact rational arithmetic for the scaled coordinates; floating-point header fields through an arbitrary decoding of four bytes."
  },
  {
   "property": "C62",
   "status": "proved",
   "theorems": [
    "C62_positions",
    "C62_reciprocity",
    "C62_overflow_refuted"
   ],
   "note": "Exact rational arithmetic."
  },
  {
   "property": "C63",
   "status": "proved",
   "theorems": [
    "C63_polynomial_interpolation"
   ],
   "note": "Exact rational arithmetic."
  },
  {
   "property": "C64",
   "status": "proved",
   "theorems": [
    "C64_cubic_spline",
    "C64_stops_refuted"
   ],
   "note": "Exact rational arithmetic."
  },
  {
   "property": "C65",
   "status": "proved",
   "theorems": [
    "C65_interface",
    "C65_linear_in_bounds",
    "C65_lateral",
    "C65_rows",
    "C65_off_grid_refuted",
    "C65_left_of_model_refuted",
    "C65_lateral_adjacent_refuted"
   ],
   "note": "Exact rational arithmetic; the sine of the sinuous interface is an arbitrary function."
  },
  {
   "property": "C66",
   "status": "proved",
   "theorems": [
    "C66_fill_below",
    "C66_fill_above",
    "C66_three_properties",
    "C66_bottom_refuted",
    "C66_one_row_refuted",
    "C66_above_gradient_refuted",
    "C66_shear_without_density_refuted",
    "C66_surface_refuted"
   ],
   "note": "Exact rational arithmetic; the cosine is an arbitrary function. gradunit=1 is not modelled."
  },
  {
   "property": "C67",
   "status": "proved",
   "theorems": [
    "C67_layers"
   ],
   "note": "P velocity, interfaces of type def with one velocity each, above=0."
  },
  {
   "property": "C68",
   "status": "proved",
   "theorems": [
    "C68_supersmooth",
    "C68_shear_refuted",
    "C68_reflectivity"
   ],
   "note": "Exact rational arithmetic; arbitrary positive weights."
  },
  {
   "property": "C69",
   "status": "proved",
   "theorems": [
    "C69_convolution",
    "C69_room",
    "C69_no_wrap_around",
    "C69_damping",
    "C69_wrap_around_refuted"
   ],
   "note": "Exact real arithmetic; transform as in C34.  The transform must be at least as long as the trace, which C69_room shows up to 16384 samples."
  },
  {
   "property": "C70",
   "status": "proved",
   "theorems": [
    "C70_correlation",
    "C70_no_wrap_around",
    "C70_power",
    "C70_cor3",
    "C70_cor3_refuted",
    "C70_negative_lags_refuted"
   ],
   "note": "Exact real arithmetic."
  },
  {
   "property": "C71",
   "status": "proved",
   "theorems": [
    "C71_deconvolution",
    "C71_inverse"
   ],
   "note": "Exact real arithmetic."
  },
  {
   "property": "C72",
   "status": "proved",
   "theorems": [
    "C72_coherence",
    "C72_unit_amplitude",
    "C72_unset_factor_refuted"
   ],
   "note": "Exact real arithmetic."
  },
  {
   "property": "C73",
   "status": "proved",
   "theorems": [
    "C73_first_gather",
    "C73_later_gathers",
    "C73_count",
    "C73_regular",
    "C73_written",
    "C73_ntfft_refuted",
    "C73_repeated_gather_refuted",
    "C73_written_refuted"
   ],
   "note": "Two different input files (auto=0)."
  },
  {
   "property": "C74",
   "status": "proved",
   "theorems": [
    "C74_parameters",
    "C74_zero_density",
    "C74_in_bounds"
   ],
   "note": "Exact real arithmetic; not the reading of the files, the viscous parameters and the topography of top=5.  With perfectly matched layers in the elastic scheme the vertical buoyancy is that of C75."
  },
  {
   "property": "C75",
   "status": "proved",
   "theorems": [
    "C75_rigidity",
    "C75_rigidity_refuted",
    "C75_vertical_pml",
    "C75_default_pml_refuted"
   ],
   "note": "Exact real arithmetic."
  },
  {
   "property": "C76",
   "status": "proved",
   "theorems": [
    "C76_quality_factor",
    "C76_shear_quality_factor",
    "C76_small_shear_refuted",
    "C76_in_bounds",
    "C76_elastic_frequencies_refuted"
   ],
   "note": "Exact real arithmetic."
  },
  {
   "property": "C77",
   "status": "proved",
   "theorems": [
    "C77_pressure",
    "C77_frame",
    "C77_relaxes",
    "C77_fades",
    "C77_frequencies_refuted"
   ],
   "note": "Exact real arithmetic; velocities of every step arbitrary; points whose pressure is not set by a boundary condition."
  },
  {
   "property": "C78",
   "status": "proved",
   "theorems": [
    "C78_stresses",
    "C78_frame",
    "C78_last_column_refuted",
    "C78_last_row_refuted"
   ],
   "note": "Exact real arithmetic; velocities of every step arbitrary; points whose stresses are not set by a boundary condition."
  },
  {
   "property": "C79",
   "status": "proved",
   "theorems": [
    "C79_lines",
    "C79_in_model",
    "C79_default",
    "C79_vertical_refuted",
    "C79_outside_refuted",
    "C79_short_refuted",
    "C79_uninitialised_refuted",
    "C79_faults_refuted"
   ],
   "note": "Exact rational arithmetic; the exceptions in the statement are the refuted theorems."
  },
  {
   "property": "C80",
   "status": "proved",
   "theorems": [
    "C80_points",
    "C80_safe",
    "C80_outside_refuted"
   ],
   "note": "Exact rational arithmetic; cos and sin are arbitrary functions; the ellipse is not modelled."
  },
  {
   "property": "C81",
   "status": "proved",
   "theorems": [
    "C81_velocities",
    "C81_pressure",
    "C81_in_bounds",
    "C81_coefficients_in_bounds",
    "C81_mixed_sides_refuted",
    "C81_surface_refuted",
    "C81_symmetric_refuted"
   ],
   "note": "Exact real arithmetic; the fields at the start of every call are arbitrary; the exceptions in the statement are the refuted theorems."
  },
  {
   "property": "C82",
   "status": "proved",
   "theorems": [
    "C82_energy",
    "C82_static",
    "C82_reflection"
   ],
   "note": "Exact real arithmetic; points not overwritten by the copies into the outermost columns and rows."
  },
  {
   "property": "C83",
   "status": "proved",
   "theorems": [
    "C83_injection",
    "C83_wavelet_in_bounds",
    "C83_random_signal_refuted",
    "C83_plane",
    "C83_window_refuted",
    "C83_forces_refuted",
    "C83_outside_refuted",
    "C83_rotation_at_top_refuted"
   ],
   "note": "Exact real arithmetic; schemes of order 4 and more; the sources are in the rows of the model and the stiffness there is not zero; the exceptions in the statement are the refuted theorems."
  },
  {
   "property": "C84",
   "status": "proved",
   "theorems": [
    "C84_shear_potential",
    "C84_compressional_potential",
    "C84_shear_fourth_order",
    "C84_shear_order_refuted"
   ],
   "note": "Exact real arithmetic; all sources in the rows of the model."
  },
  {
   "property": "C85",
   "status": "proved",
   "theorems": [
    "C85_unchanged",
    "C85_spectrum",
    "C85_interpolated",
    "C85_time_axis_refuted",
    "C85_zero_frequency",
    "C85_small_values",
    "C85_single_wavelet",
    "C85_weak_wavelet_refuted"
   ],
   "note": "Exact real arithmetic, transforms as specified in FftSpec.v; the exceptions in the statement are the refuted theorems."
  },
  {
   "property": "C86",
   "status": "proved",
   "theorems": [
    "C86_cubic",
    "C86_first_crossing",
    "C86_random_signal",
    "C86_last_crossing",
    "C86_signal",
    "C86_room",
    "C86_reads",
    "C86_short_signal_refuted"
   ],
   "note": "Exact real arithmetic; the random numbers are arbitrary; signals of at least 22 samples in C86_signal."
  },
  {
   "property": "C87",
   "status": "proved",
   "theorems": [
    "C87_filters",
    "C87_shift_samples",
    "C87_delay",
    "C87_highest_frequency_lost_refuted",
    "C87_counterparts"
   ],
   "note": "Exact real arithmetic, transforms as specified in FftSpec.v; the exception in the statement is the refuted theorem."
  },
  {
   "property": "C88",
   "status": "proved",
   "theorems": [
    "C88_hilbert",
    "C88_hilbert_scale_refuted",
    "C88_modulus",
    "C88_envelope",
    "C88_envelope_constant_refuted",
    "C88_reversal",
    "C88_reversal_header_refuted",
    "C88_rotation",
    "C88_rotation_accesses",
    "C88_rotation_time_refuted",
    "C88_rotation_seconds",
    "C88_trace_average",
    "C88_average"
   ],
   "note": "Exact real arithmetic; the exceptions in the statement are the refuted theorems, C88_hilbert and C88_rotation_accesses."
  },
  {
   "property": "C89",
   "status": "proved",
   "theorems": [
    "C89_condition",
    "C89_top",
    "C89_right",
    "C89_bottom",
    "C89_left",
    "C89_sides",
    "C89_no_free_side",
    "C89_history_lost_refuted",
    "C89_flat_any_order",
    "C89_step_order_refuted"
   ],
   "note": "Exact real arithmetic; the loop over vertical edges of a surface with topography is not modelled; the exceptions in the statement are the refuted theorems."
  },
  {
   "property": "C90",
   "status": "proved",
   "theorems": [
    "C90_origin",
    "C90_source",
    "C90_receiver",
    "C90_receiver_depth_refuted",
    "C90_surface",
    "C90_last_column_refuted",
    "C90_empty_column_refuted"
   ],
   "note": "The exceptions in the statement are the refuted theorems and the third part of C90_surface."
  },
  {
   "property": "C91",
   "status": "proved",
   "theorems": [
    "C91_square",
    "C91_odd_square_refuted",
    "C91_diamond",
    "C91_circle",
    "C91_ellipse",
    "C91_diffraction",
    "C91_elipse",
    "C91_no_density_refuted",
    "C91_diffractor_safe",
    "C91_diffractor_outside_refuted",
    "C91_depths"
   ],
   "note": "Without random variations of the values; the exceptions in the statement are the refuted theorems."
  },
  {
   "property": "C92",
   "status": "proved",
   "theorems": [
    "C92_pairs",
    "C92_count",
    "C92_repeated_source_refuted",
    "C92_sides",
    "C92_outside",
    "C92_outside_refuted",
    "C92_donut_refuted"
   ],
   "note": "The exceptions in the statement are the refuted theorems."
  },
  {
   "property": "C93",
   "status": "proved",
   "theorems": [
    "C93_correlate",
    "C93_coherence",
    "C93_cutoff_refuted",
    "C93_stack",
    "C93_band",
    "C93_virtual",
    "C93_few_sources"
   ],
   "note": "The exception in the statement is the refuted theorem."
  },
  {
   "property": "C94",
   "status": "proved",
   "theorems": [
    "C94_smooth",
    "C94_bounds"
   ],
   "note": "Reading and writing of the gathers not modelled."
  },
  {
   "property": "C95",
   "status": "proved",
   "theorems": [
    "C95_extend",
    "C95_position",
    "C95_header",
    "C95_header_refuted",
    "C95_truncate",
    "C95_truncate_accepts",
    "C95_truncate_reads",
    "C95_truncate_end_refuted"
   ],
   "note": "The exceptions in the statement are the refuted theorems; other header fields are not modelled."
  },
  {
   "property": "C96",
   "status": "proved",
   "theorems": [
    "C96_edges",
    "C96_sideways",
    "C96_constant",
    "C96_depth_refuted",
    "C96_in_bounds"
   ],
   "note": "C96_edges and C96_constant give all cells of the result, including the exceptions; the headers are not modelled."
  },
  {
   "property": "C97",
   "status": "proved",
   "theorems": [
    "C97_reshape",
    "C97_round_trip",
    "C97_read",
    "C97_shots",
    "C97_shots_frame"
   ],
   "note": "The headers and a file that ends early are not modelled."
  },
  {
   "property": "C98",
   "status": "proved",
   "theorems": [
    "C98_factors",
    "C98_gain",
    "C98_in_bounds",
    "C98_pass",
    "C98_nyquist",
    "C98_angle",
    "C98_basop",
    "C98_frequencies",
    "C98_rows",
    "C98_aliased_refuted"
   ],
   "note": "Arithmetic in the reals; the transforms around the filter are not part of this claim."
  },
  {
   "property": "C99",
   "status": "proved",
   "theorems": [
    "C99_maximum",
    "C99_tolerance",
    "C99_center",
    "C99_center_in_bounds",
    "C99_start",
    "C99_start_in_bounds",
    "C99_start_taper_refuted"
   ],
   "note": "The samples of one point; the index of the points is that of C97.  Arithmetic in the reals."
  }
 ]
}