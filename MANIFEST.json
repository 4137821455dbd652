{
 "claims": [
  {
   "property": "C01",
   "status": "proved",
   "theorems": [
    "C01_findElement",
    "C01_findLessEqualClosest",
    "C01_findClosest",
    "C01_findMin",
    "C01_findMax"
   ],
   "note": "All five searches over reals of any length; findMin/findMax on an empty array is undefined behaviour in the model (array[0] is read), excluded by a <> []."
  },
  {
   "property": "C02",
   "status": "proved",
   "theorems": [
    "C02_insertOrdered",
    "C02_insert_sequence",
    "C02_real_compare_is_total"
   ],
   "note": "Single call and arbitrary call sequences, any element type and total comparison; capacity 0 is UB in the model and excluded."
  },
  {
   "property": "C03",
   "status": "proved",
   "theorems": [
    "C03_argsort_success",
    "C03_argsort_failure"
   ],
   "note": "qsort is a universally quantified oracle meeting the library contract."
  },
  {
   "property": "C04",
   "status": "proved",
   "theorems": [
    "C04_locate_range",
    "C04_locate_reproduces",
    "C04_locate_node"
   ],
   "note": "Exact reproduction inside the range; 1e-8 when nodes are more than 1e-8 apart, 2e-8 otherwise; weight may exceed 1 by 1e-8/dx (stated)."
  },
  {
   "property": "C05",
   "status": "proved",
   "theorems": [
    "C05_inverse",
    "C05_product_in_place"
   ],
   "note": "Entry-level memory model; source and destination addresses arbitrary (equal or overlapping)."
  },
  {
   "property": "C06",
   "status": "proved",
   "theorems": [
    "C06_composition_is_stacking",
    "C06_any_bracketing",
    "C06_top_down_accumulation",
    "C06_associative",
    "C06_reset_is_neutral"
   ],
   "note": "Physical reading (composition = stacking of scattering relations) plus arbitrary bracketings, top-down accumulation, associativity with status, neutral element."
  },
  {
   "property": "C07",
   "status": "proved",
   "theorems": [
    "C07_partial_agrees_with_full",
    "C07_status",
    "C07_shared_factor"
   ],
   "note": "Components, status, and the shared factor invT/invTL."
  },
  {
   "property": "C08",
   "status": "proved",
   "theorems": [
    "C08_full_over_upper",
    "C08_RD_over_upper",
    "C08_RU_over_lower",
    "C08_distinct_storage",
    "C08_full_over_lower_differs"
   ],
   "note": "Store model with aliasing; also shows the unused aliasing M=M2 of the full recursion is NOT safe."
  },
  {
   "property": "C09",
   "status": "proved",
   "theorems": [
    "C09_split_layer",
    "C09_split_above_bottom",
    "C09_delay_GRT",
    "C09_equal_media_status",
    "C09_static_split_layer",
    "C09_static_split_above_bottom"
   ],
   "note": "Interior cuts (inside any stack, dynamic with the artificial interface either skipped or computed, static), cuts above the bottom boundary (free, rigid, half-space), and the equal-media status: a computed artificial interface fails exactly when xa=0, xb=0 or cbcb=0. The upper cut next to the source/receiver uses C09_delay_GRT."
  },
  {
   "property": "C10",
   "status": "proved",
   "theorems": [
    "C10_solid_solid",
    "C10_solid_solid_SH",
    "C10_liquid_liquid",
    "C10_liquid_over_solid",
    "C10_solid_over_liquid",
    "C10_liquid_over_solid_SH",
    "C10_solid_over_liquid_SH",
    "C10_static",
    "C10_static_SH"
   ],
   "note": "Relation between amplitudes <-> contact condition, both directions. Liquid-solid needs xb<>0 and 1+xb^2<>0: the code divides by them (0/0 otherwise). SH solid-solid needs mu1 xb1 + mu2 xb2 <> 0 (no check in the code)."
  },
  {
   "property": "C11",
   "status": "proved",
   "theorems": [
    "C11_top_free",
    "C11_top_rigid",
    "C11_top_halfspace",
    "C11_top_liquid",
    "C11_bottom_free",
    "C11_bottom_rigid",
    "C11_bottom_liquid",
    "C11_bottom_halfspace",
    "C11_SH",
    "C11_static_top",
    "C11_static_bottom"
   ],
   "note": "Top/bottom, free/rigid/half-space, solid and liquid, P-SV and SH, dynamic and static; status characterised by existence of a boundary wave."
  },
  {
   "property": "C12",
   "status": "proved",
   "theorems": [
    "C12_eigenvectors_solid",
    "C12_eigenvectors_liquid",
    "C12_inverse_solid",
    "C12_inverse_liquid",
    "C12_SH",
    "C12_blocks",
    "C12_blocks_uiz"
   ],
   "note": "Tractions are defined from displacement by Hooke's law with Coquelicot derivatives. Liquid: both inverse variants of the code."
  },
  {
   "property": "C13",
   "status": "partial",
   "theorems": [
    "C13_status_never_set",
    "C13_inversion_failure_reported_refuted",
    "C13_surface_failure_noticed_refuted"
   ],
   "note": "Refuted: the status the integrators test is never written (proved for all inputs), with a concrete failing interface and a concrete failing free surface whose failure even the kernel's own flag misses."
  },
  {
   "property": "C14",
   "status": "proved",
   "theorems": [
    "C14_insertion"
   ],
   "note": "Any file with any number of layers, all non-negative depths including interfaces and equal depths; material equality is stated as presence of materials at every depth (interfaces belong to both sides)."
  },
  {
   "property": "C15",
   "status": "proved",
   "theorems": [
    "C15_depth_equals_thickness",
    "C15_accepted_is_physical"
   ],
   "note": "Equality of the whole reader result (including the error) for any template of comment and data lines; NaN and sscanf conversion are not modelled."
  },
  {
   "property": "C16",
   "status": "proved",
   "theorems": [
    "C16_medium_at_depth"
   ],
   "note": "For every accepted model and both inserted interfaces."
  },
  {
   "property": "C17",
   "status": "proved",
   "theorems": [
    "C17_vmin_vmax",
    "C17_check_vel"
   ],
   "note": "Velocities below the initial value 9e30 used by the code."
  },
  {
   "property": "C18",
   "status": "partial",
   "theorems": [
    "C18_liquid_interface_refuted",
    "C18_distinct_depths_partial",
    "C18_equal_depths_partial"
   ],
   "note": "The full statement is false: equal depths strictly inside a liquid layer are rejected (C18_liquid_interface_refuted). Proved: exact characterisation of acceptance/rejection for different depths and for equal depths."
  },
  {
   "property": "C19",
   "status": "proved",
   "theorems": [
    "C19_double_couple",
    "C19_tensile",
    "C19_explosion",
    "C19_fault_vectors",
    "C19_receiver_components",
    "C19_force_components",
    "C19_linear_in_tensor",
    "C19_linear_in_moment"
   ],
   "note": "Over the reals; DEG1 with the exact PI."
  },
  {
   "property": "C20",
   "status": "proved",
   "theorems": [
    "C20_azimuth_derivative"
   ],
   "note": "Derivative in the sense of Coquelicot, every source index and channel."
  },
  {
   "property": "C21",
   "status": "proved",
   "theorems": [
    "C21_unloaded_zero",
    "C21_loaded_used",
    "C21_full_sum",
    "C21_depends_on_loaded",
    "C21_array_reuse"
   ],
   "note": "Unloaded sources have zero factors, loaded ones are used, the accumulation loops (dynamic and static) compute the full sum, and not clearing srcRadi between passes is harmless."
  },
  {
   "property": "C22",
   "status": "proved",
   "theorems": [
    "C22_vector_rotation",
    "C22_vector_round_trip",
    "C22_vector_norm",
    "C22_tensor_rotation",
    "C22_tensor_round_trip",
    "C22_tensor_trace",
    "C22_tensor_second_invariant",
    "C22_tensor_bilinear",
    "C22_gradient_to_cylindrical",
    "C22_gradient_to_cartesian",
    "C22_gradient_round_trip"
   ],
   "note": "Gradient conversions are proved against true partial derivatives of a differentiable field."
  },
  {
   "property": "C23",
   "status": "proved",
   "theorems": [
    "C23_strain_covariant",
    "C23_rotation_covariant",
    "C23_stress_covariant",
    "C23_dynamic_stress_covariant",
    "C23_true_tensors",
    "C23_strain_plus_rotation",
    "C23_hooke_law",
    "C23_moduli"
   ],
   "note": "Static strain/rotation/stress, dynamic strain/rotation pointwise in time, dynamic stress per spectral value for any linear transform. Covers a single gradient sample; interpolation between grid distances is a separate claim."
  },
  {
   "property": "C24",
   "status": "partial",
   "theorems": [
    "C24_nonnegative",
    "C24_reciprocity",
    "C24_attained",
    "C24_not_after_straight",
    "C24_not_after_transmitted",
    "C24_not_after_head_wave_below_partial",
    "C24_not_after_head_wave_above_partial",
    "C24_equal_refractors_refuted",
    "C24_interface_refuted"
   ],
   "note": "Proved: sign, reciprocity, result attained by a ray, never later than the straight, transmitted (Fermat, up to the shooting error) and the head waves reached before the search stops. Refuted: layers of equal velocity stop the search and deeper head waves are missed; a point on an interface below a faster layer gives a far too early time."
  },
  {
   "property": "C25",
   "status": "proved",
   "theorems": [
    "C25_tiling",
    "C25_areas_and_potency",
    "C25_centres_on_plane"
   ],
   "note": "Real arithmetic; faults with distinct end points, dip in (0,90], top above bottom (all others are rejected by the reader)."
  },
  {
   "property": "C26",
   "status": "proved",
   "theorems": [
    "C26_fit_through_nodes",
    "C26_fit_recovers",
    "C26_closed_integral",
    "C26_simpson",
    "C26_simpson_sqrt",
    "C26_quad_cos",
    "C26_filon_interval"
   ],
   "note": "All formulas as coded (integral.c, quadratic cosine weights, SAFIM interval)."
  },
  {
   "property": "C27",
   "status": "partial",
   "theorems": [
    "C27_safim",
    "C27_phase_velocity",
    "C27_printed_samples",
    "C27_phase_velocity_refuted"
   ],
   "note": "Proved for the self-adaptive Filon integration. Phase velocities: proved for every predicted interval at least as wide as the root gap; refuted in general, since narrower predicted intervals are skipped and several in a row leave a wide gap."
  },
  {
   "property": "C28",
   "status": "partial",
   "theorems": [
    "C28_averages",
    "C28_nothing_to_do",
    "C28_reduction",
    "C28_convergence",
    "C28_bounds",
    "C28_all_records",
    "C28_some_record",
    "C28_no_record_refuted"
   ],
   "note": "Proved: termination, binomial mean, bounds, at most 36 records, all 36 with a fine step, at least one with a step of at most one period. Refuted: with a coarser step no record may fit and the result is zero."
  },
  {
   "property": "C29",
   "status": "partial",
   "theorems": [
    "C29_places",
    "C29_between",
    "C29_extreme",
    "C29_extreme_refuted"
   ],
   "note": "Proved: the place is always strictly inside; the value is at least as extreme for samples on a line of the complex plane (in particular real ones). Refuted for general complex samples, where the constant term of the parabola is returned."
  },
  {
   "property": "C30",
   "status": "partial",
   "theorems": [
    "C30_sum",
    "C30_needed",
    "C30_integrand",
    "C30_all_skipped_refuted"
   ],
   "note": "Proved for every kernel that does not fail, all distances. Refuted when every distance is skipped (zero distance and equal depths): the loop stops after one wavenumber although checking is disabled."
  },
  {
   "property": "C31",
   "status": "proved",
   "theorems": [
    "C31_duplicates_restored"
   ],
   "note": "The Green functions of the kept distances are an arbitrary function of the list of kept distances."
  },
  {
   "property": "C32",
   "status": "partial",
   "theorems": [
    "C32_brackets_partial",
    "C32_library_distance_partial",
    "C32_outside_untouched",
    "C32_azimuth",
    "C32_brackets_refuted"
   ],
   "note": "Proved for tables not flagged uniform and for exactly equally spaced tables. Refuted: a table flagged uniform by the 1e-3 tolerance without being equally spaced is read out of bounds."
  },
  {
   "property": "C33",
   "status": "partial",
   "theorems": [
    "C33_corners",
    "C33_bilinear",
    "C33_library_depths",
    "C33_shared_depth",
    "C33_nonnegative_refuted"
   ],
   "note": "Proved: indices, weights, sum, library depths, bilinear fields (up to the 1e-15 cut-off and the 1e-8 depth tolerance), shared receiver depth. Refuted: weights are not always non-negative (down to -1e-8/spacing just above a node)."
  },
  {
   "property": "C34",
   "status": "proved",
   "theorems": [
    "C34_sum_of_subfaults",
    "C34_schedule_independent",
    "C34_completes"
   ],
   "note": "Real addition (floating-point rounding is not modelled). If one schedule completes, all give the same field; completion proved for libraries not flagged uniform."
  },
  {
   "property": "C35",
   "status": "partial",
   "theorems": [
    "C35_any_schedule",
    "C35_parameters",
    "C35_serial_build_refuted",
    "C35_serial_build_reference_kmax"
   ],
   "note": "OpenMP build of grn.c proved for every interleaving of writes (wavenumber integral and kmax search are oracles depending on their arguments only). Refuted without OpenMP: parameters carry over between frequencies. The loop of modal/root.c is not modelled yet."
  },
  {
   "property": "C36",
   "status": "partial",
   "theorems": [
    "C36_indices",
    "C36_band",
    "C36_empty_band_refuted",
    "C36_low_frequencies"
   ],
   "note": "Proved whenever the band contains a grid frequency. Refuted: an accepted band without one computes a frequency outside the band."
  },
  {
   "property": "C37",
   "status": "partial",
   "theorems": [
    "C37_image_sources_partial",
    "C37_reduction_velocity_refuted",
    "C37_zero_distance_refuted"
   ],
   "note": "Proved without reduction velocity, with zero depth difference, and for windows aligned on first arrivals not later than that at the largest distance. Refuted: reduction velocity with depth difference; a single zero distance."
  },
  {
   "property": "C38",
   "status": "proved",
   "theorems": [
    "C38_integral",
    "C38_integral_linear",
    "C38_derivative_of_quadratic",
    "C38_derivative_of_linear",
    "C38_derivative_of_integral",
    "C38_one_sample_refuted"
   ],
   "note": "Real arithmetic. A one-sample trace makes grt_differential write outside the array (C38_one_sample_refuted); the property is stated from two samples on."
  },
  {
   "property": "C39",
   "status": "partial",
   "theorems": [
    "C39_linear",
    "C39_time_function",
    "C39_circular_partial",
    "C39_long_time_function_refuted"
   ],
   "note": "Proved for linear convolution with every time function and for circular convolution with a time function no longer than the trace. Refuted: a longer time function makes the circular convolution read before the array."
  },
  {
   "property": "C40",
   "status": "partial",
   "theorems": [
    "C40_damped_convolution_partial",
    "C40_long_time_function_refuted"
   ],
   "note": "Proved when the time function is no longer than the trace. Refuted: a longer time function is only damped over the trace length."
  },
  {
   "property": "C41",
   "status": "partial",
   "theorems": [
    "C41_parabola",
    "C41_parabola_too_short",
    "C41_trapezoid",
    "C41_trapezoid_zero_ends_partial",
    "C41_trapezoid_total",
    "C41_trapezoid_end_refuted",
    "C41_trapezoid_start_refuted",
    "C41_ricker"
   ],
   "note": "Proved: parabola, Ricker, trapezoid total and non-negativity, zero ends of the trapezoid when each ramp has at least one sample. Refuted: zero-length ramps (also after rounding) start or end at 1."
  },
  {
   "property": "C42",
   "status": "partial",
   "theorems": [
    "C42_choice",
    "C42_error",
    "C42_subdirectory",
    "C42_written_found",
    "C42_written_refuted"
   ],
   "note": "The choice is proved to be exactly the unique match, for libraries whose values are equal or differ by more than the tolerance of 1e-5 km. That a written library is found by its own values is proved below 256 km and refuted beyond (float headers: 1000.1 km is never found)."
  },
  {
   "property": "C43",
   "status": "partial",
   "theorems": [
    "C43_subdirectory_names",
    "C43_directory_check",
    "C43_no_mixing",
    "C43_written_names_accepted_refuted"
   ],
   "note": "Proved: exactly the entries described are accepted, and no sub-directory is accepted for two models. Refuted: the program can itself write a directory name (distance given as 1e) that its next run refuses. strtod is an oracle with one stated property."
  },
  {
   "property": "C44",
   "status": "proved",
   "theorems": [
    "C44_split",
    "C44_words_determined",
    "C44_column_count",
    "C44_basename",
    "C44_composed_of",
    "C44_comment_or_empty"
   ],
   "note": ""
  },
  {
   "property": "C45",
   "status": "partial",
   "theorems": [
    "C45_trim_partial",
    "C45_trim_blank_line",
    "C45_every_string",
    "C45_trim_both_ends_refuted"
   ],
   "note": "Refuted: leading blanks stay in the caller's string; proved exactly what is removed."
  },
  {
   "property": "C46",
   "status": "proved",
   "theorems": [
    "C46_getline",
    "C46_end_of_stream",
    "C46_all_lines",
    "C46_text_file"
   ],
   "note": "Allocation assumed to succeed, size_t unbounded."
  },
  {
   "property": "C47",
   "status": "partial",
   "theorems": [
    "C47_accepted_lists_partial",
    "C47_range",
    "C47_list_never_undefined",
    "C47_nonnegative_refuted",
    "C47_infinite_range_refuted"
   ],
   "note": "Accepted lists are ascending and non-negative except a lone NaN (refuted); an infinite range end reaches an undefined conversion (refuted). Ranges are exact when the values survive printing with 15 digits. atof, sscanf, printf and files are oracles."
  },
  {
   "property": "C48",
   "status": "proved",
   "theorems": [
    "C48_text",
    "C48_python",
    "C48_peaks_text",
    "C48_peaks_python",
    "C48_names"
   ],
   "note": "Writing, printing (ker2asc) and reading (Python) of kernel records and peak/trough records round-trip over all doubles, also for a file cut off inside a record."
  },
  {
   "property": "C49",
   "status": "proved",
   "theorems": [
    "C49_one_frequency"
   ],
   "note": "Also completeness: zeros in a valley spanning four neighbouring samples are found up to 1.5 times the root gap, unless the list is full below them."
  },
  {
   "property": "C50",
   "status": "proved",
   "theorems": [
    "C50_golden_section",
    "C50_finds_valley"
   ],
   "note": "The golden ratio constant is exact."
  },
  {
   "property": "C51",
   "status": "partial",
   "theorems": [
    "C51_all_liquid_refuted",
    "C51_only_half_space_solid",
    "C51_solid_layer",
    "C51_searched_layers"
   ],
   "note": "Refuted: an all-liquid model reads behind the last layer (undefined behaviour), and the error exit is taken by a model whose half-space is solid. Proved in range whenever a layer above the half-space is solid."
  },
  {
   "property": "C52",
   "status": "proved",
   "theorems": [
    "C52_rayleigh",
    "C52_love"
   ],
   "note": "For runs without a failed inversion, any reference layer above the half-space, any previous content of the arrays; where the medium changes between liquid and solid at the reference layer the matrix from above is that of the layer above."
  },
  {
   "property": "C53",
   "status": "partial",
   "theorems": [
    "C53_phase_file",
    "C53_group_file",
    "C53_group_sound",
    "C53_group_refuted"
   ],
   "note": "Proved for phase files and for group files holding the lowest modes; refuted for group files of other selections (modal_def.c:128 compares the mode number with the number of stored modes). Soundness holds in general. NetCDF is external: a file is modelled by its arrays."
  },
  {
   "property": "C54",
   "status": "partial",
   "theorems": [
    "C54_values",
    "C54_counts",
    "C54_refuted",
    "C54_derivative",
    "C54_last_frequency"
   ],
   "note": "Refuted when a mode present at one frequency is missing at the next (modal_util.c:148 reads eigfn[iw+1][ic] without checking); proved, with the values, exactly when the number of modes does not decrease. At the last frequency the frequency difference is zero, so the value is the derivative only if the phase kernel is stationary."
  },
  {
   "property": "C55",
   "status": "proved",
   "theorems": [
    "C55_enumeration",
    "C55_index_determines_point",
    "C55_point_determines_index",
    "C55_axes_written",
    "C55_modules_agree"
   ],
   "note": "The double loop is shared by the three callers in the model as in the code (same index expression)."
  },
  {
   "property": "C56",
   "status": "proved",
   "theorems": [
    "C56_layer_states",
    "C56_static_states",
    "C56_waves_solve_motion",
    "C56_sh_waves_solve_motion",
    "C56_static_fields_solve_equilibrium"
   ],
   "note": "csqrt is an oracle with csqrt z * csqrt z = z, clog an arbitrary function. s_lambda is only claimed for elastic runs (model.c:414 uses the S attenuation factor for the P modulus otherwise; unused there)."
  },
  {
   "property": "C57",
   "status": "proved",
   "theorems": [
    "C57_receiver_up",
    "C57_receiver_down",
    "C57_receiver_SH",
    "C57_static_receiver_up",
    "C57_static_receiver_down",
    "C57_static_receiver_SH"
   ],
   "note": "For arbitrary reflection matrices; SH for solid layers (zero in liquids by the code)."
  },
  {
   "property": "C58",
   "status": "partial",
   "theorems": [
    "C58_psv_solution",
    "C58_sh_solution",
    "C58_static_solution",
    "C58_surface_dip_slip_refuted"
   ],
   "note": "Proved for every row except vertical dip slip with source and receiver both at the surface, which the code overwrites with zero; that case is refuted for a half-space above. Static SH and dynamic SH assume no free SH solution (the code divides without a test there)."
  },
  {
   "property": "C59",
   "status": "proved",
   "theorems": [
    "C59_solid_source",
    "C59_liquid_source",
    "C59_static_source"
   ],
   "note": "Liquid: explosion only (other rows contain S terms there)."
  },
  {
   "property": "C60",
   "status": "partial",
   "theorems": [
    "C60_job_directories_partial",
    "C60_job_directories_refuted"
   ],
   "note": "Refuted for %g (six digits); proved when the printed depths are distinguishable."
  },
  {
   "property": "C61",
   "status": "proved",
   "theorems": [
    "C61_moment",
    "C61_columns",
    "C61_default_size"
   ],
   "note": "Moments per unit rigidity; lambda/mu through Vp/Vs."
  },
  {
   "property": "C62",
   "status": "partial",
   "theorems": [
    "C62_strain_at_library_distance_partial",
    "C62_between_distances_refuted"
   ],
   "note": "Proved at library distances (single depth corner). Refuted between library distances: rotation of gradients does not commute with the interpolation in distance."
  },
  {
   "property": "C63",
   "status": "proved",
   "theorems": [
    "C63_traces_independent",
    "C63_processing_linear"
   ],
   "note": "Time functions no longer than the trace (longer ones are undefined behaviour, see C39). Real arithmetic."
  },
  {
   "property": "C64",
   "status": "partial",
   "theorems": [
    "C64_samples_partial",
    "C64_windows_agree",
    "C64_upsampling",
    "C64_upsampling_refuted",
    "C64_naive_inverse"
   ],
   "note": "FFTW's documented c2r transform is trusted. Refuted: for an even number of samples, upsampling doubles the Nyquist component; proved when it vanishes or the number is odd."
  },
  {
   "property": "C65",
   "status": "proved",
   "theorems": [
    "C65_integrand",
    "C65_radial_derivative",
    "C65_zero_distance",
    "C65_components"
   ],
   "note": "Bessel functions given by their power series; derivative and limit proved from the series."
  },
  {
   "property": "C66",
   "status": "partial",
   "theorems": [
    "C66_filon_nearfield_refuted",
    "C66_force_rows",
    "C66_moment_rows",
    "C66_force_rows_depth",
    "C66_moment_rows_depth",
    "C66_radial_correction"
   ],
   "note": "Identity proved for displacement and depth derivative (force and moment rows) and the radial correction; the values of the analytical Bessel integrals are specification constants, not derived. Refuted with a Filon stage: the near-field part subtracted by the first stage is never restored."
  },
  {
   "property": "C67",
   "status": "partial",
   "theorems": [
    "C67_all_nodes",
    "C67_error_partial",
    "C67_linear_filon_refuted"
   ],
   "note": "Refuted: the sine terms at both ends have the wrong sign; C67_error_partial gives the exact error. All samples up to kmax are taken whatever the tolerance is (C67_all_nodes)."
  },
  {
   "property": "C68",
   "status": "proved",
   "theorems": [
    "C68_plain",
    "C68_filon"
   ],
   "note": "Self-adaptive Filon and peak-trough stages are parameters here; fixed-interval stage and the correction are modelled. The integral behind the cut starts one Filon step after the last summed wavenumber (see DESIGN)."
  },
  {
   "property": "C69",
   "status": "partial",
   "theorems": [
    "C69_predicted_velocities",
    "C69_estimates_inserted",
    "C69_range_refuted"
   ],
   "note": "Grid and insertion proved (elastic root-number estimate continuous, so halving ends). Refuted that the predicted velocities stay in the requested range: Rayleigh and Scholte estimates are inserted unchecked."
  },
  {
   "property": "C70",
   "status": "partial",
   "theorems": [
    "C70_other_distances",
    "C70_derivatives",
    "C70_record_file_refuted"
   ],
   "note": "Proved: independence of other distances with a fine step, and of asking for derivatives. Refuted: the record file pairs places of one integral with values of another when derivatives are requested."
  },
  {
   "property": "C71",
   "status": "proved",
   "theorems": [
    "C71_result",
    "C71_early",
    "C71_steps",
    "C71_trivial"
   ],
   "note": "Search for the upper wavenumber: termination, range, first settled sample, number of evaluations."
  },
  {
   "property": "C72",
   "status": "proved",
   "theorems": [
    "C72_integrand",
    "C72_sums"
   ],
   "note": "Plotted integrands and cumulative sums equal the integrands summed by the discrete wavenumber stage (no convergence check, no direct convergence correction)."
  },
  {
   "property": "C73",
   "status": "proved",
   "theorems": [
    "C73_rayleigh",
    "C73_love",
    "C73_rayleigh_reference",
    "C73_love_reference"
   ],
   "note": "For models read as grt_eigenv.c does (no source or receiver, free surface, half-space, elastic), any reference layer above the half-space, liquid or solid layers in any order. Hypotheses: no failed inversion in the run, phase velocity off the branch points, and for Love waves no vanishing interface denominator."
  },
  {
   "property": "C74",
   "status": "partial",
   "theorems": [
    "C74_single",
    "C74_range",
    "C74_steps",
    "C74_modes",
    "C74_period_range_refuted",
    "C74_first_refuted",
    "C74_outside_refuted"
   ],
   "note": "Proved for single values, frequency ranges, equidistant values starting at zero or at one step or more, and for modes; refuted for a range of periods (+p is ignored) and for a first value between zero and the step. String scanning is not modelled; arithmetic is exact."
  },
  {
   "property": "C75",
   "status": "proved",
   "theorems": [
    "C75_rayl",
    "C75_love",
    "C75_cut",
    "C75_rayl_balance",
    "C75_love_balance"
   ],
   "note": "Assumes that no wave grazes a layer (vertical slownesses 0) and P and S waves differ, and that every layer is thicker than 1e-5 of the requested step."
  },
  {
   "property": "C76",
   "status": "proved",
   "theorems": [
    "C76_rayl",
    "C76_love"
   ],
   "note": "A branch is a family of modes near the wavenumber whose frequency, vertical wavenumbers and amplitudes are continuous there; that I1 is not zero is a hypothesis (it holds for undamped modes)."
  },
  {
   "property": "C77",
   "status": "proved",
   "theorems": [
    "C77_rayl",
    "C77_love"
   ],
   "note": "A family of modes is continuous in the varied quantity at the value in question (frequency fixed); dom is not zero because the run returned rows. For alpha and beta of P-SV rows lambda of the layer must not be zero: the code divides by it (finding)."
  },
  {
   "property": "C78",
   "status": "proved",
   "theorems": [
    "C78_rayl",
    "C78_love",
    "C78_depth_layers",
    "C78_rayl_balance",
    "C78_love_balance"
   ],
   "note": "Claimed when the secular function is exactly zero (real arithmetic; the program stops near zero) and no inverse on the way fails: the generalised matrices below the reference layer exist and the state flags of those above it are good. The program tests none of this in eigenfn.c (finding). Layers off the branch points, Love waves without SH interface modes, as in C73."
  },
  {
   "property": "C79",
   "status": "proved",
   "theorems": [
    "C79_explosion",
    "C79_shear",
    "C79_coulomb_shear",
    "C79_coulomb_tensile",
    "C79_at_source",
    "C79_polar"
   ],
   "note": "Exact real arithmetic. Receivers whose coordinates along and across strike and vertical offsets from source and image are zero or at least 1e-6 km (smaller ones are rounded to zero by the program), dips whose cosine is zero or at least 1e-6. Rectangular faults (Kode 100, 200, 300) are C83. Uniqueness of the boundary value problem is not proved: the specification asks for equilibrium, the traction-free surface, and the full-space field plus a part without singularity of second-order decay."
  },
  {
   "property": "C80",
   "status": "partial",
   "theorems": [
    "C80_tensile_partial",
    "C80_tensile_refuted"
   ],
   "note": "Refuted: the tensile point source of -M/-S (and -Su) is scaled by mu/lambda (grt_okada.c:415); the theorem proved says exactly that. With lambda = mu the claim holds; with lambda = 0 the program divides by zero."
  },
  {
   "property": "C81",
   "status": "proved",
   "theorems": [
    "C81_rayl",
    "C81_love"
   ],
   "note": "Exact complex arithmetic. The hypotheses describe the integrand: the fields which the source excites at wavenumbers near k0 have a simple pole there whose residue is a multiple of the normal mode (that multiple is not assumed, it is derived). Leading far-field term of the Hankel functions only. The source is not at a wavenumber grazing its layer. In a liquid the depth derivative uiz is left zero by the program and the theorem says so; rows the program does not write in liquids are excluded; the DS row with source and receiver at depth zero is cleared by the program, which is right for a free top only."
  },
  {
   "property": "C82",
   "status": "partial",
   "theorems": [
    "C82_layer_tops_partial",
    "C82_same_layer_partial",
    "C82_arrival_refuted",
    "C82_adjacent_refuted",
    "C82_begin_refuted",
    "C82_begin_partial"
   ],
   "note": "Refuted three ways (see DESIGN.md): the times are those between the tops of the unsplit layers, zero when source and receiver share a layer, and option -Ep reads a header field that is not written yet. The theorems with suffix _partial say what the program does."
  },
  {
   "property": "C83",
   "status": "proved",
   "theorems": [
    "C83_rectangle",
    "C83_geometry",
    "C83_sum",
    "C83_all_or_nothing",
    "C83_points"
   ],
   "note": "Exact real arithmetic. Receivers off the plane of the fault and of its mirror image (a distance of at least 1e-6 km), whose distances from the four edges along strike and dip are zero or at least 1e-6 km (smaller ones are rounded to zero by the program), dips whose cosine is zero or at least 1e-6, top edge not above the surface. The point sources are characterised by the boundary value problem as in C79; its uniqueness is not proved. The area integral is the iterated Riemann integral."
  },
  {
   "property": "C84",
   "status": "proved",
   "theorems": [
    "C84_cubic",
    "C84_arrival",
    "C84_roots",
    "C84_residue"
   ],
   "note": "Exact real arithmetic. Rayleigh waves are the zeros above 1 of the Rayleigh function of the squared slowness."
  },
  {
   "property": "C85",
   "status": "partial",
   "theorems": [
    "C85_azimuth",
    "C85_result_partial",
    "C85_poisson",
    "C85_times_partial",
    "C85_single_refuted",
    "C85_repeat_refuted",
    "C85_fractions_partial",
    "C85_fractions_refuted"
   ],
   "note": "Refuted for one time (C85_single_refuted: out-of-bounds read), for two equal first times (C85_repeat_refuted: the process ends) and, for the fractions, at the Poisson ratio with a double root (C85_fractions_refuted). Proved otherwise. The complex square root, the complex arc tangent and R_J are parameters."
  },
  {
   "property": "C86",
   "status": "proved",
   "theorems": [
    "C86_P",
    "C86_S",
    "C86_S2",
    "C86_terms",
    "C86_exist",
    "C86_reciprocal"
   ],
   "note": "Exact real arithmetic. Component (i, j) is the displacement along j for a force along i with exchanged source and receiver (see the head of Props/LambWaves.v). The passage from the integrals over slowness to time (Cagniard) is not modelled."
  },
  {
   "property": "C87",
   "status": "partial",
   "theorems": [
    "C87_P_partial",
    "C87_S1_partial",
    "C87_S2_partial"
   ],
   "note": "Proved for the integrals of 1, x, x^2, for real poles outside of the range of integration and for the elementary integrals with two weights (C87_P_partial, C87_S1_partial, C87_S2_partial). Missing: complex poles and principal values, the elliptic integrals (approximated in the code), V_P after the S arrival, the SP terms."
  },
  {
   "property": "C88",
   "status": "proved",
   "theorems": [
    "C88_library",
    "C88_alone",
    "C88_defined"
   ],
   "note": "NetCDF is modelled by its documented behaviour (named dimensions and variables, row-major blocks). The integration is a parameter. Depths are not negative. Without -S (statistics), which allows only one pair."
  },
  {
   "property": "C89",
   "status": "partial",
   "theorems": [
    "C89_spaced_partial",
    "C89_file",
    "C89_total",
    "C89_blanks_refuted"
   ],
   "note": "Proved: well-formed files give their points (C89_spaced_partial), the exact set of accepted files in terms of strtod (C89_file), no undefined behaviour (C89_total). Refuted: numbers need not be separated by blanks (C89_blanks_refuted). Files without NUL bytes; strtod is a parameter."
  },
  {
   "property": "C90",
   "status": "proved",
   "theorems": [
    "C90_displacement",
    "C90_gradient",
    "C90_epicentre",
    "C90_epicentre_tensors",
    "C90_static_gradient",
    "C90_static_epicentre",
    "C90_missing"
   ],
   "note": "Real arithmetic (traces and distances are not rounded to float); one sample at a time. Distances up to 1e-8 km count as zero in the program: the theorems are for distance zero and for distances above 1e-8 km."
  },
  {
   "property": "C91",
   "status": "partial",
   "theorems": [
    "C91_RF_partial",
    "C91_RF_stops",
    "C91_RF_symmetric",
    "C91_RF_homogeneous",
    "C91_RJ_homogeneous",
    "C91_equal_arguments",
    "C91_RJ_symmetric_partial",
    "C91_RJ_symmetric_refuted",
    "C91_RJ_series_refuted",
    "C91_RJ_last_step_partial"
   ],
   "note": "R_F: Carlson series after duplication, termination for non-negative arguments, symmetry, homogeneity, exact value at equal arguments. R_J: homogeneity, exact value at equal arguments and symmetry in two arguments hold; symmetry in all three and the series are refuted (elliptic.c:186 takes zn for pn, elliptic.c:211 has the factor 3 for 2). Not proved: that the series approximate the integrals."
  },
  {
   "property": "C92",
   "status": "partial",
   "theorems": [
    "C92_convolve",
    "C92_convolve_circular",
    "C92_long_signal_refuted",
    "C92_integral",
    "C92_diff",
    "C92_short",
    "C92_stream"
   ],
   "note": "Proved for signals that are not longer than the trace (and of any length without user0); refuted for longer signals with user0, which are an exception. Real arithmetic: float32 samples and the FFT of SciPy round."
  },
  {
   "property": "C93",
   "status": "partial",
   "theorems": [
    "C93_Rayleigh_unique",
    "C93_Rayleigh_refuted",
    "C93_search_refuted",
    "C93_Scholte",
    "C93_Scholte_unique",
    "C93_Scholte_sign_change",
    "C93_samples_partial"
   ],
   "note": "Proved: Scholte velocity within 1e-12 vs for all parameters in wide limits; Rayleigh and Scholte waves are unique; the samples of the search lie next to the Scholte waves and contain the predicted Rayleigh velocity. Refuted: the Rayleigh prediction is negative for vp/vs in [2.4326, sqrt 6]. Missing: that the Rayleigh prediction is close to the wave for other ratios. Real arithmetic."
  },
  {
   "property": "C94",
   "status": "partial",
   "theorems": [
    "C94_distances_partial",
    "C94_rejected",
    "C94_overflow_refuted",
    "C94_binary64_refuted",
    "C94_endpoint_refuted"
   ],
   "note": "Proved in real arithmetic for up to seven decimals whose digits fit into an int. Refuted for more digits (undefined conversion to int), and in binary64 already for -R0/300/0.47; -R0/0.3/0.1 loses the last distance."
  }
 ]
}