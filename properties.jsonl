{"id": "C01", "title": "Array searches return the documented extremum", "statement": "Looking up a value in an array returns the first index holding it, or -1 exactly when it is absent; the less-or-equal search returns the first index of the largest element not exceeding the target, or -1 exactly when none exists; closest/min/max searches return the first index attaining the extremum of a non-empty array.", "quantifier": "every array (any length) and every target value", "why_tests_cant": "the claim is about every array, including ties and duplicates; a test samples finitely many arrays", "anchors": ["pygrt/C_extension/src/common/search.c: grt_findElement_*, grt_findLessEqualClosest_*, grt_findClosest_*, grt_findMin_*, grt_findMax_*"]}
{"id": "C02", "title": "Bounded ordered insertion keeps the best elements", "statement": "Inserting into a sorted bounded array leaves it sorted and within capacity, the result is the sorted merge of the old contents and the new element cut to the capacity (nothing better is ever dropped), the returned position holds the new element, and -1 is returned with the array untouched exactly when the array is full and the element is not strictly better than the last one.", "quantifier": "every sorted array, capacity >= 1, element, and both sort directions, and every sequence of insertions", "why_tests_cant": "an invariant over all insertion histories", "anchors": ["pygrt/C_extension/src/common/search.c: grt_insertOrdered"]}
{"id": "C03", "title": "argsort is a stable ascending permutation", "statement": "On success the index array is a permutation of 0..n-1, the indexed values are non-decreasing and equal values keep their original order; invalid arguments are reported with -1 and a failed allocation with -2, in both cases without writing the output.", "quantifier": "every array and every total preorder comparison, for any conforming library sort", "why_tests_cant": "quantifies over all arrays and over the unspecified sorting routine of the C library", "anchors": ["pygrt/C_extension/src/common/search.c: grt_argsort, compare_argsort_pair"]}
{"id": "C04", "title": "Linear-interpolation lookup brackets the query and reproduces it", "statement": "For a strictly ascending axis the lookup succeeds exactly for queries within 1e-8 of the axis range; on success the two returned indices are in range and equal or adjacent, and interpolating the axis itself with the returned weight gives back the query to within 1e-8 when neighbouring nodes are more than 1e-8 apart (2e-8 otherwise); for such axes queries that coincide with a node get that node's data.", "quantifier": "every axis of any length and every query", "why_tests_cant": "all axes, all queries, including those within the tolerance of a node", "anchors": ["pygrt/C_extension/src/common/search.c: grt_locateLinearInterp"]}
{"id": "C05", "title": "2x2 complex inverse is a two-sided inverse and fails only on singular input", "statement": "The 2x2 inversion reports failure exactly when the determinant is zero and leaves the output untouched then; otherwise the output is a two-sided inverse, also when input and output are the same storage.", "quantifier": "every complex 2x2 matrix", "why_tests_cant": "all matrices, including the singular boundary", "anchors": ["pygrt/C_extension/include/grt/common/matrix.h: grt_cmat2x2_inv, grt_cmat2x2_mul, grt_cmat2x2_one_sub"]}
{"id": "C06", "title": "Layer composition is independent of how layers are grouped", "statement": "Combining the reflection/transmission matrices of stacked layers is associative and has the reset matrix as neutral element: any grouping of a stack gives the same generalized matrices whenever no inversion fails, so top-down accumulation equals composing any two sub-stacks.", "quantifier": "all stacks of any number of layers and all ways of bracketing them", "why_tests_cant": "an algebraic law over all stacks; floating tests only see approximate equality on samples", "anchors": ["pygrt/C_extension/src/common/RT_matrix.c: grt_recursion_RT_matrix_PSV, grt_recursion_RT_matrix_SH, grt_reset_RT_matrix"]}
{"id": "C07", "title": "Partial recursions agree with the full recursion", "statement": "Computing only RD, TD, RU or TU of a combined stack gives exactly the component the full recursion gives, with the same success/failure outcome, and the full recursion's second inversion can never fail when the first succeeds.", "quantifier": "all pairs of layer matrices", "why_tests_cant": "needs det(I-AB)=det(I-BA) for every pair of matrices", "anchors": ["pygrt/C_extension/src/common/RT_matrix.c: grt_recursion_RD/TD/RU/TU(_PSV,_SH), grt_recursion_RT_matrix(_PSV,_SH)"]}
{"id": "C08", "title": "In-place recursion is safe for the aliasings used", "statement": "Writing the combined matrix over the upper operand (the accumulation pattern used everywhere) and, for the up-going reflection recursion, over the lower operand, gives the same result as writing to fresh storage.", "quantifier": "all operand values and the aliasing patterns that occur in the code base", "why_tests_cant": "aliasing bugs depend on statement order for every value", "anchors": ["pygrt/C_extension/src/common/RT_matrix.c: grt_recursion_*", "pygrt/C_extension/src/integral/kernel_template.c_", "pygrt/C_extension/src/modal/secular.c"]}
{"id": "C09", "title": "Splitting a homogeneous layer changes nothing", "statement": "Cutting a layer at any depth into two layers of the same material leaves every generalized reflection/transmission matrix of the stack unchanged (P-SV and SH, dynamic and static).", "quantifier": "all media, wavenumbers, thicknesses and all cut positions", "why_tests_cant": "an invariance for all media and cuts; virtual source/receiver layers rely on it", "anchors": ["pygrt/C_extension/src/dynamic/layer.c: grt_RT_matrix_PSV, grt_RT_matrix_SH, grt_delay_RT_matrix", "pygrt/C_extension/src/static/static_layer.c: grt_static_RT_matrix_PSV, grt_static_delay_RT_matrix", "pygrt/C_extension/src/common/model.c: grt_read_mod1d_from_file"]}
{"id": "C10", "title": "Interface coefficients satisfy the contact conditions of the two media", "statement": "At every interface the waves related by the computed coefficients are exactly those for which displacement and traction are continuous (solid-solid, P-SV and SH, dynamic and static) or vertical displacement and normal stress are continuous and shear stress vanishes (liquid-liquid, liquid-solid, solid-liquid), for waves incident from above and from below; for P-SV the computation reports failure exactly when the interface carries a wave without any incident wave.", "quantifier": "all material parameters on both sides, all wavenumbers and frequencies for which the coefficients are defined", "why_tests_cant": "a physical law over a continuum of media", "anchors": ["pygrt/C_extension/src/dynamic/layer.c: grt_RT_matrix_PSV, grt_RT_matrix_SH", "pygrt/C_extension/src/static/static_layer.c: grt_static_RT_matrix_PSV, grt_static_RT_matrix_SH"]}
{"id": "C11", "title": "Free and rigid boundaries have zero traction and zero displacement", "statement": "The reflection coefficients used at a free boundary make the total traction vanish there and those at a rigid boundary make the displacement vanish, top and bottom, P-SV and SH, dynamic and static; for P-SV in a solid the computation reports failure exactly when the boundary carries a wave without any incident wave.", "quantifier": "all media and wavenumbers", "why_tests_cant": "a law over a continuum of media", "anchors": ["pygrt/C_extension/src/dynamic/layer.c: grt_topbound_RU_PSV, grt_botbound_RD_PSV, grt_topbound_RU_SH, grt_botbound_RD_SH", "pygrt/C_extension/src/static/static_layer.c: grt_static_topbound_RU_PSV"]}
{"id": "C12", "title": "Layer eigenvector matrices map amplitudes to displacement and stress, and back", "statement": "The matrix mapping wave amplitudes to displacement-stress gives the displacements of the wave field and the stresses that Hooke's law derives from them; the matrix mapping back is its two-sided inverse in a solid and recovers the P amplitudes in a liquid; the separately coded 2x2 blocks agree with it and the derivative blocks give the depth derivatives of the displacements.", "quantifier": "all solid and liquid media, all wavenumbers with nonzero vertical slownesses", "why_tests_cant": "an identity over a continuum of parameters", "anchors": ["pygrt/C_extension/src/dynamic/layer.c: grt_get_layer_D, grt_get_layer_T"]}
{"id": "C13", "title": "Inversion failures in the kernel are reported to the caller", "statement": "If any matrix inversion fails while the kernel is evaluated, the status that the wavenumber integrators test is set, so that the integration stops and the result is flagged.", "quantifier": "all models and wavenumbers at which an inversion fails", "why_tests_cant": "needs a singular configuration on a measure-zero set that tests do not hit", "anchors": ["pygrt/C_extension/src/integral/kernel_template.c_", "pygrt/C_extension/src/dynamic/grn.c: grt_integ_grn_spec", "pygrt/C_extension/src/integral/dwm.c", "pygrt/C_extension/include/grt/common/model.h: MODEL1D_STATE.stats"]}
{"id": "C14", "title": "Reading a model inserts source and receiver layers without changing the medium", "statement": "After reading a model with source and receiver depths the model has exactly two more layers than the file, both inserted indices are at least 1 and differ, the interface depths of the inserted layers are the requested depths, source above receiver holds exactly when the indices are so ordered, and at every depth the material equals the material in the file.", "quantifier": "all model files (any number of layers) and all non-negative depths", "why_tests_cant": "quantifies over all models and depth pairs, including depths on interfaces and equal depths", "anchors": ["pygrt/C_extension/src/common/model.c: grt_read_mod1d_from_file"]}
{"id": "C15", "title": "Depth-column and thickness-column model files are equivalent", "statement": "A model file whose first column gives layer-top depths yields the same layers as the file giving thicknesses, and any file accepted has positive velocities and densities, non-negative shear velocity and no negative thickness.", "quantifier": "all model files", "why_tests_cant": "all files of any length", "anchors": ["pygrt/C_extension/src/common/model.c: grt_read_modarr_from_file"]}
{"id": "C16", "title": "Medium lookup agrees with the inserted source/receiver layers", "statement": "The material reported at a depth by the medium lookup is the material of the layer the model reader attaches to a source or receiver at that depth (the upper layer on an interface).", "quantifier": "all models and depths", "why_tests_cant": "two independent loops must agree on every interface case", "anchors": ["pygrt/C_extension/src/common/model.c: grt_modarr_medium_at_depth, grt_read_mod1d_from_file"]}
{"id": "C17", "title": "Minimum and maximum velocity bound every layer velocity", "statement": "The reported minimum velocity is the smallest nonzero P or S velocity of the model and the maximum the largest, both attained by some layer.", "quantifier": "all models", "why_tests_cant": "all models including liquid layers", "anchors": ["pygrt/C_extension/src/common/model.c: grt_get_mod1d_vmin_vmax, grt_check_vel_in_mod"]}
{"id": "C18", "title": "A receiver inside a liquid layer is accepted", "statement": "A source or receiver is rejected for lying on a liquid interface only when it actually lies on an interface with liquid on one side.", "quantifier": "all models and depth pairs", "why_tests_cant": "needs the coincidence of equal depths inside a liquid layer", "anchors": ["pygrt/C_extension/src/common/model.c: grt_read_mod1d_from_file (lines 301-317)"]}
{"id": "C19", "title": "Double couple and tensile sources equal their moment tensors", "statement": "The radiation factors of a strike/dip/rake double couple and of a tensile crack equal those of the corresponding moment tensor, the explosion equals the isotropic tensor, and factors are linear in the moment tensor.", "quantifier": "all angles, azimuths and moments", "why_tests_cant": "trigonometric identities over all angles", "anchors": ["pygrt/C_extension/src/common/radiation.c: grt_set_source_radiation"]}
{"id": "C20", "title": "Azimuthal-derivative radiation factors are the derivatives", "statement": "The factors requested for the azimuth derivative equal the derivative with respect to azimuth of the ordinary factors, for all source types.", "quantifier": "all source types, mechanisms and azimuths", "why_tests_cant": "a derivative statement over all azimuths", "anchors": ["pygrt/C_extension/src/common/radiation.c: grt_set_source_radiation"]}
{"id": "C21", "title": "Green's functions that are needed are exactly those with non-zero radiation factors", "statement": "Synthesis never multiplies a Green's function it did not load: whenever a source component is skipped its radiation factors are zero for every mechanism and azimuth.", "quantifier": "all source types, mechanisms, azimuths", "why_tests_cant": "must hold for every mechanism", "anchors": ["pygrt/C_extension/src/dynamic/grt_syn.c: syn_need_src", "pygrt/C_extension/src/common/radiation.c"]}
{"id": "C22", "title": "Rotations preserve vectors and tensors", "statement": "Rotating a vector or symmetric tensor from ZRT to ZNE and back is the identity, preserves the vector norm, trace and second invariant, and rotation of displacement gradients round-trips.", "quantifier": "all vectors, tensors and azimuths", "why_tests_cant": "all angles", "anchors": ["pygrt/C_extension/src/common/coord.c"]}
{"id": "C23", "title": "Strain, stress and rotation do not depend on the coordinate system used", "statement": "Computing strain, rotation or stress from gradients rotated to ZNE equals rotating the tensors computed in ZRT, strain plus rotation recovers the displacement gradient, and stress is Hooke's law applied to strain.", "quantifier": "all displacements, gradients, azimuths, distances > 1e-8 km and moduli", "why_tests_cant": "identities across five separately written modules", "anchors": ["pygrt/C_extension/src/static/grt_static_strain.c", "pygrt/C_extension/src/static/grt_static_stress.c", "pygrt/C_extension/src/static/grt_static_rotation.c", "pygrt/C_extension/src/dynamic/grt_strain.c", "pygrt/C_extension/src/common/coord.c"]}
{"id": "C24", "title": "First-arrival travel time is never later than any admissible ray", "statement": "The reported first-arrival time never exceeds the time along any of the head-wave or straight candidates considered, is non-negative, and swapping source and receiver gives the same result.", "quantifier": "all layered models, positions and distances", "why_tests_cant": "all models", "anchors": ["pygrt/C_extension/src/common/travt.c: grt_compute_travt1d"]}
{"id": "C25", "title": "Sub-faults tile the fault exactly", "statement": "Dividing a rectangular fault into sub-faults produces rectangles whose areas add up to the fault area, whose sizes do not exceed the requested size, whose centers lie on the fault plane, and whose total potency equals that of the fault.", "quantifier": "all fault geometries and sub-division sizes", "why_tests_cant": "all geometries", "anchors": ["pygrt/C_extension/src/common/finite_fault.c: grt_finite_fault_subdiv, grt_finite_fault_subfault, grt_finite_fault_set_derived"]}
{"id": "C26", "title": "Quadratic fitting, Simpson and Filon weights are exact on quadratics", "statement": "The fitted quadratic passes through its three nodes; its closed-form integral, all five Simpson variants and the quadratic cosine/sine weights are exact for every quadratic integrand.", "quantifier": "all quadratics, nodes and frequencies", "why_tests_cant": "an exactness statement over all polynomials", "anchors": ["pygrt/C_extension/src/integral/quadratic.c", "pygrt/C_extension/src/integral/safim.c: simpson", "pygrt/C_extension/src/integral/k_integ.c: interg_quad_cos", "pygrt/C_extension/src/modal/root.c: simpson"]}
{"id": "C27", "title": "Adaptive wavenumber sampling covers the integration range exactly once", "statement": "The accepted intervals of the self-adaptive Filon integration are contiguous, in increasing order, disjoint and cover the whole range; the recursion terminates; the same holds for the adaptive phase-velocity search.", "quantifier": "all kernels, tolerances and ranges", "why_tests_cant": "for every kernel function (an oracle) and every refinement history", "anchors": ["pygrt/C_extension/src/integral/safim.c: grt_sa_filon_integ", "pygrt/C_extension/src/modal/root.c: grt_adaptive_step_secular_roots"]}
{"id": "C28", "title": "Peak-trough averaging is a repeated mean and stays within bounds", "statement": "Reducing the recorded peaks and troughs returns the binomially weighted mean of the recorded values, hence lies between their minimum and maximum; at most 36 extrema are recorded; the search terminates.", "quantifier": "all recorded sequences, all kernels", "why_tests_cant": "for every integrand history", "anchors": ["pygrt/C_extension/src/integral/ptam.c: cplx_shrink, GRT_PTA_method"]}
{"id": "C29", "title": "A located peak or trough lies between the neighbouring samples and interpolates them", "statement": "When three samples form a peak or trough, the reported abscissa lies within the three sample abscissae and the reported value is at least as extreme as the middle sample.", "quantifier": "all triples of samples", "why_tests_cant": "includes the degenerate parabola cases", "anchors": ["pygrt/C_extension/src/integral/ptam.c: peak_or_trough"]}
{"id": "C30", "title": "Discrete wavenumber summation visits every wavenumber once and stops as documented", "statement": "The summation evaluates the kernel at k = dk, 2 dk, ... once each in increasing order up to the stopping wavenumber; the result of a distance is the sum of its terms up to the first one with which every integral has converged, or up to kmax; with convergence checking disabled it always runs to kmax.", "quantifier": "all kernels and parameters", "why_tests_cant": "the stopping rule depends on all earlier terms of all integrals and distances", "anchors": ["pygrt/C_extension/src/integral/dwm.c: grt_discrete_integ"]}
{"id": "C31", "title": "Static Green's functions for duplicated distances are restored to the right receivers", "statement": "Every receiver obtains the Green's function computed for a distance within 1e-8 km of its own, whatever the order and multiplicity of the requested distances.", "quantifier": "all lists of distances", "why_tests_cant": "an in-place reverse scatter whose safety depends on an ordering invariant", "anchors": ["pygrt/C_extension/src/static/static_grn.c: grt_integ_static_grn"]}
{"id": "C32", "title": "Static synthesis interpolates between the two bracketing distances", "statement": "For every receiver distance within the library range the two library entries used bracket the distance, indices are within bounds and the weights are in [0,1] and sum to one; at library distances the library value is used.", "quantifier": "all libraries (uniform or not) and all receiver positions", "why_tests_cant": "the uniform-grid shortcut must be valid for every library it is applied to", "anchors": ["pygrt/C_extension/src/static/grt_static_syn.c: static_syn_from_gf", "pygrt/C_extension/src/static/stgrnlib.c: fill_rs_meta"]}
{"id": "C33", "title": "Depth interpolation weights form a partition of unity", "statement": "The corner weights used for source and receiver depth are non-negative, add up to one, involve only valid library entries, reproduce library depths exactly and are exact for bilinear fields.", "quantifier": "all depth axes and query depths", "why_tests_cant": "all axes and queries", "anchors": ["pygrt/C_extension/src/static/grt_static_syn.c: depth_corners"]}
{"id": "C34", "title": "Finite-fault results do not depend on thread scheduling", "statement": "The synthesized field is the sum of the sub-fault contributions whatever the assignment of sub-faults to threads and the order of the merges.", "quantifier": "all schedules and thread counts", "why_tests_cant": "all interleavings of critical sections", "anchors": ["pygrt/C_extension/src/static/grt_static_syn.c: static_syn_from_gf_FF"]}
{"id": "C35", "title": "Spectra do not depend on thread scheduling", "statement": "Each frequency's result is a function of the inputs and that frequency only and is written to its own slot exactly once, for any assignment of frequencies to threads and any order.", "quantifier": "all schedules", "why_tests_cant": "all interleavings", "anchors": ["pygrt/C_extension/src/dynamic/grn.c: grt_integ_grn_spec", "pygrt/C_extension/src/modal/root.c: grt_get_secular_roots"]}
{"id": "C36", "title": "Requested frequency band is the band computed", "statement": "The computed frequency indices are within the spectrum, ordered, and are exactly the grid frequencies inside the requested band whenever that band contains one.", "quantifier": "all nt, dt and band limits", "why_tests_cant": "all combinations", "anchors": ["pygrt/C_extension/src/dynamic/grt_greenfn.c: prepare_grn_spec"]}
{"id": "C37", "title": "Automatic integration step keeps spurious sources out of the time window", "statement": "The automatic periodicity length is large enough that waves from the periodic image sources arrive after the end of the time window at every distance.", "quantifier": "all models, distances, depths, window and delay settings", "why_tests_cant": "all parameter combinations", "anchors": ["pygrt/C_extension/src/dynamic/grt_greenfn.c: prepare_grn_spec, compute_greenfn_one"]}
{"id": "C38", "title": "Integration and differentiation of traces", "statement": "The time integration equals the running trapezoidal sum starting from zero, is linear, and the differentiation of a quadratic trace is exact in the interior and of a linear trace everywhere.", "quantifier": "all traces of at least two samples (one sample for the integration)", "why_tests_cant": "all lengths and values", "anchors": ["pygrt/C_extension/src/dynamic/signals.c: grt_trap_integral, grt_differential"]}
{"id": "C39", "title": "Convolution indexes are always within the arrays", "statement": "Convolving a trace with any accepted time function only reads samples that exist, linear and circular; the result is the mathematical (linear or circular) convolution.", "quantifier": "all traces and all time functions accepted by the command line", "why_tests_cant": "the failing lengths are unusual", "anchors": ["pygrt/C_extension/src/dynamic/signals.c: grt_oaconvolve", "pygrt/C_extension/src/dynamic/grt_syn.c: syn_postprocess_trace"]}
{"id": "C40", "title": "Damped circular convolution attenuates wrap-around", "statement": "Multiplying by a decaying exponential before the circular convolution and undoing it afterwards gives the linear convolution plus the wrapped part multiplied by exp(-wI*T).", "quantifier": "all traces, time functions and damping", "why_tests_cant": "all inputs", "anchors": ["pygrt/C_extension/src/dynamic/grt_syn.c: syn_postprocess_trace"]}
{"id": "C41", "title": "Built-in time functions start at zero and return to zero", "statement": "The parabolic, trapezoidal and Ricker time functions have finite samples, the parabola and trapezoid start and end at zero and are non-negative.", "quantifier": "all parameter values accepted", "why_tests_cant": "rounding of durations to samples", "anchors": ["pygrt/C_extension/src/dynamic/signals.c: grt_get_parabola_wave, grt_get_trap_wave, grt_get_ricker_wave"]}
{"id": "C42", "title": "Green's function directory resolution is unambiguous", "statement": "Synthesis picks a Green's function directory only if exactly one directory matches the requested depths and distance; otherwise it reports an error.", "quantifier": "all directory contents and requests", "why_tests_cant": "all directory listings", "anchors": ["pygrt/C_extension/src/dynamic/grt_syn.c: resolve_syn_grn_path"]}
{"id": "C43", "title": "Output directories of different models are not mixed", "statement": "Writing Green's functions is allowed only when every existing entry is the command log, the model copy, or a sub-directory named model_depth_depth_distance for the same model; names produced by the program are always accepted.", "quantifier": "all directory contents and model names (including names with underscores)", "why_tests_cant": "all names", "anchors": ["pygrt/C_extension/src/common/util.c: grt_is_greenfn_subdir_name, grt_check_greenfn_output_dir"]}
{"id": "C44", "title": "String utilities follow their documentation", "statement": "Splitting yields exactly the maximal non-empty delimiter-free pieces in order; the column count equals the number of pieces; the base name is the part after the last slash; the character-set test is exact; comment detection ignores leading blanks.", "quantifier": "all strings and delimiter sets", "why_tests_cant": "all strings", "anchors": ["pygrt/C_extension/src/common/util.c: grt_string_split, grt_string_ncols, grt_get_basename, grt_string_composed_of, grt_is_comment_or_empty"]}
{"id": "C45", "title": "Whitespace trimming removes blanks at both ends", "statement": "After trimming, the caller's string has neither leading nor trailing blanks.", "quantifier": "all strings", "why_tests_cant": "the function mutates its argument through a local pointer", "anchors": ["pygrt/C_extension/src/common/util.c: grt_trim_whitespace"]}
{"id": "C46", "title": "Line reading preserves the bytes and never overruns its buffer", "statement": "Reading a stream line by line returns lines whose concatenation is the stream, every write is within the buffer, and the end of the stream is reported exactly when nothing is left.", "quantifier": "all byte streams and initial buffers", "why_tests_cant": "all stream lengths around every buffer doubling", "anchors": ["pygrt/C_extension/src/common/util.c: grt_getline, grt_string_from_file"]}
{"id": "C47", "title": "Accepted numeric lists are strictly ascending and non-negative", "statement": "A list option that is accepted yields values that are non-negative and strictly ascending, and a range a1/a2/d yields a1+i*d for all i with a1+i*d <= a2.", "quantifier": "all option strings", "why_tests_cant": "all inputs including NaN", "anchors": ["pygrt/C_extension/src/common/util.c: grt_parse_real_array"]}
{"id": "C48", "title": "Kernel statistics files can be read back", "statement": "Reading a kernel record that was written returns the wavenumber and the same kernel values in the same slots.", "quantifier": "all kernel values", "why_tests_cant": "a codec round trip over all values", "anchors": ["pygrt/C_extension/src/integral/iostats.c"]}
{"id": "C49", "title": "Dispersion roots are ordered, separated and paired with their layer", "statement": "At every frequency the stored phase velocities are strictly increasing and more than the root gap apart, none coincides with a layer velocity, at most the requested number of modes is kept, and each root stays paired with the layer it was found in.", "quantifier": "all search histories", "why_tests_cant": "an invariant over all root discovery orders", "anchors": ["pygrt/C_extension/src/modal/root.c: grt_adaptive_step_secular_roots, grt_fixed_step_secular_roots"]}
{"id": "C50", "title": "Golden-section refinement stays in the bracket", "statement": "The refined root lies inside the bracket handed to it, the bracket shrinks by the golden ratio each step and the loop terminates.", "quantifier": "all secular functions and brackets", "why_tests_cant": "for every function (oracle)", "anchors": ["pygrt/C_extension/src/modal/root.c: grt_goldensection"]}
{"id": "C51", "title": "Love-wave search refuses a fully liquid model", "statement": "Searching Love waves in a model without any solid layer reports an error instead of reading outside the model arrays.", "quantifier": "all models", "why_tests_cant": "needs an all-liquid model", "anchors": ["pygrt/C_extension/src/modal/root.c: get_secular_roots_single_freq (lines 742-752)"]}
{"id": "C52", "title": "Generalized matrices at all layers agree with those used by the secular function", "statement": "The per-layer up- and down-looking matrices used for eigenfunctions equal those the secular function uses for the same reference layer.", "quantifier": "all models without solid-liquid change at the layer, all phase velocities", "why_tests_cant": "two separately written loops", "anchors": ["pygrt/C_extension/src/modal/secular.c: grt_GRT_matrix_allLayer_Rayl, grt_GRT_matrix_Rayl, grt_GRT_matrix_allLayer_Love, grt_GRT_matrix_Love"]}
{"id": "C53", "title": "Selecting modes and frequencies keeps data aligned", "statement": "After selecting modes and frequencies each kept frequency carries exactly the velocities of the selected modes that exist there, in order.", "quantifier": "all dispersion tables and selections", "why_tests_cant": "all tables, including tables that were themselves selections", "anchors": ["pygrt/C_extension/src/modal/modal_def.c: grt_filter_eigenfn_info"]}
{"id": "C54", "title": "Group-velocity sensitivity only uses existing modes", "statement": "Differencing phase-velocity kernels in frequency only reads modes that exist at the next frequency.", "quantifier": "all dispersion tables", "why_tests_cant": "needs a mode count that decreases with frequency", "anchors": ["pygrt/C_extension/src/modal/modal_util.c: grt_group_sensitivity"]}
{"id": "C55", "title": "Grid receivers are enumerated consistently", "statement": "The flat index of a grid receiver and its (north, east) coordinates determine each other, and strain/stress modules flatten the grid in the same order as synthesis.", "quantifier": "all grid sizes", "why_tests_cant": "all sizes", "anchors": ["pygrt/C_extension/src/static/recv_points.c: grt_recv_points_from_grid", "pygrt/C_extension/src/static/grt_static_stress.c"]}
{"id": "C56", "title": "The computed layer states are those of the medium and their waves solve the equations of motion", "statement": "For every accepted model file the per-layer moduli, velocity ratios and vertical slownesses computed for a frequency and wavenumber satisfy the dispersion relations of that layer's material (with attenuation, elastic, static, solid or liquid), so that the P, SV and SH waves built from them solve the elastodynamic (static: equilibrium) equations.", "quantifier": "all model files, frequencies with non-negative real part, nonzero wavenumbers", "why_tests_cant": "a physical law over a continuum of media and frequencies", "anchors": ["pygrt/C_extension/src/common/model.c: grt_update_mod1d_state_omega, grt_update_mod1d_state_k, grt_read_mod1d_from_file"]}
{"id": "C57", "title": "Receiver conversion gives the displacement and its depth derivative", "statement": "The matrices converting wave amplitudes at the receiver into displacements, and those for the depth derivative, give exactly the displacement and the depth derivative of the wave field made of the incident wave and its reflection, whether the receiver is above or below the source, P-SV and SH, dynamic and static.", "quantifier": "all media, wavenumbers and reflection matrices", "why_tests_cant": "two separately coded formula sets, over a continuum of parameters", "anchors": ["pygrt/C_extension/src/dynamic/layer.c: grt_wave2qwv_REV_PSV, grt_wave2qwv_z_REV_PSV, grt_wave2qwv_REV_SH", "pygrt/C_extension/src/static/static_layer.c: grt_static_wave2qwv_REV_PSV, grt_static_wave2qwv_z_REV_PSV"]}
{"id": "C58", "title": "The wavenumber kernel is the solution of the layered boundary-value problem", "statement": "When the kernel evaluation completes, each row of the result is the displacement (and its depth derivative) at the receiver of the unique wave field in the layered model that has welded or slipping contacts, satisfies the outer boundary conditions, and jumps across the source plane as the point source of that row requires; P-SV and SH, dynamic and static, any number of layers, any source and receiver depth.", "quantifier": "all accepted model files, depths, boundary conditions, frequencies and wavenumbers away from branch points", "why_tests_cant": "a physical law over a continuum of layered models; the code never forms the linear system", "anchors": ["pygrt/C_extension/src/integral/kernel_template.c_", "pygrt/C_extension/src/dynamic/source.c", "pygrt/C_extension/src/static/static_source.c"]}
{"id": "C59", "title": "Source coefficients radiate the field of the unit point source", "statement": "In a homogeneous space the up- and down-going waves with the coded source coefficients have exactly the displacement and traction discontinuities of an explosion, vertical force, horizontal force, 45-degree dip slip, vertical dip slip and strike slip; explosions also in liquids; all also in the static case.", "quantifier": "all media and wavenumbers", "why_tests_cant": "a physical law over a continuum of parameters", "anchors": ["pygrt/C_extension/src/dynamic/source.c: grt_source_coef", "pygrt/C_extension/src/static/static_source.c: grt_static_source_coef"]}
{"id": "C60", "title": "Jobs with different depths or distance never share an output directory", "statement": "Two Green's function jobs of one model that differ in source depth, receiver depth or distance write to different sub-directories, so no result is overwritten.", "quantifier": "all accepted depth and distance lists", "why_tests_cant": "collisions depend on digits of arbitrary inputs", "anchors": ["pygrt/C_extension/src/dynamic/grt_greenfn.c: greenfn_main, compute_greenfn_one", "pygrt/C_extension/src/modal/grt_modsum.c"]}
{"id": "C61", "title": "Fault lines are turned into sources carrying the stated slip", "statement": "For every accepted line of a fault file (all five kinds: right-lateral with reverse slip, with opening, opening with reverse slip, point double couple, point opening with inflation, in Coulomb or rake format) the point sources synthesized for a sub-fault carry together exactly the moment tensor of the stated slip components over the sub-fault area, and the default sub-fault size is the smallest spacing of the library in distance and source depth.", "quantifier": "all fault lines, sub-fault sizes and libraries", "why_tests_cant": "five source decompositions over continuous angles and slips", "anchors": ["pygrt/C_extension/src/static/grt_static_syn.c: static_syn_from_gf_FF", "pygrt/C_extension/src/common/finite_fault.c", "pygrt/C_extension/src/static/stgrnlib.c: grt_stgrnlib_default_subfault_size"]}
{"id": "C62", "title": "Strain from static synthesis does not depend on the chosen output coordinates", "statement": "The strain computed from a static synthesis written in north-east components is the rotation of the strain computed from the synthesis written in radial-transverse components, for every receiver within the library.", "quantifier": "all libraries, sources and receiver positions", "why_tests_cant": "interpolation in distance and rotation of gradients are performed in different orders for the two outputs", "anchors": ["pygrt/C_extension/src/static/grt_static_syn.c: static_syn_from_gf_one, static_syn_from_gf", "pygrt/C_extension/src/static/grt_static_strain.c"]}
{"id": "C63", "title": "Post-processing of synthetic traces is linear and treats each trace alone", "statement": "Scaling, convolving, integrating and differentiating a set of synthetic traces gives for each trace what processing it alone gives; the time function shared by all traces is unchanged by each; and the processing of a linear combination of traces is the combination of the processed traces.", "quantifier": "all trace sets, time functions, damping and numbers of integrations and differentiations", "why_tests_cant": "state left behind in the shared time function by one trace shows only for particular option combinations", "anchors": ["pygrt/C_extension/src/dynamic/grt_syn.c: syn_postprocess_trace, syn_main"]}
{"id": "C64", "title": "Written Green's function traces are the inverse transform of the spectrum at absolute times", "statement": "Each sample of a written Green's function trace is the value of the band-limited signal with the computed spectrum at the absolute time of that sample, undamped; two begin times give the same values at the same absolute time; and zero-padding to a finer sampling keeps the coarse samples.", "quantifier": "all spectra, begin times, dampings, trace lengths and upsampling factors", "why_tests_cant": "phase shift, damping and padding interact over a continuum of times and frequencies", "anchors": ["pygrt/C_extension/src/dynamic/grnspec.c: write_one_to_sac", "pygrt/C_extension/src/common/myfftw.c", "pygrt/C_extension/src/dynamic/grt_greenfn.c"]}
{"id": "C65", "title": "Terms of the wavenumber integrals, their radial derivative and their value at zero distance are those of the Bessel integrals", "statement": "Each term of the wavenumber summation is the kernel times the Bessel function of its order, the term computed for spatial derivatives is exactly its derivative with respect to distance, and the term at zero distance is the limit of both.", "quantifier": "all kernels, wavenumbers, distances, rows and integrals", "why_tests_cant": "an identity over a continuum of wavenumbers and distances, with a limit at zero", "anchors": ["pygrt/C_extension/src/integral/k_integ.c: grt_int_Pk", "pygrt/C_extension/src/common/bessel.c"]}
{"id": "C66", "title": "The direct convergence correction changes nothing but the truncation error", "statement": "Subtracting the asymptotic kernel inside the sum and adding the analytical integral outside leaves the result unchanged up to the difference between the sampled and the analytical integral of the Bessel functions, for displacement, depth derivative and radial derivative, whichever integration method is chosen.", "quantifier": "all kernels, distances and parameters", "why_tests_cant": "needs an identity between separately coded formulas over a continuum of parameters", "anchors": ["pygrt/C_extension/src/integral/k_integ.c: grt_int_dcm_revision", "pygrt/C_extension/src/integral/dcm.c", "pygrt/C_extension/src/integral/integ_process.c"]}
{"id": "C67", "title": "The fixed-interval Filon integration is exact for piecewise linear kernels", "statement": "If the kernel is linear between the sampled wavenumbers, the fixed-interval Filon stage returns exactly the integral of the kernel times the asymptotic Bessel function between its first and last sample, and it samples the whole range up to kmax.", "quantifier": "all piecewise linear kernels, distances and intervals", "why_tests_cant": "exactness over a continuum of kernels and distances", "anchors": ["pygrt/C_extension/src/integral/fim.c: grt_linear_filon_integ", "pygrt/C_extension/src/integral/k_integ.c: grt_int_Pk_filon"]}
{"id": "C68", "title": "The integration stages join into one result", "statement": "The result for a distance is the sum up to the cut (or kmax), plus the scaled Filon integral behind the last summed wavenumber if chosen, plus the analytical correction if chosen, with nothing counted twice.", "quantifier": "all kernels, distances and method choices", "why_tests_cant": "the combination of stages multiplies the cases", "anchors": ["pygrt/C_extension/src/integral/integ_process.c: grt_wavenumber_integral"]}
{"id": "C69", "title": "Predicted phase velocities cover the requested range", "statement": "The initial phase velocities rise strictly from the lower to the upper limit, between neighbours the estimated number of roots changes by at most one half (or is zero), and inserted estimates of interface-wave velocities keep the list sorted and inside the requested range.", "quantifier": "all elastic models, frequencies and ranges", "why_tests_cant": "termination of a data-dependent halving for every model", "anchors": ["pygrt/C_extension/src/modal/root.c: get_secular_roots_single_freq, grt_get_approx_nroots"]}
{"id": "C70", "title": "Peak-trough averages of one distance depend on nothing else requested", "statement": "The peak-trough average computed for a distance does not depend on which other distances are computed in the same run, asking for spatial derivatives does not change the displacement averages, and the recorded peaks and troughs pair each place with the value of the same integral.", "quantifier": "all kernels, sets of distances and options", "why_tests_cant": "non-interference over every set of distances and every state of the shared work arrays", "anchors": ["pygrt/C_extension/src/integral/ptam.c: grt_PTA_method", "pygrt/C_extension/src/integral/iostats.c: grt_write_stats_ptam"]}
{"id": "C71", "title": "The upper wavenumber is chosen by a search that ends", "statement": "The upper limit of the wavenumber integration lies between the first wavenumber and the reference; it is the first examined wavenumber at which three samples in a row of every kernel have decayed (or, for equal depths, settled), never below the lower limit, and the reference if there is none; the search evaluates at most 81 kernels in the usual range.", "quantifier": "all kernels, limits and depths", "why_tests_cant": "termination and the stopping rule depend on arbitrary kernels", "anchors": ["pygrt/C_extension/src/integral/kmax.c: grt_predict_kmax"]}
{"id": "C72", "title": "Plotted integrands are those that were summed", "statement": "For every source and integral the integrand and the cumulative sum plotted in Python from a statistics file are those of the C program: the cumulative sum ends at the value the summation returned; integrals that do not exist are refused.", "quantifier": "all kernels, wavenumbers, distances, sources and integrals", "why_tests_cant": "agreement of two implementations over a continuum", "anchors": ["pygrt/utils.py: _get_stats_Fname, plot_statsdata", "pygrt/C_extension/src/integral/k_integ.c: grt_int_Pk"]}
{"id": "C73", "title": "Zeros of the secular functions are the normal modes", "statement": "For a model read without source and receiver the Rayleigh (Love) secular function vanishes at a frequency and phase velocity exactly if the layered stack carries a nonzero P-SV (SH) field without source that satisfies the equations of motion, the contact conditions at all interfaces, the free surface and the radiation condition; hence the zeros do not depend on the chosen reference layer.", "quantifier": "all layered models with liquid and solid layers, frequencies, phase velocities and reference layers", "why_tests_cant": "an equivalence with solvability of a boundary value problem over all models", "anchors": ["pygrt/C_extension/src/modal/secular.c: grt_secular_function_potential_Rayl, grt_secular_function_potential_Love", "pygrt/C_extension/src/dynamic/layer.c: grt_RT_mat3x3_ls_PSV, grt_Q_mat3x3_ls_PSV"]}
{"id": "C74", "title": "Frequency and mode selection options mean what is documented", "statement": "A dispersion table restricted by -F and -N keeps exactly the frequencies and modes that the documentation of the options describes: a single frequency (or period), a range, an equidistant list, one mode or a range of modes.", "quantifier": "all dispersion tables and option values", "why_tests_cant": "a continuum of option values against every table", "anchors": ["pygrt/C_extension/src/tools/grt_disp2asc.c: getopt_from_command", "pygrt/C_extension/src/modal/grt_eigenfn.c: getopt_from_command", "pygrt/C_extension/src/modal/modal_def.c: grt_filter_eigenfn_info", "docs/source: explain_-Ffreqs.rst_"]}
{"id": "C75", "title": "Energy integrals of modes are the depth integrals of the eigenfunction", "statement": "The four energy integrals reported for a Rayleigh or Love mode equal the integrals over all depths, half-space included, of rho(q^2+w^2)/2, ((lambda+2mu)q^2+mu w^2)/2, lambda q w' - mu w q' and (mu q'^2+(lambda+2mu)w'^2)/2 of the displacement whose wave amplitudes the arrays hold, whatever the subdivision into sublayers; the sublayers made for -K are a subdivision of the model not coarser than requested; and for a normal mode the check value written beside the integrals is exactly zero.", "quantifier": "all layer stacks (solid, liquid, mixed), frequencies, wavenumbers, amplitudes, subdivisions", "why_tests_cant": "The integrals are closed forms in complex exponentials summed over sublayers; a test compares numbers for a few models and cannot tell a wrong factor that cancels or vanishes there.", "anchors": ["pygrt/C_extension/src/modal/energy.c:333-435", "pygrt/C_extension/src/modal/energy.c:439-542", "pygrt/C_extension/src/modal/grt_eigenfn.c:567-593", "pygrt/C_extension/src/modal/modal_util.c:457-462"]}
{"id": "C76", "title": "Reported group velocity is the slope of the dispersion curve", "statement": "The group velocity that the program computes from the energy integrals of a single mode equals d omega / d k along the branch of the dispersion curve through that mode, for Rayleigh and Love waves, in every stack of solid and liquid layers; no neighbouring frequency is needed and no differencing error is made.", "quantifier": "all media, branches, wavenumbers, subdivisions into sublayers", "why_tests_cant": "A test can only difference two computed phase velocities of sample models; agreement there does not exclude a formula that is wrong for other models or modes.", "anchors": ["pygrt/C_extension/src/modal/grt_eigenfn.c:428-446", "pygrt/C_extension/src/modal/energy.c:333-435", "pygrt/C_extension/src/modal/energy.c:439-542"]}
{"id": "C77", "title": "Phase-velocity sensitivities are derivatives of the phase velocity", "statement": "For every mode, the entries of the sensitivity table of phase velocity summed over the sublayers of a layer equal the derivative of the phase velocity at fixed frequency with respect to the P velocity, S velocity or density of that layer, for Rayleigh and Love waves in every stack of solid and liquid layers; sublayering does not change the sums.", "quantifier": "all media, layers, modes, frequencies, subdivisions into sublayers (lambda <> 0 for the velocities of Rayleigh rows)", "why_tests_cant": "A test can difference phase velocities of perturbed sample models; it cannot show that the closed-form rows are exact for all models and modes, including liquid layers and the half-space.", "anchors": ["pygrt/C_extension/src/modal/energy.c:268-329", "pygrt/C_extension/src/modal/energy.c:333-435", "pygrt/C_extension/src/modal/energy.c:439-542"]}
{"id": "C78", "title": "Eigenfunctions are the field of the mode", "statement": "For every model and every root of the secular function found at a reference layer, the amplitudes propagated from that layer through all layers belong to one non-zero field that satisfies the free surface, every interface and the radiation condition in the half-space; the eigenfunctions printed at any depth are the displacements and tractions of that field in the layer containing the depth, and the energy integrals computed from the same amplitudes balance.", "quantifier": "all model files, frequencies, roots, reference layers above the half-space, sampled depths; no inverse on the way fails", "why_tests_cant": "A test compares a few eigenfunctions with reference curves; it cannot show for all models that propagation up and down from any reference layer, with solid, liquid and mixed interfaces, gives one solution of the boundary value problem.", "anchors": ["pygrt/C_extension/src/modal/eigenfn.c:35-293", "pygrt/C_extension/src/modal/eigenfn.c:314-438", "pygrt/C_extension/src/modal/secular.c:329-528", "pygrt/C_extension/src/modal/grt_eigenfn.c:558-563"]}
{"id": "C79", "title": "Okada point sources solve the elastic half-space", "statement": "The static displacements and their spatial derivatives that the okada module prints for an explosion, a shear source, or a point source of a Coulomb fault file are those of a homogeneous elastic half-space: the derivatives are the derivatives of the displacements, the stress is in equilibrium, the free surface has no traction, and the singularity is that of the moment tensor given by strike, dip, rake and moment (or potency) in an unbounded medium; a receiver at the source is answered by the point 10 cm beside it, and ZRT output is ZNE output rotated.", "quantifier": "all half-spaces with 0 < Vs < Vp, source depths, strikes, dips, rakes, moments and receivers", "why_tests_cant": "Tests compare with a few reference tables; equilibrium, the free surface and the identity of the source hold over a continuum of media, angles and receivers and rest on thousands of terms.", "anchors": ["pygrt/C_extension/src/okada/okada.c:149-632", "pygrt/C_extension/src/okada/grt_okada.c:363-577"]}
{"id": "C80", "title": "Okada tensile point sources have the strength of static_syn and Coulomb files", "statement": "A tensile point source given to the okada module by strike, dip and moment or potency produces the deformation of the crack of that moment or potency, as static_syn and Kode 500 of Coulomb files do.", "quantifier": "all half-spaces, strikes, dips, strengths and receivers", "why_tests_cant": "The tests use media with lambda close to mu, where the wrong factor is one.", "anchors": ["pygrt/C_extension/src/okada/grt_okada.c:399-468", "pygrt/C_extension/src/okada/grt_okada.c:483-577"]}
{"id": "C81", "title": "Surface-wave Green's functions are pole contributions of the wavenumber integral", "statement": "What modal summation adds to a Green's function for one Rayleigh or Love mode, for each of the source types (explosion, single forces, double couples) and each component, is the leading far-field term of the residue of the wavenumber integral at the wavenumber of the mode, for displacements and their derivatives by depth and distance.", "quantifier": "all layered models, boundary conditions, modes, frequencies, source and receiver depths, distances and source types", "why_tests_cant": "Tests can compare modal and full synthetics only approximately at a few distances, where other modes and body waves hide a wrong sign, phase or row.", "anchors": ["pygrt/C_extension/src/modal/modgrn.c:19-240", "pygrt/C_extension/src/modal/grt_modsum.c:463-468"]}
{"id": "C82", "title": "Modal summation writes P and S arrivals and begin times as greenfn does", "statement": "The P and S arrival times in the headers of the seismograms of modal summation are the travel times from the source depth to the receiver depth, and with -Ep the traces begin at the P arrival plus the given delay.", "quantifier": "all layered models, source and receiver depths and distances", "why_tests_cant": "The times are header fields which no waveform comparison reads; they are plausible at large distances in models where source and receiver are in layers far apart.", "anchors": ["pygrt/C_extension/src/modal/grt_modsum.c:463-468", "pygrt/C_extension/src/modal/grt_modsum.c:566-581", "pygrt/C_extension/src/common/travt.c"]}
{"id": "C83", "title": "A rectangular fault deforms the half-space as the sum of point sources over its area", "statement": "For a rectangular fault of a Coulomb file (Kode 100, 200, 300) the displacements and the displacement derivatives printed by the Okada module at a receiver off the plane of the fault are the integrals, over the rectangle from the given top edge down to the given depth, of the static deformation of the homogeneous half-space by point sources with the slip of the file; several faults add up; a receiver on an edge of the fault stops the program and every other receiver is answered.", "quantifier": "all media, faults (strike, dip including vertical, size, slip components) and receivers at and below the surface, off the plane of the fault and of its mirror image", "why_tests_cant": "The closed form has hundreds of terms with separate branches for vertical and inclined faults; tests compare with published tables at a few points of one geometry.", "anchors": ["pygrt/C_extension/src/okada/okada.c:646-1187", "pygrt/C_extension/src/okada/grt_okada.c:479-583", "pygrt/C_extension/src/common/finite_fault.c"]}
{"id": "C84", "title": "The Rayleigh pulse of the Lamb solution arrives at the Rayleigh-wave time with the residue as amplitude", "statement": "For every Poisson's ratio in (0, 0.5) the solution of Lamb's problem has its Rayleigh pulse at distance over Rayleigh-wave velocity, where that velocity is the only root of the Rayleigh equation; the pulse has the amplitude of the residue at that simple pole; and the cubic roots used for the body-wave terms are exactly the roots of the rationalised Rayleigh equation.", "quantifier": "all Poisson's ratios in (0, 0.5), azimuths and times; for the cubic solver all real coefficients", "why_tests_cant": "The solver branches on the discriminant, and a root in the wrong slot gives plausible seismograms; tests compare one Poisson's ratio with stored output.", "anchors": ["pygrt/C_extension/src/lamb/lamb_util.c:20-72", "pygrt/C_extension/src/lamb/lamb1.c:795-835"]}
{"id": "C85", "title": "The Lamb solution exists for all times, is causal and turns with the azimuth", "statement": "For every Poisson's ratio in (0, 0.5), every series of times and every azimuth the Lamb module returns a solution; it is zero before the P arrival; the solution at an azimuth is the one at azimuth 0 turned about the vertical; and the coefficients of the body-wave terms are the simple-fraction coefficients of numerator over Rayleigh function.", "quantifier": "all Poisson's ratios, time series, azimuths, and numerators", "why_tests_cant": "The arrivals are singular points that regular time grids hit only by accident, and the double root needs one particular Poisson's ratio; tests use one grid.", "anchors": ["pygrt/C_extension/src/lamb/lamb1.c:204-284", "pygrt/C_extension/src/lamb/lamb1.c:618-866", "pygrt/C_extension/src/lamb/elliptic.c:23-101", "pygrt/C_extension/src/lamb/grt_lamb1.c:97-120"]}
{"id": "C86", "title": "The integrands of the Lamb solution are plane waves excited by a surface force", "statement": "For every Poisson's ratio, azimuth, time, component and slowness, the tabulated numerators of the P, S and S-P terms over the Rayleigh function are the P and S plane waves whose traction on the free surface balances a unit force, with force and receiver exchanged, and exchanging them does not change the displacement at the surface.", "quantifier": "all Poisson's ratios in (0, 0.5), azimuths, times, components and complex slownesses where the Rayleigh function is not zero", "why_tests_cant": "The tables have more than a hundred polynomial entries; a wrong sign or factor in one of them changes one component slightly and a stored seismogram would be stored wrong.", "anchors": ["pygrt/C_extension/src/lamb/lamb1.c:49-202", "pygrt/C_extension/src/lamb/lamb1.c:235-284"]}
{"id": "C87", "title": "The closed forms of the Lamb solution are the integrals they stand for", "statement": "For every time after the respective arrival and every pole, the values that the Lamb module uses for its basis integrals are the integrals of x/(x^2-c), 1/(x^2-c), 1, x, x^2 and x^3 with the weights of the P, S and S-P terms.", "quantifier": "all Poisson's ratios in (0, 0.5), times and poles", "why_tests_cant": "Logarithm, arc tangent and branch of the root are chosen by the position of the pole; tests see one Poisson's ratio.", "anchors": ["pygrt/C_extension/src/lamb/lamb1.c:286-616"]}
{"id": "C88", "title": "A static Green's function library holds for each depth pair what that pair alone would give", "statement": "A library computed for several source and receiver depths, saved and loaded again has the requested axes, the model rows and the media at its depths, and for every depth pair, grid point and channel the value of the integration for that pair alone, with Z pointing up; it is written exactly if the axes are non-empty and ascending and the model can be used for every pair.", "quantifier": "all model files, lists of non-negative depths, grids, integration parameters and behaviours of the integration", "why_tests_cant": "State that leaks from one depth pair to the next (the integration changes its parameters) and exchanged axes of the 4-D variables show only for particular combinations of depths and grid sizes.", "anchors": ["pygrt/C_extension/src/static/stgrnlib.c:119-168", "pygrt/C_extension/src/static/stgrnlib.c:250-510", "pygrt/C_extension/src/static/grt_static_greenfn.c:608-731"]}
{"id": "C89", "title": "A receiver file gives its points, in order, or is refused", "statement": "A receiver file is accepted exactly if it has at least one data line, all data lines have three, or all have six, numeric columns separated by blanks, and no depth is negative; the points then are those of the lines in order; blank lines, comments, blanks at the ends and DOS line ends do not matter; any other file ends the program with a message and never with an access outside of the arrays.", "quantifier": "all files without NUL bytes and all behaviours of strtod that stay inside of the string", "why_tests_cant": "The file is read twice with a shared growing buffer; the arrays are sized by the first pass and filled by the second, and malformed lines come in endless variety.", "anchors": ["pygrt/C_extension/src/static/recv_points.c:22-44", "pygrt/C_extension/src/static/recv_points.c:79-181", "pygrt/C_extension/src/common/util.c:317-338", "pygrt/C_extension/src/common/util.c:386-439"]}
{"id": "C90", "title": "Synthesized derivatives are the gradient of the synthesized displacement", "statement": "For every source type and mechanism, azimuth and distance (including zero), if the derivative Green's functions hold the z- and r-derivatives of the Green's functions, the derivative traces rotated to ZNE are the true spatial gradient, per cm, of the displacement field of the source, and those in ZRT are the derivatives of the cylindrical components; the displacement traces are that field; a Green's function that the source needs and that is missing ends the program with a message.", "quantifier": "all Green's functions, source types, mechanisms, azimuths, depths; distance zero and all distances above 1e-8 km", "why_tests_cant": "A derivative with respect to azimuth of the whole field cannot be read off a single run, numerical differences only bound the error, and the case r = 0 replaces 1/r terms by limits whose correctness depends on differentiability of the field.", "anchors": ["pygrt/C_extension/src/dynamic/grt_syn.c:764-901", "pygrt/C_extension/src/common/radiation.c:16-141", "pygrt/C_extension/src/common/coord.c:48-113", "pygrt/C_extension/src/static/grt_static_syn.c:593-661"]}
{"id": "C91", "title": "Carlson's R_F and R_J obey their defining symmetries and series", "statement": "R_F as computed for the Lamb module is Carlson's series in the elementary symmetric functions of the deviations after duplication; the duplication ends by its tolerance for non-negative arguments; R_F is symmetric, homogeneous of degree -1/2, and exact at equal arguments; R_J is homogeneous of degree -3/2, exact at equal arguments and should be symmetric in its first three arguments and be Carlson's series (refuted: zn is used for pn and a coefficient is wrong).", "quantifier": "all complex arguments for which the computation does not divide by zero; all non-negative real arguments of which at most one is zero for termination", "why_tests_cant": "The error of the wrong term is of the order of the squared tolerance, below the tolerance any plausible test of the Lamb module uses, and a single reference value cannot show a symmetry or that a loop ends.", "anchors": ["pygrt/C_extension/src/lamb/elliptic.c:103-221"]}
{"id": "C92", "title": "Python trace functions agree with grt syn", "statement": "stream_convolve, stream_integral and stream_diff give the traces that grt syn gives with the corresponding time function, -I and -J: the convolution is the linear one plus the wrap-around damped by exp(-wI T) when the header holds the imaginary frequency, circular otherwise; the integral is the running trapezoidal rule; the derivative is the central difference, one-sided at the ends. Traces of a stream do not influence each other, and inplace=False leaves the input as it was.", "quantifier": "all traces, signals, sampling intervals and imaginary frequencies; signals longer than the trace are refuted when user0 is set", "why_tests_cant": "Two implementations of padding, damping and circular indexing have to agree sample by sample for all lengths of signal and trace; tests compare a few waveforms whose wrapped part is near zero.", "anchors": ["pygrt/utils.py:388-452", "pygrt/C_extension/src/dynamic/signals.c:135-194", "pygrt/C_extension/src/dynamic/grt_syn.c:923-956"]}
{"id": "C93", "title": "Predicted Rayleigh and Scholte velocities", "statement": "The velocity that the dispersion search predicts for the first solid layer is that of a Rayleigh wave: decaying fields exist in a half-space of this material that satisfy the equations of motion and leave the surface free of traction, at a velocity within 2e-8 vs of the predicted one, and at no other velocity below vs. The velocity predicted for a liquid-solid interface is within 1e-12 vs of that of a Scholte wave, slower than both media, with continuous normal displacement and traction, and there is only one such wave. The sampled velocities of the search contain both predictions.", "quantifier": "all materials with vp/vs >= sqrt 2 (Rayleigh; the bound on the error is not proved), all interfaces with vp >= sqrt 2 vs, vs <= 100 vf and density ratio within [1/100, 1000] (Scholte); refuted for vp/vs in [2.4326, sqrt 6]", "why_tests_cant": "A fixed number of Newton steps from a heuristic start converges for the rocks that tests use (vp/vs near 1.7) and diverges for soft sediments with vp/vs near 2.4; only an argument over all ratios separates the two, and the search usually finds other roots in spite of a wrong prediction.", "anchors": ["pygrt/C_extension/src/modal/root.c:556-650", "pygrt/C_extension/src/modal/root.c:684-722"]}
{"id": "C94", "title": "Distances of grt travt", "statement": "grt travt -R<r1>/<r2>/<dr> computes exactly the distances r1, r1+dr, r1+2dr, ... that do not exceed r2, printed with enough decimals to be these numbers; a step that is not positive and r1 > r2 are errors.", "quantifier": "all r1, r2, dr with up to seven decimals whose digits fit into an int, in real arithmetic; refuted in binary64 and for more digits", "why_tests_cant": "Whether the decimals are recognised depends on the rounding of each product by ten and on the size of the largest distance; a test of a few ranges that happen to be exact does not show the undefined conversion.", "anchors": ["pygrt/C_extension/src/tools/grt_travt.c:139-198"]}
