{"claims": [
  {"property": "C01", "status": "proved", "theorems": ["C01_regular_bijection", "C01_regular_formula"], "note": "Coordinates::init(), index2coordinate, coordinate2index for every positive size."},
  {"property": "C02", "status": "partial", "theorems": ["C02_variable_roundtrip_partial", "C02_variable_roundtrip_refuted"], "note": "The configuration accepts interfaces so close together that a layer gets a negative number of rows; then the round trip fails (refuted). Proved for every request whose layers keep at least one row (good_request)."},
  {"property": "C03", "status": "partial", "theorems": ["C03_lookup_partial", "C03_lookup_refuted"], "note": "Rows between a fine layer and the coarse layer below it belong to no layer: coordinate2index reads behind its tables (refuted). The partial theorem gives the exact behaviour for every coordinate: in a layer, in a gap, outside."},
  {"property": "C04", "status": "partial", "theorems": ["C04_layers_partial", "C04_layers_refuted"], "note": "Proved for requests whose layers keep at least one row; refuted for accepted interfaces that are too close together (layers overlap)."},
  {"property": "C05", "status": "partial", "theorems": ["C05_termination_iff", "C05_termination_refuted"], "note": "Refuted (NX=1, factors 1,3 loops for ever); the iff theorem is the exact characterisation of termination."},
  {"property": "C06", "status": "partial", "theorems": ["C06_reinit_refuted", "C06_reinit_keeps_old_table"], "note": "Refuted: init() appends to its tables; the old table keeps answering for all its indices."},
  {"property": "C07", "status": "proved", "theorems": ["C07_edge_distance"], "note": "edgeDistance on every grid, every coordinate inside."},
  {"property": "C08", "status": "partial", "theorems": ["C08_queries_partial", "C08_getLayer_refuted"], "note": "getLayer names the coarser neighbour for interface rows although they are stored in the finer layer (refuted); the other queries are exact, getLayer is exact off the interfaces."},
  {"property": "C09", "status": "proved", "theorems": ["C09_antisymmetric", "C09_exact", "C09_near"], "note": "setFDCoef with the literals as exact rationals; polynomials of every degree up to the order, every midpoint and spacing. Orders 10 and 12: error at most 3e-12 times the size of the Taylor terms."},
  {"property": "C10", "status": "proved", "theorems": ["C10_Dx_rows", "C10_Dy_rows", "C10_Dz_rows"], "note": "All six derivative rows on every regular grid; the spec forward_row/backward_row gives order, position, columns and absence of duplicates."},
  {"property": "C11", "status": "proved", "theorems": ["C11_consistent"], "note": "Constants give 0; linear fields give the slope (exactly for orders up to 8, relative error at most 3e-16 for 10 and 12, whose coefficients are rounded in the source)."},
  {"property": "C12", "status": "partial", "theorems": ["C12_stencil", "C12_sparse_refuted", "C12_sparse_interior_partial"], "note": "Proved for the stencil implementation. Refuted for the sparse implementation on every grid and order (edge rows); sparse rows whose full stencil fits agree with the stencil matrices."},
  {"property": "C13", "status": "partial", "theorems": ["C13_coarse_edge_refuted", "C13_fitting_rows_partial"], "note": "Refuted: for every factor >= 3 and order >= 4 the row at x = 0 is empty. Rows whose stencil fits are complete."},
  {"property": "C14", "status": "proved", "theorems": ["C14_Dyf_image", "C14_Dyb_image", "C14_extension_odd"], "note": "Regular grids, both the sparse and the hybrid (stencil plus correction) form."},
  {"property": "C15", "status": "proved", "theorems": ["C15_linear"], "note": "All fourteen solvers, any configuration, exact real arithmetic; the hypothesis is on the amounts injected per grid point, which covers sums and multiples of source sets (two Examples)."},
  {"property": "C16", "status": "proved", "theorems": ["C16_causal", "C16_same_step"], "note": "All fourteen solvers. Independence of later samples for every arithmetic (floating point included); a change d of the injected amount at time t changes the co-located reading at t by exactly d (real arithmetic)."},
  {"property": "C17", "status": "proved", "theorems": ["C17_shots_independent", "C17_pml_reset"], "note": "All fourteen solvers, every arithmetic, every sequence of shots with different models, sources and receivers."},
  {"property": "C18", "status": "partial", "theorems": ["C18_cone", "C18_order2_sparse_refuted", "C18_order2_sparse_partial"], "note": "Proved for all fourteen solvers, every arithmetic, stencil matrices of every order and assembled matrices of order >= 4, regular grids. Refuted for order 2 with assembled matrices (edge rows use the two nearest points): there the speed is at most three cells per step."},
  {"property": "C19", "status": "proved", "theorems": ["C19_energy_conserved"], "note": "2-D acoustic program with stencil matrices on every regular grid, exact real arithmetic, free surface off."},
  {"property": "C20", "status": "partial", "theorems": ["C20_reciprocity", "C20_sparse_refuted", "C20_free_surface_refuted"], "note": "Proved for the stencil matrices on every regular grid without free surface, on the recorded samples. Refuted for assembled (sparse) matrices and for the image-method free surface with order 4, by concrete runs."},
  {"property": "C21", "status": "proved", "theorems": ["C21_surface_zero", "C21_others_unaffected", "C21_surface_points"], "note": "2-D and 3-D acoustic (pressure) and also the elastic and viscoelastic solvers (Syy, Ryy)."},
  {"property": "C22", "status": "proved", "theorems": ["C22_one_type", "C22_unchanged", "C22_step"], "note": "Scatter-add of one type, and all types of one time step for all fourteen solvers."},
  {"property": "C23", "status": "proved", "theorems": ["C23_zero_stays_zero", "C23_reversible"], "note": "Zero stays zero: all fourteen solvers, all settings. Reversibility: 2-D acoustic, with or without free surface; with free surface for pressure zero at the surface, which C21 preserves."},
  {"property": "C24", "status": "proved", "theorems": ["C24_coefficients", "C24_profile", "C24_b_decreasing", "C24_b_velocity", "C24_memory_bounded", "C24_position_monotone_refuted"], "note": "Real arithmetic; NPower >= -1, non-negative frequency, velocity and time step, positive spacing. 'Non-increasing with increasing damping' is read as: larger decay rate (or larger VMax) gives smaller b; the reading 'b falls towards the edge' is refuted because the frequency shift decreases there."},
  {"property": "C25", "status": "partial", "theorems": ["C25_coefficients", "C25_untouched", "C25_regular_partial", "C25_thin_refuted"], "note": "Proved for regular and layered grids, all six CPML classes (their init loops have the same text). With a free surface on a model with fewer than 2*BoundaryWidth rows, points near the bottom edge get no coefficient (refuted); exact rule in C25_coefficients, see C61."},
  {"property": "C26", "status": "proved", "theorems": ["C26_factor2D", "C26_factor3D", "C26_range", "C26_monotone", "C26_no_amplification"], "note": "2-D and 3-D classes, regular and layered grids, real arithmetic."},
  {"property": "C27", "status": "partial", "theorems": ["C27_covers_no_surface", "C27_covers_surface_exact", "C27_covers_surface_partial", "C27_thin_refuted", "C27_memory_estimate"], "note": "Without free surface and the memory estimate: fully proved. With free surface: holds for models with at least 2*BoundaryWidth rows, refuted for thinner ones (exact rule proved, see C62)."},
  {"property": "C28", "status": "proved", "theorems": ["C28_sources", "C28_sources_or_error", "C28_sources_wrong_columns", "C28_every_file", "C28_receivers", "C28_receivers_or_error", "C28_receivers_wrong_columns"], "note": "Any byte content. The conversion of the three floating point columns (std::stof) is a parameter; integer columns are modelled including std::stoi's habit of ignoring trailing characters."},
  {"property": "C29", "status": "proved", "theorems": ["C29_unique", "C29_partition", "C29_index"], "note": ""},
  {"property": "C30", "status": "partial", "theorems": ["C30_partial", "C30_or_error", "C30_receivers_partial", "C30_z_refuted"], "note": "x and y always, z when NZ > 2*BoundaryWidth. For thinner windows (2-D) z is not tested and may lie outside: refuted. Exact version: C63."},
  {"property": "C31", "status": "proved", "theorems": ["C31_one_domain", "C31_every_shot_once", "C31_else_error", "C31_encoded", "C31_decomposition"], "note": "LAMA's block distribution is modelled (library code). Without wavefield decomposition; with it the code deliberately makes two passes (C31_decomposition)."},
  {"property": "C32", "status": "partial", "theorems": ["C32_even", "C32_configured_refuted", "C32_other_definitions"], "note": "Proved for the number of domains actually used, min(NumShotDomains, ranks). For the configured number the error clause is refuted (4 domains on 3 ranks). Exact version: C64."},
  {"property": "C33", "status": "partial", "theorems": ["C33_mode1", "C33_mode1_terminates", "C33_mode2_partial", "C33_mode3_partial", "C33_terminates_refuted", "C33_limit_refuted", "C33_mode2_refuted"], "note": "Mode 1 does not terminate for every sequence, mode 2 may repeat a shot (4 shots, 3 domains): refuted. Exact conditions proved, see C65."},
  {"property": "C34", "status": "partial", "theorems": ["C34_mode1_partial", "C34_mode1_terminates", "C34_mode2", "C34_mode3_partial", "C34_mode1_terminates_refuted", "C34_mode3_refuted"], "note": "Exactly one supershot and capacity: all modes. Non-empty: modes 1 and 2 if there are at least as many shots as domains; mode 3 can leave supershots empty (5 shots, 4 domains): refuted. Exact version: C66."},
  {"property": "C35", "status": "partial", "theorems": ["C35_subset_partial", "C35_terminates_partial", "C35_uniform_partial", "C35_terminates_refuted", "C35_spacing_refuted", "C35_diagonal_refuted"], "note": "Ordered subset starting at the first shot: always when it returns. Termination and spacing are refuted in general; proved for ascending lines with gaps up to the increment and for uniform lines. Exact version: C67."},
  {"property": "C36", "status": "proved", "theorems": ["C36_components", "C36_bad_type"], "note": "Receiver types 1..4 (others violate a debug assertion and are undefined behaviour, C36_bad_type)."},
  {"property": "C37", "status": "proved", "theorems": ["C37_local_global", "C37_outside"], "note": ""},
  {"property": "C38", "status": "partial", "theorems": ["C38_partial", "C38_refuted"], "note": "The amplitude is truncated to an integer first: 0.5 gives -1 (refuted). Exact version: C68."},
  {"property": "C39", "status": "partial", "theorems": ["C39_differentiate_integrate_refuted", "C39_backward_difference_refuted", "C39_differentiate_integrate_partial", "C39_backward_difference_partial"], "note": "Refuted: differentiateTraces works in place in ascending order, so from the third sample on the predecessor has already been overwritten. The second sample is restored (partial). What both functions compute exactly: C69."},
  {"property": "C40", "status": "proved", "theorems": ["C40_max_norm", "C40_l2_norm"], "note": "Over the reals; the envelope of type 4 is a parameter and plays no role for types 1 and 2."},
  {"property": "C41", "status": "partial", "theorems": ["C41_agc_mean_refuted", "C70_agc_mean"], "note": "Proved for every trace of at least two samples (C70). For a trace of one sample the window is clipped to length 0 and 0/0 is computed: refuted."},
  {"property": "C42", "status": "partial", "theorems": ["C42_isFinite_refuted", "C71_isFinite", "C71_handler"], "note": "Refuted: the loop stops before the last sample of the last local trace. Exact version: C71."},
  {"property": "C43", "status": "proved", "theorems": ["C43_interpolation", "C43_weights", "C43_identity"], "note": "Exact rational arithmetic; trace length >= 1 (setSeismoDT does not resample empty traces)."},
  {"property": "C44", "status": "partial", "theorems": ["C44_data", "C44_refuted", "C44_single_trace_refuted", "C72_single_trace", "C72_headers"], "note": "readDataSU: every number of traces, samples, writing and reading processes. readSingleDataSU: refuted for every trace length from 65536 on (16-bit header field), proved below (C72). Samples are float bit patterns; the double-to-float conversion of a double build is outside the model."},
  {"property": "C45", "status": "partial", "theorems": ["C45_source_partial", "C45_receiver_refuted", "C73_receiver", "C73_whole_millimetres"], "note": "Sources: proved for every spacing above 1 mm. Receivers: the reader truncates instead of rounding; refuted (spacing 1/3 m). Exact condition: C73."},
  {"property": "C46", "status": "partial", "theorems": ["C46_constructor_partial", "C46_missing_partial", "C46_reread_refuted", "C46_nz_refuted", "C74_history", "C74_listing"], "note": "Holds for the constructor and names other than NZ. Refuted twice: readFromFile does not overwrite by default, and a file that defines DIMENSION as 2D padded to 16 characters forces NZ to 1. The exact rule for every history is C74."},
  {"property": "C47", "status": "partial", "theorems": ["C47_comment_refuted", "C75_comments", "C75_comment_line"], "note": "Refuted: in a line such as 'nx # x=5' the '=' inside the comment is found and a parameter named 'nx # x' is defined. True for every name without '#' (C75)."},
  {"property": "C48", "status": "partial", "theorems": ["C48_order2_partial", "C48_cfl_refuted", "C48_intended_h", "C76_criterion"], "note": "Proved for order 2. Refuted for every other order: the factor h is an integer division (7/6, 149/120, ... all equal 1). Real arithmetic, rank 0 (the other ranks do not check). Exact criterion: C76."},
  {"property": "C49", "status": "partial", "theorems": ["C49_regular", "C49_variable_partial", "C49_gap_refuted", "C49_lists"], "note": "Proved for regular grids (everything else is rejected) and, as 'accepted iff on a grid point', for variable grids with thick layers. Refuted as to rejection: a point in the gap between two layers leads to an out-of-range read instead of an error."},
  {"property": "C50", "status": "proved", "theorems": ["C50_median", "C50_unique"], "note": ""},
  {"property": "C51", "status": "partial", "theorems": ["C51_refuted", "C82_length", "C82_allpass"], "note": "Refuted: the padded length is the smallest power of two not below nt-1, so for nt = 2^k+1 (and nt = 1) the last sample is erased even by the all-pass filter. The exact condition is C82."},
  {"property": "C52", "status": "proved", "theorems": ["C52_unwrapped"], "note": ""},
  {"property": "C53", "status": "proved", "theorems": ["C53_replaced", "C53_ratio"], "note": ""},
  {"property": "C54", "status": "partial", "theorems": ["C54_refuted", "C54_S_after_prepare", "C87_P", "C87_S", "C87_inverse", "C87_averages", "C87_parameters"], "note": "Refuted for the shear modulus: averaging raises the stored modulus itself to at least 1, so after preparation the modulus of a fluid is 1 instead of 0. Everything else is never stale (C87)."},
  {"property": "C55", "status": "partial", "theorems": ["C55_regular", "C55_layered", "C55_refuted"], "note": "Proved for every regular grid and for layered grids whose inner layers are at least as high as the spacing of the layer above. Refuted in general: for a layered grid with a thin layer (interfaces 9 and 10 with spacings 3, 1, 3) building the matrix reads past the end of the layer list."},
  {"property": "C56", "status": "proved", "theorems": ["C56_velocity", "C56_modulus", "C56_values"], "note": "Real arithmetic."},
  {"property": "C57", "status": "proved", "theorems": ["C57_window", "C57_outside"], "note": "A window leaving the big model raises an exception."},
  {"property": "C58", "status": "proved", "theorems": ["C58_snapshots", "C58_zero_increment", "C58_time_index"], "note": "Real arithmetic for the times; a zero increment is division by zero."},
  {"property": "C59", "status": "proved", "theorems": ["C59_names"], "note": ""},
  {"property": "C60", "status": "partial", "theorems": ["C60_refuted", "C79_listed", "C79_correct_iff", "C79_single_type"], "note": "Refuted: after the first change of type every further entry is appended. Exact content and the exact condition for a correct list: C79."},
  {"property": "C61", "status": "proved", "theorems": ["C25_coefficients", "C25_untouched"], "note": ""},
  {"property": "C62", "status": "proved", "theorems": ["C27_covers_surface_exact", "C26_factor2D", "C26_factor3D"], "note": ""},
  {"property": "C63", "status": "proved", "theorems": ["C30_partial", "C30_or_error", "C30_receivers_partial"], "note": ""},
  {"property": "C64", "status": "proved", "theorems": ["C32_even"], "note": ""},
  {"property": "C65", "status": "proved", "theorems": ["C33_mode1", "C33_mode1_terminates", "C33_mode2_partial", "C33_mode3_partial"], "note": ""},
  {"property": "C66", "status": "proved", "theorems": ["C34_mode1_partial", "C34_mode1_terminates", "C34_mode2", "C34_mode3_partial"], "note": ""},
  {"property": "C67", "status": "proved", "theorems": ["C35_subset_partial", "C35_terminates_partial", "C35_uniform_partial"], "note": ""},
  {"property": "C68", "status": "proved", "theorems": ["C38_partial"], "note": ""},
  {"property": "C69", "status": "proved", "theorems": ["C69_integrate", "C69_differentiate", "C69_third_sample"], "note": ""},
  {"property": "C70", "status": "proved", "theorems": ["C70_agc_mean", "C70_inverse_agc"], "note": ""},
  {"property": "C71", "status": "proved", "theorems": ["C71_isFinite", "C71_handler"], "note": ""},
  {"property": "C72", "status": "proved", "theorems": ["C72_single_trace", "C72_headers", "C44_data"], "note": ""},
  {"property": "C73", "status": "proved", "theorems": ["C45_source_partial", "C73_receiver", "C73_whole_millimetres"], "note": ""},
  {"property": "C74", "status": "proved", "theorems": ["C74_history", "C74_total", "C74_listing", "C74_listing_total", "C74_case"], "note": "Values are kept as text; operator>> is an arbitrary conversion function."},
  {"property": "C75", "status": "proved", "theorems": ["C75_comments", "C75_comment_line"], "note": ""},
  {"property": "C76", "status": "proved", "theorems": ["C76_criterion", "C48_intended_h"], "note": ""},
  {"property": "C77", "status": "proved", "theorems": ["C77_model_check", "C77_warnings"], "note": "Any distribution of the points over processes; names in lower case."},
  {"property": "C78", "status": "partial", "theorems": ["C78_acoustic_case_refuted", "C78_elastic_case_refuted", "C77_model_check"], "note": "Refuted: 'Elastic' skips the check of the velocity ratio, 'Acoustic' asks an acoustic model for its S velocity and fails. For the names in lower case see C77."},
  {"property": "C79", "status": "proved", "theorems": ["C79_listed", "C79_correct_iff", "C79_single_type"], "note": ""},
  {"property": "C80", "status": "proved", "theorems": ["C80_residual", "C80_empty"], "note": ""},
  {"property": "C81", "status": "proved", "theorems": ["C81_invalid"], "note": "Values that are not finite are modelled by an explicit constructor."},
  {"property": "C82", "status": "proved", "theorems": ["C82_length", "C82_allpass"], "note": "The library FFT is modelled as the (unnormalised) discrete Fourier transform over the reals, its inverse as the conjugate transform."},
  {"property": "C83", "status": "proved", "theorems": ["C83_analytic", "C83_cosine", "C83_envelope", "C83_cosine_envelope", "C83_single_sample"], "note": ""},
  {"property": "C84", "status": "proved", "theorems": ["C84_phase", "C84_not_the_argument"], "note": ""},
  {"property": "C85", "status": "proved", "theorems": ["C85_median", "C85_single", "C85_size_ignored"], "note": ""},
  {"property": "C86", "status": "proved", "theorems": ["C86_regular_cells"], "note": ""},
  {"property": "C87", "status": "proved", "theorems": ["C87_P", "C87_S", "C87_inverse", "C87_averages", "C87_parameters", "C54_S_after_prepare"], "note": "Real arithmetic; divisions by 1 + tau * relaxation equal to zero and zero relaxation frequencies are excluded in the statement."},
  {"property": "C88", "status": "partial", "theorems": ["C88_available", "C88_refuted"], "note": "Proved whenever the averages are out of date when prepareForModelling is called (always for a new object). Refuted otherwise for class SH: reading an average before preparation marks the averages as computed and they stay empty."},
  {"property": "C89", "status": "proved", "theorems": ["C89_stale", "C89_wrong"], "note": ""},
  {"property": "C90", "status": "proved", "theorems": ["C90_within", "C90_values"], "note": ""},
  {"property": "C91", "status": "proved", "theorems": ["C91_unchanged", "C91_fluid"], "note": ""},
  {"property": "C92", "status": "proved", "theorems": ["C92_window", "C92_moduli", "C92_unrelaxed", "C92_refuted"], "note": "C92_refuted shows a viscoelastic modulus that differs from the window of the big model's."},
  {"property": "C93", "status": "proved", "theorems": ["C93_elastic", "C93_sh", "C93_acoustic"], "note": "Real arithmetic. P-wave moduli positive."},
  {"property": "C94", "status": "proved", "theorems": ["C94_viscoelastic", "C94_viscosh", "C94_averaged_tauS_refuted", "C94_free_surface_2_refuted"], "note": "Real arithmetic. The two _refuted theorems are the counterexamples for the two deviations named in the statement."},
  {"property": "C95", "status": "proved", "theorems": ["C95_maxwell", "C95_debye", "C95_hyx", "C95_pml_refuted"], "note": "Real arithmetic. C95_pml_refuted shows that the condition on the PML coefficients is needed."},
  {"property": "C96", "status": "proved", "theorems": ["C96_formula", "C96_berlage", "C96_rejected"], "note": "Real arithmetic."},
  {"property": "C97", "status": "proved", "theorems": ["C97_window", "C97_spike", "C97_zero_refuted", "C97_end_refuted"], "note": "Real arithmetic. The _refuted theorems are the counterexamples to 'zero outside the period' and 'a period inside the simulated time is stored'."},
  {"property": "C98", "status": "proved", "theorems": ["C98_peak", "C98_samples", "C98_berlage", "C98_amplitude_refuted"], "note": "Real arithmetic. C98_amplitude_refuted: a SinW signal exceeds AMP."},
  {"property": "C99", "status": "proved", "theorems": ["C99_derivative", "C99_symmetry", "C99_ends", "C99_generated"], "note": "Real arithmetic; C99_generated states it for the samples that the code computes."},
  {"property": "C100", "status": "proved", "theorems": ["C100_signals", "C100_served", "C100_shapes", "C100_unknown", "C100_each_shot_refuted"], "note": "C100_each_shot_refuted: two shots, each accepted alone, rejected together."},
  {"property": "C101", "status": "proved", "theorems": ["C101_velocity", "C101_averages", "C101_parameters"], "note": "Real arithmetic with infinities and not-a-number."},
  {"property": "C102", "status": "proved", "theorems": ["C102_available"], "note": "Regular grids."},
  {"property": "C103", "status": "proved", "theorems": ["C103_stale", "C103_wrong"], "note": "Records a defect of the code: the property expected by a user (new parameters, new velocity) is false."},
  {"property": "C104", "status": "proved", "theorems": ["C104_values", "C104_velocity", "C104_permittivity"], "note": "Real arithmetic with infinities and not-a-number."},
  {"property": "C105", "status": "proved", "theorems": ["C105_effective", "C105_static", "C105_back", "C105_bounds"], "note": "Real arithmetic with infinities and not-a-number."},
  {"property": "C106", "status": "proved", "theorems": ["C106_plain", "C106_visco", "C106_refuted"], "note": "C106_refuted is the counterexample at a vacuum point with relaxation."},
  {"property": "C107", "status": "proved", "theorems": ["C107_plain", "C107_sizes"], "note": "Real arithmetic with infinities and not-a-number."},
  {"property": "C108", "status": "proved", "theorems": ["C108_visco", "C108_static", "C108_refuted"], "note": "C108_refuted: the effective conductivity exceeds the upper threshold."},
  {"property": "C109", "status": "proved", "theorems": ["C109_mechanisms", "C109_plain", "C109_visco", "C109_refuted", "C109_zero"], "note": "C109_refuted and C109_zero record defects."},
  {"property": "C110", "status": "proved", "theorems": ["C110_window", "C110_velocity", "C110_relaxation"], "note": "Regular grids. C110_relaxation records a defect."},
  {"property": "C111", "status": "proved", "theorems": ["C111_rock", "C111_medium", "C111_back", "C111_refuted"], "note": "C111_refuted: the counterexample with a negative index."},
  {"property": "C112", "status": "proved", "theorems": ["C112_saturation", "C112_porosity", "C112_back"], "note": "Real arithmetic with infinities and not-a-number."},
  {"property": "C113", "status": "proved", "theorems": ["C113_remesh"], "note": "Records defects of the re-meshing."},
  {"property": "C114", "status": "proved", "theorems": ["C114_vmin"], "note": "Real arithmetic; velocities are numbers."},
  {"property": "C115", "status": "proved", "theorems": ["C115_plus", "C115_minus", "C115_scale", "C115_weight", "C115_assign", "C115_transform"], "note": "all 14 classes; values may be infinite or not a number"},
  {"property": "C116", "status": "proved", "theorems": ["C116_init", "C116_reset", "C116_refuted"], "note": "C116_refuted: a directional part survives a reset"},
  {"property": "C117", "status": "proved", "theorems": ["C117_product", "C117_undefined", "C117_assign"], "note": ""},
  {"property": "C118", "status": "proved", "theorems": ["C118_derivative"], "note": ""},
  {"property": "C119", "status": "proved", "theorems": ["C119_parts", "C119_sum", "C119_flat", "C119_none", "C119_refuted"], "note": "the sign of not-a-number is a parameter; C119_refuted: both parts hold the whole field"},
  {"property": "C120", "status": "proved", "theorems": ["C120_names", "C120_complete", "C120_steps", "C120_rejected", "C120_directions", "C120_nothing", "C120_decomposed", "C120_curl"], "note": "the file contents are the vectors handed to the writer; the writer itself is LAMA"},
  {"property": "C121", "status": "proved", "theorems": ["C121_seismic", "C121_em", "C121_refuted"], "note": "C121_refuted: three wavefields with invalid values that pass"},
  {"property": "C122", "status": "proved", "theorems": ["C122_estimate", "C122_directional", "C122_refuted"], "note": "C122_refuted: the estimate is too small"},
  {"property": "C123", "status": "proved", "theorems": ["C123_value", "C123_steps", "C123_grows", "C123_seismic"], "note": ""},
  {"property": "C124", "status": "proved", "theorems": ["C124_reorder", "C124_inverse"], "note": ""},
  {"property": "C125", "status": "proved", "theorems": ["C125_biot", "C125_fluid", "C125_M"], "note": ""},
  {"property": "C126", "status": "proved", "theorems": ["C126_matrix"], "note": "the bulk modulus of the medium is read as rho (vp^2 - vs^2), see C131"},
  {"property": "C127", "status": "proved", "theorems": ["C127_medium"], "note": "as C126"},
  {"property": "C128", "status": "proved", "theorems": ["C128_back"], "note": ""},
  {"property": "C129", "status": "proved", "theorems": ["C129_porosity", "C129_back"], "note": ""},
  {"property": "C130", "status": "proved", "theorems": ["C130_critical"], "note": ""},
  {"property": "C131", "status": "proved", "theorems": ["C131_too_slow"], "note": "a defect of the code"},
  {"property": "C132", "status": "proved", "theorems": ["C132_prepared", "C132_differs"], "note": "C132_differs: two different rock matrices for the same parameters"},
  {"property": "C133", "status": "proved", "theorems": ["C133_acoustic", "C133_prepare", "C133_prepared"], "note": "a defect of the code"},
  {"property": "C134", "status": "proved", "theorems": ["C134_copy", "C134_sum", "C134_assign", "C134_scale", "C134_combine"], "note": "a defect of the code (copy, sum)"},
  {"property": "C135", "status": "proved", "theorems": ["C135_thresholds"], "note": ""},
  {"property": "C136", "status": "proved", "theorems": ["C136_variable", "C136_same_point"], "note": "a defect of the code (sizes)"},
  {"property": "C137", "status": "proved", "theorems": ["C137_window", "C137_commutes"], "note": "the per-shot object is the one of the factory"},
  {"property": "C138", "status": "proved", "theorems": ["C138_reflectivity", "C138_second_order", "C138_too_few_layers"], "note": ""},
  {"property": "C139", "status": "proved", "theorems": ["C139_polynomial", "C139_stable", "C139_magnitude", "C139_small_order"], "note": "order 1 cannot be used: a defect of the code"},
  {"property": "C140", "status": "proved", "theorems": ["C140_values", "C140_gain", "C140_shape", "C140_rejected"], "note": ""},
  {"property": "C141", "status": "proved", "theorems": ["C141_harmonic", "C141_constant"], "note": "other lengths are zero-padded, so that no harmonic of the trace is one of the padded trace"},
  {"property": "C142", "status": "proved", "theorems": ["C142_by_fft", "C142_by_dft", "C142_matrix_scaled"], "note": "the two orders differ by a factor 2"},
  {"property": "C143", "status": "proved", "theorems": ["C143_twice", "C143_sticky", "C143_init"], "note": "defects of the code"},
  {"property": "C144", "status": "proved", "theorems": ["C144_horizontal", "C144_exact", "C144_equal_layers_refuted"], "note": "interfaces between layers with the same factor above 1 are excluded: C144_equal_layers_refuted shows that the code shifts the stencil there"},
  {"property": "C145", "status": "proved", "theorems": ["C145_vertical", "C145_interface"], "note": ""},
  {"property": "C146", "status": "proved", "theorems": ["C146_full", "C146_coarse_kept", "C146_idempotent", "C146_constant_refuted"], "note": "C146_constant_refuted: where the last coarse point to the right is missing its weight is dropped, so a constant field is damped"},
  {"property": "C147", "status": "proved", "theorems": ["C147_staggered", "C147_coarser_refuted"], "note": "factors 1 and 3 only: C147_coarser_refuted shows that between factors 3 and 9 the code uses a wrong shift"},
  {"property": "C148", "status": "proved", "theorems": ["C148_inside", "C148_fits", "C148_interface", "C148_thin_layer_refuted"], "note": "C148_thin_layer_refuted: the backward row at the lower interface of a layer exactly three cells thick below a finer layer leaves the staggered line; excluded in C148_interface"},
  {"property": "C149", "status": "proved", "theorems": ["C149_free_surface"], "note": ""},
  {"property": "C150", "status": "proved", "theorems": ["C150_kernel", "C150_filter", "C150_harmonic", "C150_matrix", "C150_odd_refuted", "C150_left_end_refuted"], "note": "odd kernel sizes give a coefficient 0/0 (C150_odd_refuted); at even places of the left end the result is that of the place before (C150_left_end_refuted); both are excluded or stated exactly in the other theorems"},
  {"property": "C151", "status": "proved", "theorems": ["C151_weights", "C151_partition_of_unity", "C151_missing_refuted", "C151_order_refuted"], "note": "C151_missing_refuted: 3d with sh, viscosh, tmem or viscotmem passes the assertions but every weight is 0/0; C151_order_refuted: orders below 2 or above 13 read outside the table of weights"},
  {"property": "C152", "status": "proved", "theorems": ["C152_memory"], "note": ""},
  {"property": "C153", "status": "proved", "theorems": ["C153_acoustic", "C153_elastic"], "note": "no absorbing boundary, no free surface; exact arithmetic"},
  {"property": "C154", "status": "proved", "theorems": ["C154_visco", "C154_maxwell"], "note": "no absorbing boundary, no free surface; exact arithmetic"},
  {"property": "C155", "status": "proved", "theorems": ["C155_acoustic", "C155_elastic", "C155_visco", "C155_maxwell"], "note": "no absorbing boundary, no free surface; exact arithmetic; for viscoelastic media v is the unrelaxed velocity"},
  {"property": "C156", "status": "proved", "theorems": ["C156_unstable", "C156_sharp", "C156_accepted"], "note": "together with C155_acoustic the CFL limit cfl_limit is the exact border of stability for homogeneous acoustic media"},
  {"property": "C157", "status": "proved", "theorems": ["C157_classes", "C157_rejected", "C157_vectors", "C157_spelling"], "note": "C157_spelling concerns the check of the numerical artefacts on rank 0"},
  {"property": "C158", "status": "proved", "theorems": ["C158_profile", "C158_types_one_domain", "C158_types_two_domains"], "note": "the recorded traces are parameters and not zero everywhere (LAMA's count of matrix values is only known to be positive then)"},
  {"property": "C159", "status": "proved", "theorems": ["C159_hilbert_exact", "C159_one_domain", "C159_wrong", "C159_refuted"], "note": "C159_refuted: the expected statement (second profile = traces of the second round) is false for two domains; C159_hilbert_exact gives what is written"},
  {"property": "C160", "status": "proved", "theorems": ["C160_supershot", "C160_kept", "C160_normal", "C160_missing", "C160_refuted"], "note": "C160_refuted: a shot number missing in the selected rows is not reported"},
  {"property": "C161", "status": "proved", "theorems": ["C161_decode", "C161_one_type", "C161_encode", "C161_again", "C161_adjoint", "C161_rows_refuted", "C161_files_refuted"], "note": "gradientDomain = 0 (no filtering of the traces)"},
  {"property": "C162", "status": "proved", "theorems": ["C162_decode", "C162_encode", "C162_again", "C162_square", "C162_square_refuted"], "note": "gradientDomain = 0; C162_square: undefined behaviour for fixed spreads with as many receivers as shots"},
  {"property": "C163", "status": "proved", "theorems": ["C163_symmetric", "C163_edges_2D", "C163_edges_3D", "C163_forward", "C163_forward_refuted"], "note": "the values stored explicitly as zero and their treatment by LAMA and the partitioners are not modelled"},
  {"property": "C164", "status": "proved", "theorems": ["C164_quotient", "C164_quotient_rounded", "C164_rows"], "note": "Taylor's formula with the moments of the stencils (C57); rows from C10. Order 2 constant is sharp (example)."},
  {"property": "C165", "status": "proved", "theorems": ["C165_convergence"], "note": "Truncation errors by C164 and Taylor's formula in time; error growth by the discrete energy of C153 taken as a norm. Example: a standing wave on a 5 x 4 grid (order 2). For orders 4 and above the assumption on the points outside the grid admits waves that stay away from the edges."},
  {"property": "C166", "status": "proved", "theorems": ["C166_size", "C166_off", "C166_small", "C166_refuted"], "note": "The loop keeps the extents of sources and receivers of the shots looked at. C166_refuted: for every n >= 20 a skipped shot lies outside the model."},
  {"property": "C167", "status": "proved", "theorems": ["C167_column", "C167_errors", "C167_text_refuted", "C167_grid", "C167_others", "C167_moved", "C167_layers", "C167_inversion", "C167_outside_refuted"], "note": "The refuted theorems show what the reader and the grid do not detect: text that is not an integer, interfaces outside the model, a factor 0."},
  {"property": "C168", "status": "proved", "theorems": ["C168_setup", "C168_every_layer", "C168_second_setup", "C168_second_file", "C168_overwrite_refuted", "C168_vector", "C168_switches"], "note": "C168_overwrite_refuted: the second setup of an object does not take effect."},
  {"property": "C169", "status": "proved", "theorems": ["C169_elastic", "C169_visco"], "note": "Truncation errors by C164 and Taylor's formula in time; error growth by the discrete energy of C153/C154 (with the energy of the relaxation springs) taken as a norm. Closed boxes without free surface, PML or damping. Examples: a standing SH wave and an SH field decaying in a medium with one relaxation mechanism (order 2). The moduli at the shear stress points enter as the program averages them."},
  {"property": "C170", "status": "proved", "theorems": ["C170_maxwell"], "note": "Truncation errors by C164 and Taylor's formula in time (midpoint rule for the conduction current); error growth by the discrete energy of C154 taken as a norm. Closed boxes without PML or damping, no dispersion. Example: a transverse magnetic field decaying in a conductor (order 2)."},
  {"property": "C171", "status": "proved", "theorems": ["C171_balance", "C171_stable", "C171_coarse_refuted"], "note": "The polarization energy is a mean over two steps with weights 1/2 -+ dt/(4T). C171_coarse_refuted gives the necessity of dt <= 2T: one grid point, dt = 1, T = 1/6, three quarters of the CFL limit; the electric field grows like (7/6)^(n/2). Closed boxes without PML or damping."},
  {"property": "C172", "status": "proved", "theorems": ["C172_read", "C172_write", "C172_roundtrip", "C172_cross", "C172_format"], "note": "A file is the vector stored in it; the rounding of the formats is an arbitrary function of the format. For the electromagnetic classes the quantities are those in the files; the conversions are the subject of earlier claims."},
  {"property": "C173", "status": "proved", "theorems": ["C173_writes", "C173_readable", "C173_layers", "C173_refuted", "C173_case_refuted"], "note": "C173_refuted and C173_case_refuted are the missing attenuation files (viscosh; Viscoelastic with a capital letter)."},
  {"property": "C174", "status": "proved", "theorems": ["C174_verdict", "C174_same", "C174_sample", "C174_shapes", "C174_average_refuted", "C174_nonfinite_accepted", "C174_nan_refuted", "C174_name", "C174_same_reference"], "note": "Real arithmetic with infinities and not-a-number. C174_average_refuted and C174_nan_refuted are the weaknesses named in the statement."},
  {"property": "C175", "status": "proved", "theorems": ["C175_weights", "C175_outside", "C175_taper", "C175_flat", "C175_outside_refuted", "C175_depth_refuted"], "note": "Real arithmetic. C175_outside_refuted and C175_depth_refuted are the two failures named in the statement."},
  {"property": "C176", "status": "proved", "theorems": ["C176_bytes", "C176_constant", "C176_enough", "C176_rows", "C176_var_refuted", "C176_overflow_refuted", "C176_total"], "note": "Sums and quotients of ValueType are exact; IndexType has 32 bits. C176_var_refuted and C176_overflow_refuted are the two failures named in the statement."},
  {"property": "C177", "status": "proved", "theorems": ["C177_frequencies", "C177_frequencies_plain", "C177_steady", "C177_select", "C177_recorded", "C177_terminates", "C177_too_few", "C177_listing", "C177_past_the_end_refuted", "C177_left_over_refuted"], "note": "Frequencies are real numbers; random numbers are an arbitrary sequence of non-negative integers. C177_past_the_end_refuted and C177_left_over_refuted are the two failures named in the statement; C177_recorded says exactly what the left-over entries are."},
  {"property": "C178", "status": "proved", "theorems": ["C178_mode1", "C178_mode2", "C178_mode3", "C178_file", "C178_file_plain"], "note": "The random numbers of the encoding and of the selection are two arbitrary sequences (in the code one sequence goes on after the other)."},
  {"property": "C179", "status": "proved", "theorems": ["C179_class", "C179_agrees"], "note": "The solvers are named by the class of their wavefields."},
  {"property": "C180", "status": "proved", "theorems": ["C180_file"], "note": ""},
  {"property": "C181", "status": "proved", "theorems": ["C181_file"], "note": "NXPerShot is a whole number."},
  {"property": "C182", "status": "proved", "theorems": ["C182_decode", "C182_amplitude", "C182_separate"], "note": "One receiver type; the loop over the types is the one of C161. Real arithmetic; the number of samples is a power of two."},
  {"property": "C183", "status": "proved", "theorems": ["C183_decode", "C183_encode", "C183_again"], "note": "One receiver type; the loop over the types is the one of C162. Real arithmetic; the number of samples is a power of two."}
]}
