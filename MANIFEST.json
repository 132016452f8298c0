{"claims": [
 {"property": "C01", "status": "proved", "theorems": ["error_roundtrip", "error_roundtrip_any_code", "error_never_reads_as_success", "error_decode_correct_iff", "error_decode_any_line", "error_raise_injective", "error_file_names_distinct", "error_particle_line_refuted", "error_text_missing_refuted"], "note": "Exact: decoding is correct iff line < 1024; particle.c has raise sites above that."},
 {"property": "C02", "status": "proved", "theorems": ["list_size_is_number_added", "list_get_is_ith_added", "list_add_never_undefined", "list_free_exactly_once", "list_get_at_size_undefined", "list_get_beyond_size_undefined"], "note": "Heap model with allocation status; histories interleave arbitrary other heap changes."},
 {"property": "C03", "status": "proved", "theorems": ["ranks_cover_markers_in_order", "every_marker_has_one_rank", "rank_share_bounds"], "note": "nat model of mpi_my_particles; mpi_size >= 1"},
 {"property": "C04", "status": "proved", "theorems": ["gathered_states_exact", "condor_gather_exact", "condor_summary_out_of_bounds_refuted", "gathered_orbit_points_exact", "orbit_messages_paired", "orbit_quantities_exchanged_iff"], "note": "MPI build with root rank 0 (always so); also the Condor build and the orbit arrays. MPI delivery (in-order, per-rank) is trusted. Two findings: summary in Condor builds reads out of bounds; orbit quantities not exchanged correctly in hybrid and field-line modes."},
 {"property": "C05", "status": "proved", "theorems": ["queue_every_marker_once", "queue_finished_count", "queue_lifecycle_always", "queue_finished_never_exceeds", "queue_next_bounded", "queue_no_data_race", "queue_negative_id_never_written_back"], "note": "All interleavings of T threads with W slots; hypotheses: identifiers nonnegative, and for GC/ML loaders no marker starts with an end condition (both shown necessary). OpenMP critical sections and single entry accesses are atomic steps; the absence of data races on entries is proved."},
 {"property": "C06", "status": "proved", "theorems": ["queue_failed_load_reported", "queue_no_thread_blocks", "queue_lifecycle_always"], "note": "Progress assumes the physics step is total."},
 {"property": "C07", "status": "proved", "theorems": ["queue_ended_marker_untouched", "queue_ended_marker_gc_refuted"], "note": "FO loader proved; the GC/ML loaders lack the check, shown by a complete execution that leaves a marker unsimulated."},
 {"property": "C08", "status": "proved", "theorems": ["wiener_init_holds_origin", "wiener_times_sorted", "wiener_generate_correct", "wiener_repeated_time_same_value", "wiener_clean_drops_past", "wiener_clean_late", "wiener_backward_never_cleaned", "wiener_history_brownian"], "note": "Slot arrays refine a sorted list; covariance of Brownian motion after any history; late-clean and backward-time findings."},
 {"property": "C09", "status": "proved", "theorems": ["endcond_fo_iff", "endcond_gc_iff", "endcond_ml_iff", "endcond_fo_error", "endcond_gc_error", "endcond_stopped_untouched", "endcond_bounce_count"], "note": "FO, GC, ML checks: bits and stop iff enabled criterion met; error path; bounce counter."},
 {"property": "C10", "status": "proved", "theorems": ["endcond_parse_exact", "endcond_parse_injective"], "note": ""},
 {"property": "C11", "status": "proved", "theorems": ["particle_fo_roundtrip", "particle_gc_roundtrip", "particle_ml_roundtrip", "particle_load_fo", "particle_load_gc_ml", "particle_load_error", "particle_fo_writeback_consistent"], "note": "Round trips for the three modes, the exact load condition and slot contents; field-line mode loses mass, charge and momentum (stated)."},
 {"property": "C12", "status": "proved", "theorems": ["particle_error_survives", "particle_ml_error_erased", "particle_gc_writeback_error"], "note": "Particle and guiding-centre errors survive; field-line errors are erased (finding)."},
 {"property": "C13", "status": "proved", "theorems": ["particle_copy_exact"], "note": "All struct fields except err and index are copied; other slots untouched."},
 {"property": "C14", "status": "proved", "theorems": ["random_lcg_bijective", "random_lcg_period", "random_lcg_visits_all", "random_lcg_low_bits"], "note": "Bijectivity, exact period 2^64, all values visited; low bits have short period."},
 {"property": "C15", "status": "proved", "theorems": ["random_uniform_range", "random_uniform_endpoints", "random_to_double_nearest", "random_uniform_index_refuted"], "note": "Range and exact end point sets with the rounding of the uint64 to double conversion modelled."},
 {"property": "C16", "status": "proved", "theorems": ["math_vec_round_trip", "math_vec_isometry", "math_jac_xyz2rpz_correct", "math_jac_rpz2xyz_error", "math_jac_rpz2xyz_correct_iff", "math_jac_round_trip", "math_jac_div_curl"], "note": "Jacobian spec is by true partial derivatives of an affine field; jac_rpz2xyz has two sign errors, characterised exactly"},
 {"property": "C17", "status": "proved", "theorems": ["math_fmod_range", "math_fmod_congruent", "math_fmod_unique", "math_fmod_negative_period"], "note": "real arithmetic"},
 {"property": "C18", "status": "proved", "theorems": ["math_rsearch_finds", "math_rsearch_none", "math_rsearch_reads_inside", "math_rcomp_partitions"], "note": "bsearch modelled as binary search; the partition precondition is proved as well"},
 {"property": "C19", "status": "proved", "theorems": ["math_point_in_polygon_parity", "math_point_in_polygon_boolean", "math_point_in_polygon_reverse", "math_point_in_polygon_translate", "math_point_in_polygon_right", "math_point_in_polygon_left", "math_point_in_polygon_rectangle"], "note": ""},
 {"property": "C20", "status": "proved", "theorems": ["math_simpson_exact", "math_simpson_terminates", "math_simpson_domain", "math_simpson_homogeneous", "math_simpson_orientation"], "note": "integrand and arithmetic over the reals"},
 {"property": "C21", "status": "proved", "theorems": ["orb_most_recent", "orb_own_section", "orb_in_bounds", "orb_allocated", "orb_allocated_only_if"], "note": "Ring-buffer refinement to a per-marker log over whole runs, in both recording modes and for the three marker kinds; bounds, frame and allocation. Initial marker of a running marker assumed to have a positive id."},
 {"property": "C22", "status": "proved", "theorems": ["plane_detected", "plane_located", "plane_located_refuted", "plane_missed", "plane_exactly_once", "radial_detected", "radial_located", "crossing_recorded", "fo_radial_recorded_refuted"], "note": "Exact detection condition, fraction exact up to half a turn (refuted beyond), exact count along forward paths, radial crossings; findings stated as theorems."},
 {"property": "C23", "status": "proved", "theorems": ["dist_index_injective", "dist_index_bounds", "dist_index_onto", "dist_index_order"], "note": "Mixed-radix refinement of the five index functions with their step tables."},
 {"property": "C24", "status": "proved", "theorems": ["dist_gc_bin_exact", "dist_gc_total", "dist_fo_bin_exact", "dist_fo_total", "dist_fo_outside_refuted", "dist_angle_wrapped", "dist_momentum_split", "dist_com_mu"], "note": "Per-bin and total conservation over whole histories, for the five types; integer conversions assumed in range; flux and GC momentum are oracles. Particle updates outside the grid: finding. fmod is the function of math.c, with which the branch for negative angles is dead; the value of the perpendicular momentum coordinate of guiding centres is taken from the model (dist_momentum_split is about particles)."},
 {"property": "C25", "status": "proved", "theorems": ["wall2d_hit_is_first", "wall2d_no_hit", "wall2d_tile_range"], "note": "2D wall: reported hit is the first, none reported iff none (parallel segments excluded; refuted example for them)"},
 {"property": "C26", "status": "proved", "theorems": ["wall3d_collision_exact", "wall3d_collision_sound", "wall3d_collision_degenerate"], "note": "Moller-Trumbore with the 1e-9 nudge of the triangle; exactness for steps with slant >= 1e-9, 2e-9 tolerance otherwise."},
 {"property": "C27", "status": "proved", "theorems": ["wall3d_search_first", "wall3d_search_first_hit", "wall3d_full_search_first", "wall3d_tree_array"], "note": "Finding: a step that starts on a triangle is a hit for the accelerated search (w >= 0) but not for the exhaustive one (w > 0), wall3d_start_on_wall_refuted."},
 {"property": "C28", "status": "proved", "theorems": ["octree_point_reaches_leaf", "octree_point_on_plane"], "note": ""},
 {"property": "C29", "status": "proved", "theorems": ["linint1D_on_cell", "linint1D_error", "linint1D_between", "linint1D_continuous", "linint1D_upper_end_refuted", "linint2D_on_cell", "linint2D_error", "linint3D_on_cell", "linint3D_error", "linint3D_upper_end_refuted"], "note": "On closed cells, all dimensions, both boundary conditions. Findings: linint1D/3D overrun the table at the exact upper end; linint2D_init never stores bc_x, bc_y (linint2D_bc_not_stored_refuted)."},
 {"property": "C30", "status": "proved", "theorems": ["interp1Dcomp_setup_ok", "interp1Dcomp_setup_refuses", "interp1Dcomp_is_spline", "interp1Dexpl_is_spline", "spline_interpolant_unique", "compact_explicit_agree", "interp2Dcomp_setup_ok", "interp2Dcomp_is_spline", "spline_surface_unique", "interp3Dcomp_setup_ok", "interp3Dcomp_is_spline", "spline_volume_unique"], "note": "Real-number model of splinecomp/splineexpl and the 1D, 2D and 3D compact and 1D explicit interpolants, any boundary-condition combination. The specification (spline_interpolant, surface_interpolant, volume_interpolant) is proved to determine the function uniquely. The explicit 2D and 3D forms are the subject of C103."},
 {"property": "C31", "status": "proved", "theorems": ["interp1Dcomp_is_spline", "interp1Dexpl_is_spline", "interp2Dcomp_is_spline", "interp3Dcomp_is_spline"], "note": "All first, second and mixed derivatives returned by the compact 1D, 2D and 3D and the explicit 1D evaluations, at every interior point including nodes."},
 {"property": "C32", "status": "proved", "theorems": ["boris_conserves_norm", "boris_time_reversible", "boris_lorentz_force", "boris_neutral_constant", "fo_step_is_drift_kick_drift", "fo_step_conserves_momentum_norm", "fo_step_neutral_ballistic", "fo_step_idle", "fo_step_error_stops", "ald_parallel_motion_refuted", "fo_step_at_rest_refuted", "ald_ignores_step_length_refuted"], "note": "whole step with arbitrary field oracles; momentum update conserves norm, is reversible and consistent with the Lorentz force; radiation-reaction defects proved as refuted"},
 {"property": "C33", "status": "proved", "theorems": ["gc_energy_balance", "gc_energy_conserved", "gc_mhd_energy_balance", "gc_mu_constant", "gc_gyrophase_rate", "gc_ExB_drift", "gc_toroidal_drift", "gc_mhd_unperturbed_exact", "gc_mhd_unperturbed_refuted", "gc_fixed_step_effect"], "note": "Energy balance for arbitrary fields (with electric field and radiation reaction terms), conservation without them, mu constant in the equations and exactly through fixed and adaptive steps; known drifts reproduced. The MHD variant conserves energy too but differs from the plain equations without perturbation (gc_mhd_unperturbed_exact)."},
 {"property": "C34", "status": "proved", "theorems": ["rk_code_is_method", "rk_order_conditions", "rk4_quadrature_exact", "cash_karp_quadrature_exact", "rk_linear_systems", "ml_step_is_cash_karp", "ml_unit_speed_along_field"], "note": "All 8 / 17 order conditions for the methods the code's stages are shown to be; exactness for quadrature and the exponential series for linear systems."},
 {"property": "C35", "status": "proved", "theorems": ["step_accepted_iff_within_tolerance", "accepted_step_bounds", "rejected_step_shrinks", "error_estimate_nonneg", "reverse_time_step_cap_refuted", "ml_step_growth_unbounded", "gc_adaptive_step_effect", "gyrophase_wrapped", "ml_error_reported_refuted"], "note": "For steps forward in time, over the reals. Backwards in time and for field lines the 1.5 limit is refuted."},
 {"property": "C36", "status": "proved", "theorems": ["adaptive_pass", "adaptive_history", "adaptive_reverse_without_orbit_refuted", "adaptive_limits_refuted", "fieldline_pass"], "note": "Field evaluation and physics modules are arbitrary functions that leave time, mileage and id alone. Refutations: reversed time without orbit following makes no progress; a step exceeding both limits by the same factor is accepted."},
 {"property": "C37", "status": "proved", "theorems": ["plasma1D_density", "plasma1D_temperature", "plasma1D_joint", "profile_between_neighbours", "profile_exact_at_nodes", "profile_unique", "plasma1D_rotation_step", "plasma1D_rotation_interpolated_refuted"], "note": "Linear interpolation spec stated separately; rotation is the lower node value (refuted as interpolation)."},
 {"property": "C38", "status": "proved", "theorems": ["plasma1Dt_profiles", "plasma1Dt_outside", "plasma1Dt_density_slice", "plasma1Dt_density_refuted", "plasma1Dt_last_interval_refuted", "plasma1Dt_rotation", "plasma1Dt_init_report_in_bounds_iff"], "note": "Includes exact characterisation of the density slice actually read, last-interval behaviour, out-of-table read before the first slice, rotation weights and the printed summary's reads."},
 {"property": "C39", "status": "proved", "theorems": ["neutral1D_values", "neutral1D_outside", "neutral1D_upper_end_refuted", "neutral3D_values", "neutral3D_outside", "neutral1D_second_species_refuted", "neutral_free_iff", "neutral_free_counts", "neutral_n0_default", "neutral_t0_default", "neutral_default_others_refuted", "neutral_success_dispatch"], "note": "Values of all species are those of the first species' table (refuted for the second species); release correct iff at most one species."},
 {"property": "C40", "status": "proved", "theorems": ["radial_E", "radial_E_potential", "cartesian_E", "unknown_E_fails"], "note": "Finding: the effective minor radius input is ignored. E is undefined (division by zero) where rho is 0 for non-stellarator fields."},
 {"property": "C41", "status": "proved", "theorems": ["b2ds_field", "b2ds_divergence_free"], "note": "Interior points for derivatives; divergence identity on the closed grid."},
 {"property": "C42", "status": "proved", "theorems": ["field_defaults", "unknown_field_type_fails", "rho_of_flux", "rho_fails_with_flux", "rho_of_flux_value", "rho_gradient_exact"], "note": "Finding: on the axis (rho = 0) all types but the stellarator divide by zero and report success; the stellarator reports an error."},
 {"property": "C43", "status": "proved", "theorems": ["atomic_charge_in_range", "atomic_probabilities", "atomic_probability_sum", "atomic_partially_stripped", "atomic_neutral", "atomic_fully_stripped", "atomic_stripped_ionisation_recombines", "atomic_survival_multiplicative", "atomic_branching", "atomic_probability_rate", "atomic_rates_sound", "atomic_rates_unsupported", "atomic_lane_step", "atomic_many_steps", "atomic_charge_exchange_law", "atomic_ionisation_law"], "note": "Exact arithmetic. Findings: a stripped marker recombines when an ionisation is sampled (not reachable through atomic_rates, which gives charge 1 no ionisation rate); charges other than 0 and 1 always end in an error."},
 {"property": "C44", "status": "proved", "theorems": ["beam_shares_exact", "beam_shares_fair", "beam_ids_exact", "beam_no_power_undefined", "beam_power", "beam_energy_fractions", "beam_small_injector_dropped"], "note": "Counts sum to the requested number for any powers; with non-negative powers and positive total every injector but the last gets its share rounded down and the last gets its share plus less than one marker per other injector; identifiers are exactly 1..n without repeats. Expected power equals the injector power exactly when the energy fractions sum to one. Findings proved: zero total power divides by zero, an injector below one marker is dropped with its power, an unpowered last injector still gets markers, and without injectors the queue holds unfilled markers."},
 {"property": "C45", "status": "proved", "theorems": ["fusion_products_cm", "fusion_cm_energy", "fusion_lab_momentum", "fusion_lab_momentum_iff", "fusion_reactant_speed", "fusion_product_momentum", "fusion_product_energy_pitch"], "note": "Centre-of-mass momentum, energy and emission direction of the products for all reactants; the laboratory momentum is short by the mass defect times the centre-of-mass velocity (exact iff at rest or equal masses); stored energy is the relativistic energy of the classical speed."},
 {"property": "C46", "status": "proved", "theorems": ["beam_sampler_parallel_exact", "beam_sampler_parallel_cell", "beam_sampler_energy_refuted", "beam_sampler_outside", "beam_sampler_cells", "beam_sampler_law", "beam_sampler_found", "beam_sampler_density", "beam_sampler_energy_momentum", "beam_sampler_position", "beam_sampler_flux_outside"], "note": "Cell choice law, total density, positions of the cells; finding: bin numbers are decoded with the wrong divisor, right exactly when both axes have the same length (ppar-pperp), energy-pitch decoding is refuted, and flux-coordinate histograms are read outside the array."},
 {"property": "C47", "status": "proved", "theorems": ["reaction_charge", "reaction_nucleons", "reaction_energy", "cross_section_sign", "cross_section_zero_iff", "cross_section_fit", "reactivity_positive"], "note": "Charge, nucleon number and released energy of the four reactions; sign and exact zero set of the cross section; positivity of the fit denominators on their range and of the reactivity."},
 {"property": "C48", "status": "proved", "theorems": ["coil_biot_savart", "coil_defined", "coil_split", "coil_reversed", "coil_joined", "coil_maxwell_equations", "coil_closed_curl_free", "coil_extension_refuted", "coil_repeated_point"], "note": "Exact Riemann integral of the Biot-Savart law for every polyline; also divergence-free, curl-free for a closed coil; findings: no number on the extension of a segment (where the law gives zero) or for a repeated point."},
 {"property": "C49", "status": "proved", "theorems": ["coll_special_function", "coll_special_small", "coll_derivative_D", "coll_derivative_Q", "coll_einstein", "coll_drag_particle", "coll_drag_centre", "coll_gc_stationary", "coll_pitch_stationary", "coll_fo_stationary", "coll_other_temperature", "coll_signs", "coll_small_speed", "coll_logarithm", "coll_debye", "coll_impact", "coll_spatial_diffusion"], "note": "Coulomb logarithm held fixed in the derivatives, as the code does; one common temperature for stationarity; any species list."},
 {"property": "C50", "status": "proved", "theorems": ["gcoll_reflect_speed", "gcoll_reflect_pitch", "gcoll_displacement", "gcoll_displacement_cov", "gcoll_arrival", "gcoll_state", "gcoll_euler_step", "gcoll_euler_fails", "gcoll_idle", "gcoll_idle_flow"], "note": "The magnetic moment is nonnegative exactly when the unreflected pitch is within [-3,3]. Finding: with a plasma flow a step of zero length, or with all effects off, shifts the parallel momentum because the two frame changes use different Lorentz factors (gcoll_idle_flow, Example flow_pushes)."},
 {"property": "C51", "status": "proved", "theorems": ["gct_position", "gct_centre_drift", "gct_zeroth_round_trip", "gct_uniform_round_trip", "gct_uniform_seen", "gct_uniform_refuted", "gct_no_moment_undefined", "gct_vertical_undefined"], "note": "Zeroth order for every field that is not vertical and momentum not along the field; first order for a field whose derivatives the code sees as zero (uniform with zero x component, because of the Jacobian conversion finding); undefined cases and a uniform field with wrong first-order result are stated as theorems."},
 {"property": "C52", "status": "proved", "theorems": ["gct_unit_field", "gct_curvature_iff", "gct_moment_invariant", "gct_energy_kept", "gct_gyroangle_rate", "gct_first_order_output", "gct_gauge", "gct_gauge_sign_refuted"], "note": "Curvature, torsion, divergence and double products against the derivative of the unit vector of the affine field; first-order magnetic moment, energy and gyroangle against the exact motion; the gyrogauge vector is shown to have the wrong sign."},
 {"property": "C53", "status": "proved", "theorems": ["tc_process", "tc_run", "tc_no_leak", "tc_groups", "tc_number_of_averages", "tc_bad_window"], "note": "Heap of links with use after free and double free as undefined behaviour; any sequence of events. The oldest window of points is left out when there is a remainder. A negative window is undefined behaviour."},
 {"property": "C54", "status": "proved", "theorems": ["gamma_vnorm_lorentz", "gamma_vnorm_inverse", "vnorm_gamma_inverse", "pnorm_vnorm_inverse", "vnorm_pnorm_inverse", "energy_gamma_inverse", "Ekin_pnorm_increasing", "gc_momentum_pitch_inverse", "gc_mu_ppar_inverse", "gc_momentum_decomposition", "ppar_recovered", "c2_literal", "gyrolength_p_is_parallel", "gyrolength_ppar_factor"], "note": "Real-number model of physlib.h with CONST_C2 = CONST_C^2 (c2_literal bounds the literal). Two unused gyrolength macros are wrong: gyrolength_p_is_parallel, gyrolength_ppar_factor."},
 {"property": "C55", "status": "proved", "theorems": ["hybrid_handover", "hybrid_flag_always_cleared_refuted"], "note": "Any interleaving of both phases. When no marker is handed over, the hybrid flag of a marker with a wall in between stays set (hybrid_flag_always_cleared_refuted)."},
 {"property": "C56", "status": "proved", "theorems": ["particle_input_rejected", "particle_input_p_accepted", "particle_input_gc_accepted", "particle_input_ml_direction_lost"], "note": "Validation, conversion of accepted markers, and the lost field-line direction (finding)."},
 {"property": "C57", "status": "proved", "theorems": ["random_normal_fills", "random_normal_box_muller", "random_normal_polar"], "note": "Exact real arithmetic for sqrt/ln/cos."},
 {"property": "C58", "status": "proved", "theorems": ["math_matmul_entries", "math_matmul_frame"], "note": ""},
 {"property": "C59", "status": "proved", "theorems": ["math_uniquecount_correct", "math_uniquecount_total"], "note": ""},
 {"property": "C60", "status": "proved", "theorems": ["math_linspace_spec", "math_linspace_one", "math_ipow_spec"], "note": "machine overflow of the integer power is not modelled"},
 {"property": "C61", "status": "proved", "theorems": ["math_point_on_plane_never", "math_barycentric_correct", "math_position_round_trip", "math_position_round_trip_cyl"], "note": ""},
 {"property": "C62", "status": "proved", "theorems": ["hist_positions", "hist_update_inside", "hist_outside_counted_refuted"], "note": "Injectivity, bounds and per-update deposit; spill-over stated as a witness."},
 {"property": "C63", "status": "proved", "theorems": ["diag_sum_complete", "diag_sum_5d_refuted", "diag_sum_com_refuted", "diag_sum_6d_twice"], "note": "Exact effect on each distribution, findings stated as theorems."},
 {"property": "C64", "status": "proved", "theorems": ["wall2d_no_tunnelling", "wall2d_inside_parity"], "note": "Inside/outside parity and absence of tunnelling"},
 {"property": "C65", "status": "proved", "theorems": ["wall3d_init_lists", "wall3d_box_test_complete", "wall3d_no_tunnelling"], "note": "Resolution: the normal components, and for each edge its components relative to its length, exceed 1e-9 over the face area of a cell (definition resolved in Wall3GeoProofs.v)."},
 {"property": "C66", "status": "proved", "theorems": ["gc_canonical_momentum_rate"], "note": "Rate of the canonical momentum from the code's equations, for any axisymmetric field."},
 {"property": "C67", "status": "proved", "theorems": ["fixed_particle_history", "fixed_particle_pass", "fixed_gc_pass", "fixed_gc_rf_clock_refuted", "fixed_gc_rf_refill_refuted"], "note": ""},
 {"property": "C68", "status": "proved", "theorems": ["acceleration_at_least_one", "acceleration_uninitialised_flags_harmless", "acceleration_one_orbit", "acceleration_bounce_orbit", "acceleration_settles_refuted"], "note": ""},
 {"property": "C69", "status": "proved", "theorems": ["plasma1DS_profiles", "plasma1DS_exact_at_nodes", "plasma_spline_rotation_error_refuted"], "note": ""},
 {"property": "C70", "status": "proved", "theorems": ["plasma_temperature_dispatch", "plasma_density_dispatch", "plasma_joint_dispatch", "plasma_flow_dispatch", "plasma_unknown_type_refuted"], "note": ""},
 {"property": "C71", "status": "proved", "theorems": ["gs_field_from_flux", "gs_derivatives", "gs_divergence", "gs_divergence_free", "gs_toroidal_current", "gs_rho", "gs_flux_derivatives_scaled", "gs_flux_derivatives_refuted", "gs_ripple_divergence_refuted", "gs_ripple_centre", "gs_ripple_midplane_refuted"], "note": "Field-flux relation, Jacobian, divergence, toroidal current and radius proved for all parameters; the wrong factor R0/R of the flux derivatives and the misplaced ripple pattern are proved exactly and refuted with witnesses."},
 {"property": "C72", "status": "proved", "theorems": ["b3ds_field", "bsts_field"], "note": ""},
 {"property": "C73", "status": "proved", "theorems": ["cartesian_field", "cartesian_field_derivatives", "cartesian_field_derivatives_refuted"], "note": "Finding: entries 0, 4, 8 of B_TC_eval_B_dB are overwritten with the origin field."},
 {"property": "C74", "status": "proved", "theorems": ["asigma_results_clean", "asigma_nonnegative", "asigma_unknown_type", "asigma_sigma_value", "asigma_sigmav_value", "asigma_cx_sum", "asigma_cx_error", "asigma_bms_sum", "asigma_bms_mean", "asigma_bms_double_count", "asigma_bms_energy_per_nucleon", "asigma_init_nodes", "asigma_init_single", "asigma_init_offset_refuted", "asigma_init_last_error", "asigma_init_error_refuted"], "note": "Splines as in the spline models; neutral species are assumed to be listed like the plasma ions, as the code does. Findings: offsets never advance at initialisation, earlier errors are lost, duplicate beam-stopping tables add up, and the two readers of such a table disagree on the mass number."},
 {"property": "C75", "status": "proved", "theorems": ["suzuki_value", "suzuki_impurity_expansion", "suzuki_hydrogen_product", "suzuki_out_of_tables", "suzuki_errors", "suzuki_order_irrelevant", "suzuki_effective_charge", "suzuki_isotope_split", "suzuki_isotope_mean", "suzuki_low_energy", "suzuki_absent_impurity_refuted"], "note": "Findings: an absent impurity reads row -1; no error below 9 keV per nucleon."},
 {"property": "C76", "status": "proved", "theorems": ["beamlets_decoded", "beamlet_index_safe", "beam_launch", "beam_launch_angle", "beam_enters_field", "beam_never_enters", "beam_marker_sound", "beam_energy_fractions"], "note": "Finding proved: a beamlet that never meets the field keeps the entering loop running for ever; the beamlet index is inside the array exactly for a uniform number below one."},
 {"property": "C77", "status": "proved", "theorems": ["beam_straight", "beam_flight_ends", "beam_survival", "beam_wall_after_plasma", "beam_wall_time", "beam_step_decided"], "note": "Straightness is for flights not passing exactly through the axis R=0 at a step. The final time of a wall hit counts the whole last step."},
 {"property": "C78", "status": "proved", "theorems": ["fusion_deposit", "fusion_deposit_position", "fusion_thermal", "fusion_rate"], "note": ""},
 {"property": "C79", "status": "proved", "theorems": ["coll_kick_law", "coll_fo_idle", "coll_fo_error", "coll_fo_step", "coll_fo_zero", "coll_fo_fail"], "note": "Reaching the speed of light raises no error (coll_fo_fail)."},
 {"property": "C80", "status": "proved", "theorems": ["milstein_correction_speed", "milstein_correction_pitch", "milstein_step_control", "milstein_errors_nonneg", "gcoll_milstein_step"], "note": "Random increments and the Wiener error code are inputs."},
 {"property": "C81", "status": "proved", "theorems": ["gct_moment_invariant", "gct_energy_kept", "gct_gyroangle_rate", "gct_first_order_output", "gct_unit_field"], "note": "Corrections taken as functions of the gyroangle; the deviation caused by a divergence or by a current across the field is given exactly."},
 {"property": "C82", "status": "proved", "theorems": ["tc_run", "tc_markers_independent", "tc_crossing", "tc_crossing_lost", "tc_times_increase", "tc_diffusion_nonneg", "tc_constant_drift", "tc_one_group"], "note": "Findings: bias of drift and diffusion, coefficients stored from a single average, backward crossings lost when the midplane is hit exactly."},
 {"property": "C83", "status": "proved", "theorems": ["boozer_coordinates", "boozer_angle_range", "boozer_derivatives", "boozer_padding", "boozer_init_masks_error"], "note": "Oracles for the flux, axis and tables. Finding: psi is evaluated at t=0 and its toroidal derivative is replaced by 0 (see mhd_derivatives_any_flux); boozer_init returns only the error of the second spline; padding divides by zero for nine angle points."},
 {"property": "C84", "status": "proved", "theorems": ["mhd_potentials", "mhd_stationary_derivatives", "mhd_derivatives", "mhd_derivatives_any_flux", "mhd_nonaxisymmetric_refuted", "mhd_stationary_is_constant", "mhd_outside_zero", "mhd_profile_outside_zero", "mhd_no_such_mode", "mhd_superposition"], "note": "Finding: for a flux depending on the toroidal angle the toroidal derivative lacks an exact term (mhd_derivatives_any_flux, mhd_nonaxisymmetric_refuted); a single profile out of range silently zeroes every chosen mode."},
 {"property": "C85", "status": "proved", "theorems": ["mhd_magnetic_perturbation", "mhd_electric_perturbation", "mhd_perturbed_fields", "mhd_total_field", "mhd_no_perturbation"], "note": "The background is static (its time derivative is not part of the electric perturbation in the code)."},
 {"property": "C86", "status": "proved", "theorems": ["fo_mhd_step_is_plain_step", "fo_mhd_unperturbed_is_plain", "fo_mhd_ignores_ald_refuted", "ml_mhd_step_is_cash_karp", "ml_mhd_unperturbed_is_plain", "ml_mhd_error_reported_refuted"], "note": "Findings: step_fo_vpa_mhd ignores aldforce; step_ml_cashkarp_mhd never reports an error. The guiding-centre variants are covered by C33 (their typo in Bstar is gc_mhd_unperturbed_refuted)."},
 {"property": "C87", "status": "proved", "theorems": ["poloidal_angle_lift_unique", "fo_poloidal_angle", "gc_rk4_poloidal_angle", "gc_cashkarp_poloidal_angle", "gc_euler_poloidal_angle", "gc_milstein_poloidal_angle", "gc_poloidal_turns", "ml_poloidal_angle", "poloidal_angle_geometric_refuted"], "note": "Exact for a fixed axis. Finding: the axis is taken at the new toroidal angle by the orbit steps and at the old one by the collision steps; when it depends on the toroidal angle (stellarator data) the cumulative angle drifts from the direction of the marker (poloidal_angle_geometric_refuted)."},
 {"property": "C88", "status": "proved", "theorems": ["fo_to_gc_converts", "fo_to_gc_succeeds", "fo_to_gc_other_slots", "fo_to_gc_agrees_with_state", "fo_to_gc_axis_refuted"], "note": "Finding: the axis is looked up at the toroidal angle the guiding-centre slot held before the conversion (particle.c:1250), which is wrong for an axis that depends on it (fo_to_gc_axis_refuted). The route over the marker state does not turn the poloidal angle and resets the bounce counter, this one does the opposite (fo_to_gc_agrees_with_state)."},
 {"property": "C89", "status": "proved", "theorems": ["rhotheta_sound", "rhotheta_complete", "rhotheta_accurate", "rhotheta_entries", "rhotheta_far_refuted"], "note": "The documentation calls it Newton's method; it is a bisection. Finding: the bracket is fixed to 5 m (rhotheta_far_refuted)."},
 {"property": "C90", "status": "proved", "theorems": ["descent_terminates", "descent_converges", "descent_near_axis", "ascent_mirrors_descent", "ascent_mirrors_descent_3d", "descent_3d_terminates", "descent_3d_sector", "descent_endless_refuted", "descent_padding_refuted", "descent_3d_gradient_refuted", "descent_3d_step"], "note": "Findings: maxiter <= 0 loops forever (descent_endless_refuted); the padding tol*(dpsi/dR+dpsi/dz) has the sign of the gradient, so psi0 can exceed the minimum (descent_padding_refuted); the 3D toroidal step is R times too long for a gradient step, parallel to the gradient only if R=1 or one of the derivatives vanishes (descent_3d_gradient_refuted). Convergence of the 3D search is not claimed."},
 {"property": "C91", "status": "proved", "theorems": ["boozer_safety_factor", "plasma_background_layout", "collision_coefficient_layout", "rate_coefficient_layout"], "note": ""},
 {"property": "C92", "status": "proved", "theorems": ["cmdline_values", "cmdline_accepts", "cmdline_rejects", "cmdline_extension", "cmdline_file_unique", "cmdline_long_refuted", "cmdline_double_extension_refuted"], "note": "getopt_long itself and atoi are oracles (options arrive as a list). Findings: no length check (256 characters or more are written past the array); '--in .h5' is looked up as .h5.h5."},
 {"property": "C93", "status": "proved", "theorems": ["main_inistate", "main_endstate_blocks", "main_endstate", "main_prepare"], "note": "Conversion of the input and the simulation of a process are universally quantified; message passing as in MpiModel."},
 {"property": "C94", "status": "proved", "theorems": ["arrays_success", "arrays_failure_refuted", "summary_complete", "summary_text_fits", "summary_text_unique", "summary_counts_add_up", "summary_error_source", "summary_no_markers_refuted"], "note": "Findings: every failure after reading input double-frees p (and frees an uninitialised or freed array); with zero markers the last test reads an array without elements. Codes are assumed to fit an int, proved for all codes the program raises."},
 {"property": "C95", "status": "proved", "theorems": ["qid_path", "qid_path_long", "dataset_address", "group_address", "short_qid_refuted", "generated_qid", "generated_qid_loops"], "note": "The HDF5 library is modelled by the objects of a file; a path is its list of non-empty parts. Findings: a QID of fewer than ten characters loses the dataset name (short_qid_refuted); generated QIDs are below 2^31 although documented up to 2^32-1."},
 {"property": "C96", "status": "proved", "theorems": ["input_read_iff", "input_qids", "input_stops_at_first_failure", "input_type_last", "input_type_none", "input_type_success", "input_masks", "input_type_bfield", "input_type_efield", "input_type_plasma", "input_type_neutral", "input_type_wall", "input_type_mhd"], "note": "The reader of each input is a universally quantified predicate here (marker readers are modelled in HmkModel). Findings: a user QID longer than ten characters overruns char[11]; an active attribute shorter than ten leaves stale bytes; the outcome of earlier types is dropped."},
 {"property": "C97", "status": "proved", "theorems": ["run_group_created", "run_group_contents", "results_destination", "results_own_group", "results_own_group_refuted", "results_root_refuted"], "note": "Findings: a bbnbi or afsi run given the QID of an existing run writes its results into that run's group (results_own_group_refuted); if no run group is found results go to the file root and success is returned (results_root_refuted)."},
 {"property": "C98", "status": "proved", "theorems": ["marker_particles", "marker_guiding_centers", "marker_field_lines", "marker_particles_iff", "marker_guiding_centers_iff", "marker_field_lines_iff", "marker_single_group", "marker_number", "marker_number_refuted"], "note": "Finding: a second group of the same QID that has a number but cannot be read changes the returned number while success is returned with the markers of the first group (marker_number_refuted); a column of another length than n overruns or underfills its array (excluded from success here)."},
 {"property": "C99", "status": "proved", "theorems": ["marker_written_back", "marker_written_velocity", "marker_no_overwrite", "marker_empty_refuted", "marker_superluminal_refuted"], "note": "Findings: hdf5_marker_write_particle uses p^2/(c^2 m) in gamma, so the momentum is not recovered (marker_written_velocity, marker_superluminal_refuted); an empty marker list cannot be read back (marker_empty_refuted). Arithmetic is over the reals."},
 {"property": "C100", "status": "proved", "theorems": ["output_state"], "note": "HoutModel/HoutProofs/HoutProps. The file is the tree model of HdfModel; dataset creation fails on an existing name or empty data. Not written by the code: field derivatives, although the documentation says all fields are."},
 {"property": "C101", "status": "proved", "theorems": ["output_orbit", "output_orbit_empty", "output_transcoef"], "note": "Slots in use are those with id > 0.1; ids are 0 or at least 1."},
 {"property": "C102", "status": "proved", "theorems": ["output_dist_lookup", "output_dist_edges", "output_dist_measured", "output_hist_lookup", "output_hist_names", "output_hist_mu_refuted", "output_density_units"], "note": "Reader defined from the file contents alone (edges, units, dimensions, C order). Findings: output_hist_mu_refuted, output_density_units."},
 {"property": "C103", "status": "proved", "theorems": ["explicit2_setup_ok", "explicit2_agrees", "explicit2_natural_is_spline", "explicit2_closing_x_refuted", "explicit2_closing_y_refuted", "explicit3_setup_ok", "explicit3_agrees", "explicit3_is_spline"], "note": "Real-number model. The arrays are given by their final contents; elements that no loop writes are universally quantified (left). closing is the last cell of a periodic direction: interp2Dexpl_init_coeff runs its loops to n-1 whatever the boundary condition, interp3Dexpl_init_coeff does not."},
 {"property": "C104", "status": "proved", "theorems": ["options_applied", "options_missing_refused", "options_dist_edges", "options_torandpol_refuted", "options_torandpol_ionized", "options_thirty_planes_refuted"], "note": "Model of hdf5_options_read and its helpers. The two deviations are proved as findings."},
 {"property": "C105", "status": "proved", "theorems": ["inputs_delivered", "inputs_missing_refused"], "note": "hdf5_nbi.c is treated in its own property; lengths of buffers without wrap-around"},
 {"property": "C106", "status": "proved", "theorems": ["plasma_from_file", "neutral_from_file", "field2D_from_file", "stellarator_from_file"], "note": "exact arithmetic; at grid points for the spline fields; only the first species for the neutrals, the others being a finding"},
 {"property": "C107", "status": "proved", "theorems": ["injectors_from_file", "injectors_missing_refused"], "note": "printouts and memory that is never freed are left out"},
 {"property": "C108", "status": "proved", "theorems": ["bbnbi_settings", "bbnbi_accepts_iff", "bbnbi_inputs_not_selectable", "beam_markers_from_file", "beam_no_power_refuted"], "note": "getopt_long, atoi and atof are arguments. Zero total power is a division by zero (beam_no_power_refuted); options, neutrals and cross-sections cannot be chosen (bbnbi_inputs_not_selectable)."},
 {"property": "C109", "status": "proved", "theorems": ["fo_step_divides_gyration", "gc_step_divides_gyration", "gc_adaptive_first_step", "user_step_wins", "fo_step_infinite_iff", "gc_adaptive_collision_step_refuted"], "note": "The step of neutrals is infinite (fo_step_infinite_iff); the collision part of the adaptive step ignores the plasma, against its documentation (gc_adaptive_collision_step_refuted)."},
 {"property": "C110", "status": "proved", "theorems": ["cartesian_field_from_file", "cartesian_E_from_file", "analytic_field_from_file", "radial_E_from_file", "field3D_from_file", "plasma_spline_from_file", "neutral3D_from_file", "wall2D_from_file", "wall3D_from_file"], "note": "The calls at the end of the readers applied to what was read; grid nodes for splines, everywhere for the Cartesian and analytic fields. The spline initialisations are assumed to succeed (they do for 1DS plasma)."},
 {"property": "C111", "status": "proved", "theorems": ["diag_orbits_own", "diag_transport_own", "diag_distribution_untouched", "diag_distribution_exact", "diag_residence_time", "diag_residence_time_refuted", "diag_backward_negative_refuted"], "note": "Full-orbit markers are assumed to stay in the grid while running (outside it the code deposits uninitialised values, C24). Two findings: the ending step is never deposited; reverse time gives non-positive distributions."},
 {"property": "C112", "status": "proved", "theorems": ["library_order_free", "library_defined_iff", "library_field", "library_analytic_field", "library_rho", "library_axis", "library_E", "library_neutral_density", "library_neutral_overflow", "library_neutral_density_refuted", "library_boozer", "library_mhd", "library_mhd_toroidal", "library_perturbation", "library_species_from_file", "library_modes_from_file", "library_potentials_from_file"], "note": "Loop bodies of the remaining queries as assignments to named arrays, for every order of the points; composed with the field, Boozer, MHD and reader theorems. The stationary MHD model; time-dependent modes go through the same wrapper."},
 {"property": "C113", "status": "proved", "theorems": ["rf_slots_independent", "rf_view", "rf_view_relativity", "rf_momentum", "rf_momentum_refuted", "rf_kick_result", "rf_not_compiled", "rf_disabled", "rf_overshoot", "rf_kicked", "rf_limit_rejects", "rf_memory_refuted", "rf_lifecycle", "rf_query", "rf_query_frequency", "rf_query_refuted"], "note": "The Fortran library is an arbitrary function. Findings: the canonical momentum passed to the library uses the flux already multiplied by 2 pi; energy and speed are nonrelativistic while the gyro frequency is relativistic; a step rejected by the angle limit leaves the library's memory advanced; a proposed step left at its initial 0 gives a zero next step; the query uses a signed frequency."},
 {"property": "C114", "status": "proved", "theorems": ["term_queue_bounded", "term_queue_not_endless", "term_queue_ends", "term_fo_passes", "term_fo_last_pass", "term_gca_passes", "term_fo_ends", "term_gc_fixed_ends", "term_gc_adaptive_ends", "term_ml_adaptive_ends", "term_id_zero", "term_id_zero_refuted", "term_rf_rejected_refuted", "term_time_limit_refuted"], "note": "Passes of SimModel composed with the end conditions of EndcondModel and the queue of QueueModel. The adaptive theorems assume a positive lower bound on the CPU time of a pass and markers with positive id; the findings show that id 0, RF rejections in the fixed-step loop and a time limit alone in the adaptive loop allow endless simulations."},
 {"property": "C115", "status": "proved", "theorems": ["rec_slots_independent", "rec_slot_contents", "rec_distributions", "rec_uninitialised_harmless", "rec_foreign_orbit_refuted", "rec_end_unrecorded_refuted", "rec_out_of_bounds_refuted", "rec_foreign_transport_refuted", "rec_junk_point_refuted", "rec_running_processed_refuted", "rec_angle_refuted"], "note": "record mode of simulate_fo_fixed; the conversion itself is FogcModel, the diagnostics are DgModel. A marker index read from uninitialised memory is taken to be non-negative"},
 {"property": "C116", "status": "proved", "theorems": ["timeplasma_from_file", "timeplasma_right_slices", "timeplasma_rotation_from_file", "timeplasma_electrons_late_refuted", "timeplasma_ions_early_refuted", "timeplasma_constant_refuted"], "note": "End to end from the datasets of the file to the values of the evaluation; the mixed-up densities, the wrong corner in the rotation and the read before the first time are findings."},
 {"property": "C117", "status": "proved", "theorems": ["boozer_from_file", "boozer_at_nodes", "boozer_no_error_inside", "boozer_across_cut", "waves_modes_from_file", "waves_from_file", "waves_off_outside"], "note": "From the file to the evaluation over the reals: readers, initialisation, splines and evaluation composed. The flux, rho and axis functions are arbitrary."},
 {"property": "C118", "status": "proved", "theorems": ["fo_kick_preserves_volume", "fo_drift_preserves_volume", "fo_step_undone", "fo_run_undone"], "note": "Over the reals, for the model of the step of C32 without radiation reaction. The clock is set by the simulation loop between the steps, as in simulate_fo_fixed.c."},
 {"property": "C119", "status": "proved", "theorems": ["reactions_from_file", "reaction_right_iff", "reactions_own_numbers_refuted", "cross_section_from_file", "rate_from_file", "charge_exchange_from_file", "beam_stopping_from_file", "second_cross_section_refuted"], "note": "Composition of the reader, asigma_loc_init and the evaluations. Findings: the numbers of every reaction but the first are read from the wrong place (asigma_loc.c:55); exact condition and counterexample proved."},
 {"property": "C120", "status": "proved", "theorems": ["lcg_rejection_ends", "drand48_rejection_ends", "lcg_normal_array", "drand48_normal_array", "drand48_period", "drand48_visits_all", "drand48_range", "drand48_index", "drand48_seeds"], "note": "drand48 and srand48 are modelled as POSIX defines them. The conversion of the 64-bit state to double is modelled with rounding, the arithmetic after it is exact. One thread draws at a time: drand48 keeps one hidden state which the threads of a simulation share, and what concurrent calls do to it is not modelled."},
 {"property": "C121", "status": "proved", "theorems": ["thermal_infinite_iff", "thermal_bounded", "thermal_draws", "thermal_first_log", "thermal_finite_refuted", "thermal_call_refuted", "thermal_run_blocks", "thermal_run_at_most_one", "math_normal_rand_ends"], "note": "One thread draws at a time. The logarithm of zero is modelled as an infinite energy, the arithmetic is otherwise exact. thermal_finite_refuted is about samples in a row; thermal_call_refuted is about the first reactant of the first cell, thermal_run_blocks and thermal_run_at_most_one about whole runs with two thermal species. That all energies are finite is refuted."}
]}
