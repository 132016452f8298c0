# Design of the formal model of ASCOT5 (Rocq / Coq 8.16.1)

## Scope

`/repo` (ascot4fusion/ascot5, C) is read as text only. Each C function listed
below is transcribed to a small total Gallina function whose comment cites file
and lines. Theorems are about these transcriptions. Nothing is extracted or run
against the C code.

## Layout

For a topic `X` (for example `Queue`):

* `XModel.v`  - transcription of the C code, no proofs.
* `XProofs.v` - specifications (written without the model's helpers) and lemmas.
* `XProps.v`  - only `Theorem ... exact lemma.`, `Print Assumptions`, and
  `Example`s showing that the hypotheses are satisfiable.

## Number domains

* Indices, counters, flags, bit masks, random-generator states: `nat`, `N`, `Z`.
  Wrap-around is written explicitly (`mod 2^64`).
* Floating point: modelled by the reals `R` for algebraic, geometric and
  analytic claims. Rounding, overflow, NaN and infinities are outside these
  theorems; where a claim concerns comparisons with NaN or the rounding of
  the uniform deviate this is stated explicitly.
* Physics evaluated elsewhere (field interpolation, random numbers, special
  functions) enters as universally quantified functions (section variables
  discharged before use), never as axioms.
* Undefined behaviour (out-of-bounds access, uninitialised read, double free)
  is a distinct outcome (`None`, `UB`, or an event in a trace).

## Trusted base

* Coq 8.16.1 kernel and the standard library.
* Axioms reported by `Print Assumptions`: topics over `nat/N/Z` are closed under
  the global context; topics over `R` list the axioms of the standard library's
  real numbers (`ClassicalDedekindReals.sig_forall_dec`,
  `ClassicalDedekindReals.sig_not_dec`,
  `FunctionalExtensionality.functional_extensionality_dep`) and, for some
  theorems using limits, integrals or suprema, `Classical_Prop.classic`. The
  exact list is printed under every theorem in the `*Props.v` files. No other
  library is used.
* The reading of C in the model comments: C semantics of the subset used
  (integer division truncation, short circuit, row-major arrays), OpenMP
  `critical`/`atomic` sections are atomic steps.

## Modelled and not modelled

Modelled (topic: C sources):

* Error, List, State, Mpi, Queue, Hybrid, Main: error.c/h, list.c, particle.h, mpi_interface.c, the queue part of particle.c with the simulate_* loops, simulate.c, ascot5_main.c
* Particle, Fogc: format conversions of particle.c
* Endcond, Sim: endcond.c, time bookkeeping of simulate_*.c
* Random, Wiener: random.c (RANDOM_LCG), mccc_wiener.c
* Math, Math2, Phys, Vec, Angle: math.c/h, physlib.h, consts.h, cumulative poloidal angle of the steps
* Lint, Axis, Spline, Spl2, Spl3, Expl: linint/*.c, spline/*.c
* StepFo, Gc, StepMhd, Rk: simulate/step/*
* Gct, Coll, Gcoll, Erf: gctransform.c, simulate/mccc/*
* Bf, Gs, Biosaw: B_field.c, Bfield/*.c, E_field.c, Efield/*.c, biosaw.c
* Mhd: boozer.c, mhd.c, mhd/*.c
* Plasma, Neutral, Atom: plasma.c, plasma/*.c, neutral.c, neutral/*.c, simulate/atomic.c, asigma.c, asigma/*.c, suzuki.c
* Nbi, Afsi: nbi.c, bbnbi5.c, afsi.c, boschhale.c
* Wall2, Wall3: wall.c, wall/*.c, octree.c
* Orb, Dist, Tc, Dg: diag.c, diag/*.c
* Lib, Lw: input queries of libascot.c
* Rf: rfof.c with its calls in the simulation loops and libascot.c; the Fortran library behind it is an arbitrary function
* Term: the simulation loops as a whole: passes of SimModel, end conditions of EndcondModel and the queue of QueueModel composed
* Rec: record mode of simulate_fo_fixed.c (guiding centres of particles handed to the diagnostics)
* Ptf: plasma_1Dt.c with hdf5_plasma_read_1Dt, from the file to the values
* Wf: boozer.c and mhd_nonstat.c with their readers, from the files to Boozer coordinates and potentials
* Vpa: reversal and volume for step_fo_vpa.c; the model is StepFo
* Rej: rejection loop of the normal sampler in random.c, and the drand48 variant; the other parts of random.c are in Random
* Thm: draws of afsi_sample_thermal_2d with drand48; math_normal_rand of math.c
* Asf: hdf5_asigma.c with asigma_loc.c, from the file to cross-sections and rates
* Hdf, Hmk, Hout, Opt: hdf5io/hdf5_options.c, hdf5_interface.c, hdf5io/hdf5_helpers.c, hdf5_input selection, hdf5_marker.c, hdf5_state.c, hdf5_orbit.c, hdf5_transcoef.c, hdf5_dist.c, hdf5_histogram.c
* Idt: simulate_fo_fixed_inidt, simulate_gc_fixed_inidt, simulate_gc_adaptive_inidt, simulate_ml_adaptive_inidt
* Bbn: bbnbi5_main.c
* Hin, Huse, Hqry, Hnbi: readers of the inputs in hdf5io (hdf5_bfield.c, hdf5_efield.c, hdf5_plasma.c, hdf5_neutral.c, hdf5_wall.c, hdf5_mhd.c, hdf5_boozer.c, hdf5_asigma.c, hdf5_nbi.c)

Not modelled: GPU offload pragmas and copies, printing (print.c), the
Fortran library behind rfof.c, unit tests, Python code, the
HDF5, MPI, getopt and C library implementations (they enter as the assumed
behaviour stated in the model files), floating-point rounding except where a
model says so.

Which `fmod` runs is not settled by the text of the code: math.c:22-24 defines one that rounds the quotient down, while the
C library's rounds towards zero and a compiler may use that one instead. Dist, Gct, Mhd and Orb take the function of math.c,
Axis and Tc that of the C library. With the former the branch for negative angles in `wrap` (Dist) and `check_plane` (Orb)
is never taken, so the theorems say nothing about it; an edit of that branch of `wrap` goes unnoticed (seeded/LOG.jsonl).
No theorem determines the perpendicular momentum of guiding centres in the 5D distributions (`gperp` in Dist) either:
an edit of its factor 2 goes unnoticed.

## Properties and where they are proved

The status and the theorems are in `MANIFEST.json`; the statement in
`properties.jsonl`. Files are `<topic>Model.v`, `<topic>Proofs.v` (some topics
have additional proof files) and `<topic>Props.v`.

| Property | Title | Topic |
|---|---|---|
| C01 | Packed error codes decode to what was raised | Error |
| C02 | Integer list keeps insertion order and is freed exactly once | List |
| C03 | MPI ranks partition the marker set | Mpi |
| C04 | Gathering marker states over MPI loses and mixes nothing | Mpi |
| C05 | Every queued marker is simulated exactly once | Queue |
| C06 | A marker that fails to load is reported and does not block the queue | Queue |
| C07 | Already finished markers are not simulated again | Queue |
| C08 | Brownian-bridge time history stays consistent | Wiener |
| C09 | Markers stop exactly when an enabled end condition is met | Endcond |
| C10 | End-condition codes decode to the set of conditions met | Endcond |
| C11 | Moving a marker between queue and simulation format preserves it | Particle |
| C12 | Simulation errors survive the write-back | Particle |
| C13 | Copying simulation slots is exact and isolated | Particle |
| C14 | Random generator visits every state exactly once per period | Random |
| C15 | Uniform random numbers lie in the unit interval | Random |
| C16 | Coordinate and Jacobian transforms agree with the geometry except for two wrong signs | Math |
| C17 | Angle wrapping returns the representative in [0,y) | Math |
| C18 | Sorted-array search finds the bracketing cell | Math |
| C19 | Point-in-polygon agrees with crossing parity | Math |
| C20 | Adaptive Simpson integration is exact on cubics and additive | Math2 |
| C21 | Orbit history keeps the most recent points in order | Orb |
| C22 | Poincare plane crossings are detected once and located between the end points | Orb |
| C23 | Distribution bins are addressed without collision | Dist |
| C24 | Distributions conserve deposited weight | Dist |
| C25 | First wall contact in 2D is the earliest along the step | Wall2 |
| C26 | Triangle collision test is geometrically correct | Wall3 |
| C27 | Accelerated 3D wall search equals exhaustive search on its candidates | Wall3 |
| C28 | Octree stores a triangle in every leaf that contains one of its points | Wall3 |
| C29 | Linear interpolation reproduces data and stays between neighbours | Lint |
| C30 | Cubic splines interpolate the data and are twice continuously differentiable | Spl2, Spl3, Spline |
| C31 | Reported spline derivatives are the true derivatives of the interpolant | Spl2, Spl3, Spline |
| C32 | The full-orbit step conserves energy in a static magnetic field | StepFo |
| C33 | Guiding-centre equations conserve energy and magnetic moment | Gc |
| C34 | Runge-Kutta tableaux have their design order | Gc |
| C35 | Adaptive step control accepts only within tolerance | Gc |
| C36 | Adaptive simulation time bookkeeping | Sim |
| C37 | 1D plasma profiles are interpolated within bounds | Plasma |
| C38 | Time-dependent plasma profiles interpolate in time | Plasma |
| C39 | Neutral data keeps species apart | Neutral |
| C40 | Radial electric field scaling | Bf |
| C41 | Axisymmetric field components and derivatives are consistent | Bf |
| C42 | Field evaluation failures give defined defaults and an error | Bf |
| C43 | Atomic reactions keep the charge state physical | Atom |
| C44 | Beam markers are shared out exactly | Nbi |
| C45 | Fusion products conserve momentum and energy in the centre of mass | Afsi |
| C46 | Fusion reactant sampling picks the bin it sampled | Afsi |
| C47 | Fusion reactions conserve charge | Afsi |
| C48 | Coil field equals the Biot-Savart integral | Biosaw |
| C49 | Collision coefficients belong to one Fokker-Planck operator | Coll |
| C50 | Collisional pitch reflection | Gcoll |
| C51 | Guiding-centre transformation round trip | Gct |
| C52 | Field-line curvature in the guiding-centre transformation | Gct |
| C53 | Transport coefficient evaluation stays inside the recorded data | Tc |
| C54 | Relativistic kinematics helpers invert each other | Phys |
| C55 | Hybrid mode hands markers over to full orbit | Hybrid |
| C56 | Input markers are validated and converted faithfully | Particle |
| C57 | Normal deviates are Box-Muller pairs and fill the array exactly | Random |
| C58 | Matrix product layout | Math2 |
| C59 | Unique values are counted exactly | Math2 |
| C60 | Equally spaced vectors and integer powers | Math2 |
| C61 | Plane test, barycentric coordinates and position conversion | Math2 |
| C62 | Histogram object addresses its bins without collision | Dist |
| C63 | Summing distributions | Dist |
| C64 | The 2D wall cannot be tunnelled through | Wall2 |
| C65 | The accelerated 3D wall search misses no well-resolved triangle | Wall3 |
| C66 | Toroidal canonical momentum follows the guiding-centre motion | Gc |
| C67 | Fixed-step simulation clocks | Sim |
| C68 | Time acceleration factor | Sim |
| C69 | Spline plasma profiles are positive and exact at the grid | Plasma |
| C70 | Plasma dispatcher reports failures with defaults | Plasma |
| C71 | Analytic equilibrium is a consistent magnetic field | Gs |
| C72 | Three-dimensional and stellarator fields come from their splines | Bf |
| C73 | Cartesian test field: value, derivatives and their mismatch | Bf |
| C74 | Atomic data lookups are sums over tables and never negative | Atom |
| C75 | Beam-stopping fit stays within its tables | Atom |
| C76 | Beam markers start on a beamlet with the sampled energy and divergence | Nbi |
| C77 | Neutral beam markers fly straight, decay exponentially and always stop | Nbi |
| C78 | Fusion products are deposited in their own bin | Afsi |
| C79 | Collision step of a particle | Coll |
| C80 | Milstein scheme and its step control | Gcoll |
| C81 | First-order guiding-centre corrections are adiabatic | Gct |
| C82 | Transport coefficients come from the marker's own crossings | Tc |
| C83 | Boozer coordinates and their derivatives | Mhd |
| C84 | MHD mode potentials are consistent with their derivatives | Mhd |
| C85 | Perturbed fields come from the potentials | Mhd |
| C86 | Steps with MHD perturbations reduce to the plain steps | StepMhd |
| C87 | Cumulative poloidal angle follows the marker around the axis | Angle |
| C88 | Full-orbit slots convert to guiding-centre slots | Fogc |
| C89 | Mapping of flux coordinates to (R,z) | Lib |
| C90 | Search for the magnetic axis by gradient descent | Lib |
| C91 | Derived library quantities and output layouts | Lib |
| C92 | Command line arguments are interpreted as documented | Main |
| C93 | Markers keep their place from input to output whatever the number of processes | Main |
| C94 | The run summary accounts for every marker, and marker arrays are freed once | Main |
| C95 | HDF5 addresses and run identifiers are exact | Hdf |
| C96 | Input reading uses the chosen QIDs, succeeds exactly when all inputs are readable and stops at the first failure | Hdf |
| C97 | A run gets its own group, and results go to the active run | Hdf |
| C98 | Marker input is read completely and in SI units | Hmk |
| C99 | Written particle markers can be read back | Hmk |
| C100 | Final and initial marker states are written completely | Hout |
| C101 | Orbit and transport-coefficient output has one row per record in use | Hout |
| C102 | A distribution read from the file is the one that was collected | Hout |
| C103 | The two ways of storing a spline give the same function | Expl |
| C104 | Options in the file take effect as documented | Opt |
| C105 | Every input dataset reaches the parameter it is meant for | Hin |
| C106 | Queries return what the input file contains | Huse |
| C107 | Injectors have the properties and beamlets of their own datasets | Hnbi |
| C108 | Beam program's command line and the markers of each injector | Bbn |
| C109 | Fixed time steps are the asked fraction of the gyration | Idt |
| C110 | Fields, walls, spline profiles and 3D neutrals in the file come back from the queries | Hqry |
| C111 | A distribution collects the time every marker spends, each diagnostic sees only its own data | Dg |
| C112 | The external library returns the input data, point by point | Lw |
| C113 | RF heating kicks only its own marker and the library sees a consistent marker | Rf |
| C114 | A simulation with a suitable limit ends, however many threads and whatever the physics does | Term |
| C115 | Recording guiding centres of particles counts each running particle once, and nothing else | Rec |
| C116 | Time-dependent plasma profiles: what the simulation sees of the file | Ptf |
| C117 | Boozer coordinates and time-dependent waves: what the simulation sees of the files | Wf |
| C118 | The full-orbit step can be undone and preserves phase-space volume | Vpa |
| C119 | Atomic reactions from the file to the rates | Asf |
| C120 | Sampling normal deviates by rejection always ends, with a number | Rej |
| C121 | Energies of thermal fusion reactants drawn with drand48 | Thm |

## Findings

Places where the unchanged code does not do what its documentation or a user
would expect. Each one is a theorem about the transcription: a `_refuted`
witness or an exact characterisation.

* particle.c has raise sites above line 1023; their file and line decode wrongly (`error_particle_line_refuted`)
* errors of suzuki.c and of type ERR_INTEGRATION have no text (`error_text_missing_refuted`)
* Condor builds print a summary beyond the end of the marker array (`condor_summary_out_of_bounds_refuted`)
* orbit quantities are exchanged correctly over MPI only in full-orbit and guiding-centre modes (`orbit_quantities_exchanged_iff`)
* a finished marker in the guiding-centre or field-line queue stops a worker early (`queue_ended_marker_gc_refuted`)
* a marker with a negative identifier is never written back (`queue_negative_id_never_written_back`)
* field-line errors are erased on write-back (`particle_ml_error_erased`)
* the direction of a field-line marker is lost at input (`particle_input_ml_direction_lost`)
* cleaning the Wiener array past its last time leaves it without a head (`wiener_clean_late`)
* backward tracing never cleans the Wiener array and repeats values (`wiener_backward_never_cleaned`)
* a uniform deviate of exactly one gives an index past the end (`random_uniform_index_refuted`)
* the inverse Jacobian transform has two wrong signs (`math_jac_rpz2xyz_correct_iff`)
* Poincare crossings beyond half a turn are placed from the wrong side; radial crossings of particles use swapped weights (`plane_located_refuted`, `fo_radial_recorded_refuted`)
* particles outside the grid deposit an uninitialised weight (`dist_fo_outside_refuted`)
* an out-of-range coordinate of the general histogram spills into another bin (`hist_outside_counted_refuted`)
* summing 5D distributions omits the toroidal axis, summing COM ones adds the 6D arrays instead (`diag_sum_5d_refuted`, `diag_sum_com_refuted`)
* a step starting on a wall triangle is a hit only for the accelerated search (`wall3d_start_on_wall_refuted`)
* linear interpolation reads outside its table at the exact upper end; linint2D never stores its boundary conditions (`linint1D_upper_end_refuted`, `linint3D_upper_end_refuted`, `linint2D_bc_not_stored_refuted`)
* radiation reaction: acts on motion along the field, does not scale with the step, and gives no number at rest (`ald_parallel_motion_refuted`, `ald_ignores_step_length_refuted`, `fo_step_at_rest_refuted`)
* the guiding-centre equations with MHD do not reduce to the plain ones (`gc_mhd_unperturbed_refuted`)
* the step growth limit fails backwards in time (`reverse_time_step_cap_refuted`)
* field-line integration never reports an error (`ml_error_reported_refuted`, `ml_mhd_error_reported_refuted`)
* the full-orbit MHD step ignores the radiation-reaction switch (`fo_mhd_ignores_ald_refuted`)
* reversed time without orbit following makes no progress; two equal limit violations are accepted (`adaptive_reverse_without_orbit_refuted`, `adaptive_limits_refuted`)
* with RF heating the fixed-step clock and the modules disagree (`fixed_gc_rf_clock_refuted`, `fixed_gc_rf_refill_refuted`)
* the acceleration factor alternates on a periodic orbit (`acceleration_settles_refuted`)
* 1D plasma rotation is not interpolated; time-dependent densities read the wrong species and slice (`plasma1D_rotation_interpolated_refuted`, `plasma1Dt_density_refuted`, `plasma1Dt_last_interval_refuted`)
* plasma dispatcher: unknown types and spline rotation errors are reported as success (`plasma_unknown_type_refuted`, `plasma_spline_rotation_error_refuted`)
* all neutral species return the first species' table (`neutral1D_second_species_refuted`, `neutral_default_others_refuted`, `neutral1D_upper_end_refuted`)
* flux derivatives of the analytic equilibrium carry a wrong factor; its ripple is misplaced (`gs_flux_derivatives_refuted`, `gs_ripple_divergence_refuted`, `gs_ripple_midplane_refuted`)
* diagonal derivatives of the Cartesian test field are overwritten (`cartesian_field_derivatives_refuted`)
* the coil field is no number on the extension of a segment (`coil_extension_refuted`, `coil_repeated_point`)
* atomic data: offsets never advance, errors are lost, duplicate tables add up, an absent impurity reads row -1 (`asigma_init_offset_refuted`, `asigma_init_error_refuted`, `asigma_bms_double_count`, `suzuki_absent_impurity_refuted`)
* beams: zero power divides by zero, small injectors are dropped, a beamlet missing the field loops for ever (`beam_no_power_undefined`, `beam_small_injector_dropped`, `beam_never_enters`)
* fusion products: laboratory momentum short by the mass defect, reactant bins decoded wrongly (`fusion_lab_momentum_iff`, `beam_sampler_energy_refuted`, `beam_sampler_flux_outside`)
* an idle collision step shifts the parallel momentum in a flowing plasma (`gcoll_idle_flow`)
* the guiding-centre transform: wrong first order in some uniform fields, gauge vector of wrong sign (`gct_uniform_refuted`, `gct_gauge_sign_refuted`, `gct_no_moment_undefined`)
* transport coefficients: sums of n-1 terms divided by n, a coefficient from a single group (`tc_constant_drift`, `tc_one_group`)
* MHD potentials lack the toroidal derivative of the flux; boozer_init loses the first error (`mhd_nonaxisymmetric_refuted`, `boozer_init_masks_error`)
* the cumulative poloidal angle drifts when the axis depends on the toroidal angle; the axis is looked up at a stale angle in particle_fo_to_gc (`poloidal_angle_geometric_refuted`, `fo_to_gc_axis_refuted`)
* the hybrid flag of a marker can stay set (`hybrid_flag_always_cleared_refuted`)
* library queries: 5 m bracket, endless descent, padding of either sign, 3D step off the gradient (`rhotheta_far_refuted`, `descent_endless_refuted`, `descent_padding_refuted`, `descent_3d_gradient_refuted`)
* command line: long arguments overrun, ".h5" doubled; failures free arrays twice; summary without markers reads beyond (`cmdline_long_refuted`, `cmdline_double_extension_refuted`, `arrays_failure_refuted`, `summary_no_markers_refuted`)
* HDF5: short QIDs lose the dataset name; results can go to another run's group or to the file root (`short_qid_refuted`, `results_own_group_refuted`, `results_root_refuted`)
* markers: count of an unreadable second group kept; written momenta not recovered; empty list unreadable (`marker_number_refuted`, `marker_superluminal_refuted`, `marker_empty_refuted`)
* output: mu axis labelled T/eV in J/T; 5D and 6D density units not the inverse of the axes (`output_hist_mu_refuted`, `output_density_units`)
* interp2Dexpl_init_coeff stops its loops one cell short in a periodic direction, so evaluation in the closing cell reads unwritten coefficients (src/spline/interp2Dexpl.c:58, 70, 76) (`explicit2_closing_x_refuted`, `explicit2_closing_y_refuted`)
* hdf5_options_read sets endcond_torandpol from ENDCOND_IONIZED instead of ENDCOND_MAXORBS (src/hdf5io/hdf5_options.c:155-161): asking for both orbit limits stops markers at the first one (`options_torandpol_refuted`, `options_torandpol_ionized`)
* hdf5_options_read_diagorb leaves the number of Poincare planes unset when all thirty places are used (src/hdf5io/hdf5_options.c:687-721) (`options_thirty_planes_refuted`)
* bbnbi_simulate divides by the summed power of the injectors without checking it (src/bbnbi5.c:63-68): injectors of zero power give marker counts of 0/0 (`beam_no_power_refuted`)
* the beam program reads options, neutrals and cross-sections but rejects arguments that would choose them (src/bbnbi5_main.c:150-164) (`bbnbi_inputs_not_selectable`)
* simulate_fo_fixed_inidt gives neutral markers an infinite step unless the user defines one (src/simulate/simulate_fo_fixed.c:246-250) (`fo_step_infinite_iff`)
* simulate_gc_adaptive_inidt uses a collision frequency of 1/s whatever the plasma is, so the first step is not the documented hundredth of the collision time (src/simulate/simulate_gc_adaptive.c:356-363) (`gc_adaptive_collision_step_refuted`)
* the step that ends a marker's simulation is missing from every distribution (end conditions are checked before the diagnostics are updated) (`diag_residence_time_refuted`)
* with time running backward the distributions are negative (`diag_backward_negative_refuted`)
* libascot_neutral_eval_density stores the densities of all species in a one-element array, a stack overrun for two or more species (src/libascot.c:493-500) (`library_neutral_overflow`, `library_neutral_density_refuted`)
* libascot_mhd_eval returns the gradient component where the toroidal derivatives of the potentials are announced: dadphi and dPhidphi lack a factor R (src/libascot.c:697-709) (`library_mhd_toroidal`, `library_mhd`)
* rfof_resonance_check_and_kick_gc computes the canonical toroidal momentum from the flux already multiplied by 2 pi, so the value given to the library is not conserved (src/rfof.c:221-230) (`rf_momentum`, `rf_momentum_refuted`)
* the energy and speed given to the RF library are nonrelativistic while the gyro frequency is relativistic; the speed can exceed that of light (src/rfof.c:223-233) (`rf_view_relativity`)
* a step rejected by ada_max_dphi after an RF kick restores the marker but not the resonance history (src/simulate/simulate_gc_adaptive.c:193-226) (`rf_limit_rejects`, `rf_memory_refuted`)
* libascot_eval_rfof uses a signed, nonrelativistic gyro frequency: for negative charges it never finds the resonance of the simulation (src/libascot.c:1008) (`rf_query_frequency`, `rf_query_refuted`)
* a marker with id 0 is accepted and moved by the adaptive guiding-centre loop but its time, mileage and CPU time never advance, so no time or CPU limit ends it (src/simulate/simulate_gc_adaptive.c:204) (`term_id_zero`, `term_id_zero_refuted`)
* simulate_gc_fixed does not charge CPU time for passes rejected by the RF module: the CPU limit never ends a marker that is always rejected (src/simulate/simulate_gc_fixed.c:180-217) (`term_rf_rejected_refuted`)
* with a time limit but no CPU limit the adaptive loop need not end; only step_gc_cashkarp rejects extremely small steps, not its MHD version, the field-line integrator or the collision operator (`term_time_limit_refuted`)
* in record mode simulate_fo_fixed passes a particle that has just ended with uninitialised index, end condition and coordinates to the diagnostics: its last point can go into any other marker's orbit, behind the arrays or be lost, and another marker's transport coefficients are evaluated under its id (src/simulate/simulate_fo_fixed.c:177-180) (`rec_foreign_orbit_refuted`, `rec_end_unrecorded_refuted`, `rec_out_of_bounds_refuted`, `rec_foreign_transport_refuted`)
* in record mode a particle that goes on but whose guiding centre cannot be computed gets orbit points with uninitialised coordinates and may be processed by the transport diagnostic as if it had ended (`rec_junk_point_refuted`, `rec_running_processed_refuted`)
* in record mode, with an axis that depends on the toroidal angle, the poloidal angle of the guiding centre depends on uninitialised memory (`rec_angle_refuted`)
* time-dependent plasma profiles: the density array is filled species by species but evaluated time by time, so that the densities returned are those of other species and times; even for constant densities the electron density late in the simulation is that of the last ion species (src/plasma/plasma_1Dt.c:62-65 and :262-263) (`timeplasma_right_slices`, `timeplasma_electrons_late_refuted`, `timeplasma_ions_early_refuted`, `timeplasma_constant_refuted`)
* atomic reactions from a file with more than one reaction: each table has the names and the grid of its own reaction but the numbers from the start of the data, so the rates are those of another reaction unless the numbers agree (src/asigma/asigma_loc.c:55) (`reaction_right_iff`, `reactions_own_numbers_refuted`, `second_cross_section_refuted`)
* afsi_sample_thermal_2d takes the logarithm of numbers that can be zero: whatever the seed, one in 2^46 samples has an infinite energy, for some seeds an early one (`thermal_finite_refuted`, `thermal_call_refuted`, `thermal_infinite_iff`)
