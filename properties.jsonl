{"id": "C01", "title": "Packed error codes decode to what was raised", "statement": "An error value raised with a type, source line and file decodes to the same type, line and file whenever the type is below 256 and the line below 1024, the raised value is never 0 (so no raised error reads as success), and outside that range decoding attributes the error to a different line and file.", "quantifier": "every error type, every source line, every file code", "why_tests_cant": "The raise sites are spread over 28 files; tests decode a few sites, none above line 1023.", "anchors": ["src/error.h:error_raise", "src/error.c:error_parse", "src/particle.c (raise sites above line 1023)"]}
{"id": "C02", "title": "Integer list keeps insertion order and is freed exactly once", "statement": "After any sequence of additions to a fresh list, its size is the number of additions and reading index i gives the i-th added value; freeing the list deallocates every node that was allocated for it exactly once and touches no deallocated node; reading at index size or beyond is not a defined read.", "quantifier": "every sequence of added values, every index, every heap the allocator may have produced", "why_tests_cant": "Tests use short lists and cannot observe a double free, a leak or a read of a never-written field.", "anchors": ["src/list.c:list_int_create,list_int_add,list_int_get,list_int_size,list_int_free"]}
{"id": "C03", "title": "MPI ranks partition the marker set", "statement": "For any number of markers and any number of processes the index ranges handed to the processes are pairwise disjoint, in rank order, and cover every marker exactly once; the last rank receives the remainder, so its share exceeds the others by less than the number of processes.", "quantifier": "every marker count, every process count, every rank", "why_tests_cant": "Tests fix one or two process counts.", "anchors": ["src/mpi_interface.c:mpi_my_particles"]}
{"id": "C04", "title": "Gathering marker states over MPI loses and mixes nothing", "statement": "After the root has gathered end states, every marker's every transferred field (real, integer, and error) at its global index equals what its owning rank held, for any split of the markers over the ranks; fields that are not transferred are never read by the unpacking.", "quantifier": "every number of ranks, every number of markers, every field value", "why_tests_cant": "Field mix-ups only appear for particular splits and field combinations; tests run on one rank.", "anchors": ["src/mpi_interface.c:mpi_gather_particlestate,mpi_my_particles"]}
{"id": "C05", "title": "Every queued marker is simulated exactly once", "statement": "However worker threads interleave while taking markers from the shared queue, no marker is ever loaded into two slots, no marker is skipped, and each finished marker is written back to its own place in the queue; when all workers stop, every marker has been finished and the finished count equals the queue length.", "quantifier": "every queue length, thread count, slot count, per-marker fate and every interleaving of thread steps", "why_tests_cant": "A lost or duplicated marker depends on the schedule; tests run one schedule.", "anchors": ["src/particle.c:particle_cycle_fo,particle_cycle_gc,particle_cycle_ml", "src/particle.h:particle_queue"]}
{"id": "C06", "title": "A marker that fails to load is reported and does not block the queue", "statement": "A marker whose conversion to simulation format fails gets that error recorded in its own queue entry, counts as finished, never becomes running, and the slot proceeds to the next marker.", "quantifier": "every assignment of conversion results to markers, every schedule", "why_tests_cant": "Conversion failures are rare and position dependent.", "anchors": ["src/particle.c:particle_cycle_fo,particle_cycle_gc,particle_cycle_ml"]}
{"id": "C07", "title": "Already finished markers are not simulated again", "statement": "When the queue holds markers that already have an end condition, the full-orbit loader skips them and leaves their state untouched; the guiding-centre and field-line loaders do not check, and there an already finished marker can end a worker before the rest of the queue is simulated.", "quantifier": "every assignment of end conditions to markers, every schedule", "why_tests_cant": "Needs mixed queues; tests start with fresh markers.", "anchors": ["src/particle.c:particle_cycle_fo,particle_cycle_gc,particle_cycle_ml"]}
{"id": "C08", "title": "Brownian-bridge time history stays consistent", "statement": "For any sequence of generate and clean requests, the stored times of the Wiener process stay sorted, each stored time appears once, slots in use and free slots never overlap, a value generated at a time is the value returned later for the same time, and a request at a time already stored consumes no randomness.", "quantifier": "every sequence of requested times, cleaning times and random numbers", "why_tests_cant": "Slot reuse patterns are combinatorial; tests exercise a handful.", "anchors": ["src/simulate/mccc/mccc_wiener.c:mccc_wiener_initialize,mccc_wiener_generate,mccc_wiener_clean"]}
{"id": "C09", "title": "Markers stop exactly when an enabled end condition is met", "statement": "After an end-condition check a running marker is stopped if and only if at least one enabled criterion holds or it carries an error; every criterion bit set corresponds to a criterion that is enabled and true; a disabled criterion can never stop a marker; bits already set are kept and markers that are not running are untouched.", "quantifier": "every marker state before and after the step, every option set, every combination of criteria", "why_tests_cant": "There are 12 interacting criteria with strict and non-strict comparisons.", "anchors": ["src/endcond.c:endcond_check_fo,endcond_check_gc,endcond_check_ml"]}
{"id": "C10", "title": "End-condition codes decode to the set of conditions met", "statement": "Decoding an end-condition bit mask lists exactly the codes of the bits that are set, each once, in increasing order, and different sets of conditions have different masks.", "quantifier": "every combination of the twelve end-condition flags", "why_tests_cant": "4096 combinations and array bounds.", "anchors": ["src/endcond.h", "src/endcond.c:endcond_parse"]}
{"id": "C11", "title": "Moving a marker between queue and simulation format preserves it", "statement": "Loading a marker state into a simulation slot and writing it straight back preserves id, weight, time, mileage, CPU time, cumulative poloidal angle, end condition, wall tile and position in all three simulation modes; mass, charge and species numbers survive in particle and guiding-centre mode, while field lines keep only the sign of the parallel momentum and erase mass and charge. A slot loaded this way runs exactly when the state has no end condition.", "quantifier": "every marker state, every magnetic field", "why_tests_cant": "Round trips cover about thirty fields in three formats; a dropped or swapped field shows only for particular values.", "anchors": ["src/particle.c:particle_state_to_fo,particle_fo_to_state,particle_state_to_gc,particle_gc_to_state,particle_state_to_ml,particle_ml_to_state"]}
{"id": "C12", "title": "Simulation errors survive the write-back", "statement": "An error raised during simulation is still present in the marker's end state after write-back for particles and guiding centres; for field lines it is erased.", "quantifier": "every marker, every error value", "why_tests_cant": "Requires an error mid-simulation; tests do not provoke it.", "anchors": ["src/particle.c:particle_fo_to_state,particle_gc_to_state,particle_ml_to_state"]}
{"id": "C13", "title": "Copying simulation slots is exact and isolated", "statement": "Copying slot i of one marker bundle to slot j of another makes every field used by the stepping and end-condition code equal, and changes no other slot.", "quantifier": "every pair of bundles, every pair of slots", "why_tests_cant": "Forgetting one of about forty fields corrupts only rejected adaptive steps.", "anchors": ["src/particle.c:particle_copy_fo,particle_copy_gc,particle_copy_ml", "src/simulate/simulate_gc_adaptive.c"]}
{"id": "C14", "title": "Random generator visits every state exactly once per period", "statement": "The built-in linear congruential generator's state transition is a bijection of the 2^64 states and from any seed it returns to the seed after exactly 2^64 draws and no fewer, so every 64-bit value appears once per period.", "quantifier": "every 64-bit seed, every number of draws", "why_tests_cant": "2^64 draws cannot be enumerated.", "anchors": ["src/random.h:random_lcg_integer", "src/random.c"]}
{"id": "C15", "title": "Uniform random numbers lie in the unit interval", "statement": "Every uniform deviate lies in [0,1]; 0 and 1 are both attained, so code relying on a value strictly below 1 can index one past the end.", "quantifier": "every 64-bit generator state", "why_tests_cant": "The value 1.0 has probability about 2^-54.", "anchors": ["src/random.c:random_lcg_uniform", "src/nbi.c:nbi_inject"]}
{"id": "C16", "title": "Coordinate and Jacobian transforms agree with the geometry except for two wrong signs", "statement": "Vector conversions between the cylindrical and Cartesian bases invert each other and preserve dot products at every angle. The Cartesian-to-cylindrical Jacobian conversion gives the true partial derivatives of the cylindrical components of any affine field; the cylindrical-to-Cartesian one recovers ten of the twelve entries and gets dBy/dx and dBy/dy wrong by 2 Bx sin(phi)/r and -2 Bx cos(phi)/r, so it is correct exactly when Bx vanishes and otherwise breaks the divergence, the curl and the round trip.", "quantifier": "every field value and Jacobian, every r not 0, every angle", "why_tests_cant": "Existing unit tests compare nothing against analytic derivatives of a field with Bx not 0.", "anchors": ["src/math.c:math_jac_rpz2xyz,math_jac_xyz2rpz", "src/math.h:math_vec_rpz2xyz,math_vec_xyz2rpz"]}
{"id": "C17", "title": "Angle wrapping returns the representative in [0,y)", "statement": "The library's fmod returns for y>0 a value in [0,y) differing from x by an integer multiple of y, and is the identity on [0,y).", "quantifier": "every real x and every y>0", "why_tests_cant": "Negative and large angles are rarely tested.", "anchors": ["src/math.c:fmod"]}
{"id": "C18", "title": "Sorted-array search finds the bracketing cell", "statement": "Searching a strictly increasing array for a key returns the unique index i with a[i] <= key < a[i+1] when the key is within [first,last) and nothing otherwise, reading only inside the array.", "quantifier": "every array length, every strictly increasing array, every key", "why_tests_cant": "Binary search boundaries; tests use one array.", "anchors": ["src/math.c:math_rsearch,rcomp"]}
{"id": "C19", "title": "Point-in-polygon agrees with crossing parity", "statement": "For a closed polygon none of whose vertices lies on the query height, the test returns 1 exactly when a ray to the right crosses the boundary an odd number of times; the result is unchanged by reversing the vertex order or translating polygon and point; a vertex exactly at the query height can flip the answer.", "quantifier": "every polygon, every point", "why_tests_cant": "Degenerate heights have measure zero.", "anchors": ["src/math.c:math_point_in_polygon"]}
{"id": "C20", "title": "Adaptive Simpson integration is exact on cubics and additive", "statement": "For every polynomial of degree at most three (in fact five, by the final correction term) the adaptive integrator returns the exact integral at every recursion depth, and recursion always stops after at most twenty levels.", "quantifier": "every such polynomial, every interval, every tolerance", "why_tests_cant": "Adaptive recursion depends on the integrand.", "anchors": ["src/math.c:math_simpson,math_simpson_helper"]}
{"id": "C21", "title": "Orbit history keeps the most recent points in order", "statement": "After any number of recorded points each marker's orbit buffer holds the last min(recorded, capacity) points, each in a distinct slot of that marker's own section, and no other marker's section is modified.", "quantifier": "every capacity, every number of records, every marker index", "why_tests_cant": "Wrap-around only occurs after the buffer fills.", "anchors": ["src/diag/diag_orb.c:diag_orb_update_fo,diag_orb_update_gc,diag_orb_update_ml"]}
{"id": "C22", "title": "Poincare plane crossings are detected once and located between the end points", "statement": "For an angle moving by less than a full turn the detector reports a crossing exactly when a plane (modulo a turn) lies after the start and not after the end going forward, or strictly between going backward; every plane passed on a forward path is counted once. For steps up to half a turn the returned fraction interpolates linearly to the plane; a radial crossing fraction interpolates to the surface. (Found: a backward marker stopping on the plane is missed, past half a turn the fraction is wrong, a particle's radial crossing point is mirrored.)", "quantifier": "every start angle, end angle and plane angle", "why_tests_cant": "Many turns and signs of direction.", "anchors": ["src/diag/diag_orb.c:diag_orb_check_plane_crossing,diag_orb_check_radial_crossing"]}
{"id": "C23", "title": "Distribution bins are addressed without collision", "statement": "For all five distribution types, distinct bin tuples inside the grid map to distinct array positions, all inside the allocated array.", "quantifier": "every grid shape, every pair of bin tuples", "why_tests_cant": "Index formulas with up to eight dimensions; collisions depend on shape.", "anchors": ["src/diag/dist_5D.c:dist_5D_index", "src/diag/dist_6D.c", "src/diag/dist_rho5D.c", "src/diag/dist_rho6D.c", "src/diag/dist_com.c"]}
{"id": "C24", "title": "Distributions conserve deposited weight", "statement": "Guiding-centre distribution updates add exactly weight times time step of each running in-grid marker to exactly one bin (the one whose cell contains it) and leave all other bins unchanged, so after any history the sum of all bins equals the total deposited; out-of-grid markers contribute nothing. The same holds for particles while all running ones are inside the grid (found: one outside deposits an uninitialised weight).", "quantifier": "every history of marker states and steps, every grid", "why_tests_cant": "Needs all histories; a lost update is invisible in plots.", "anchors": ["src/diag/dist_5D.c:dist_5D_update_gc", "src/diag/dist_rho5D.c", "src/diag/dist_com.c"]}
{"id": "C25", "title": "First wall contact in 2D is the earliest along the step", "statement": "When the 2D wall reports an intersection, the reported fraction locates a point lying on the reported wall segment and on the step, no other wall segment that is not parallel to the step is crossed earlier, and if no segment is crossed none is reported.", "quantifier": "every wall polygon, every step", "why_tests_cant": "Concave walls with many crossings.", "anchors": ["src/wall/wall_2d.c:wall_2d_find_intersection,wall_2d_hit_wall"]}
{"id": "C26", "title": "Triangle collision test is geometrically correct", "statement": "For a step that is not almost parallel to the triangle, the triangle test reports a nonnegative fraction exactly when the step meets the triangle, and it is the fraction at which it meets it. In every case a reported fraction is at most one and the point at that fraction is within 2e-9 of a point of the triangle; a degenerate triangle or an empty step reports no collision.", "quantifier": "every non-degenerate triangle, every segment", "why_tests_cant": "Continuous geometry.", "anchors": ["src/wall/wall_3d.c:wall_3d_tri_collision"]}
{"id": "C27", "title": "Accelerated 3D wall search equals exhaustive search on its candidates", "statement": "The accelerated search returns the nearest collision among all triangles listed in the cells it visits; it never reports a triangle that the exhaustive geometric test rejects, and if every triangle hit by the step is listed in a visited cell it reports a first hit.", "quantifier": "every triangle set, every cell layout, every step", "why_tests_cant": "Millions of triangles; misses depend on geometry.", "anchors": ["src/wall/wall_3d.c:wall_3d_hit_wall,wall_3d_hit_wall_full,wall_3d_init_octree"]}
{"id": "C28", "title": "Octree stores a triangle in every leaf that contains one of its points", "statement": "For every depth and box, a point inside the root box that is strictly off all dividing planes reaches exactly one leaf whose box contains it, and every triangle with a vertex strictly in that leaf box is listed there; a point exactly on a dividing plane reaches no leaf.", "quantifier": "every depth, box, triangle set and point", "why_tests_cant": "Depth seven gives two million leaves.", "anchors": ["src/octree.c:octree_create,octree_add,octree_get", "src/wall/wall_3d.c:wall_3d_tri_in_cube"]}
{"id": "C29", "title": "Linear interpolation reproduces data and stays between neighbours", "statement": "Linear interpolation returns the table value at every node below the last, stays between the neighbouring table values, is continuous across nodes, wraps in periodic directions, and reports an error exactly when a non-periodic coordinate is outside the grid; at the exact upper end it reads past the table.", "quantifier": "every table, every grid, every coordinate", "why_tests_cant": "Upper-edge evaluation has measure zero.", "anchors": ["src/linint/linint1D.c", "src/linint/linint2D.c", "src/linint/linint3D.c"]}
{"id": "C30", "title": "Cubic splines interpolate the data and are twice continuously differentiable", "statement": "For any table of at least three (periodic) or at least two (natural) values, the constructed spline equals the data at every node, has matching first and second derivatives at every interior node, and satisfies the boundary condition (zero curvature at ends, or periodicity).", "quantifier": "every table length, every table, both boundary conditions", "why_tests_cant": "The tridiagonal elimination has length n; tests use one n and a smooth function.", "anchors": ["src/spline/splinecomp.c:splinecomp", "src/spline/splineexpl.c:splineexpl", "src/spline/interp1Dcomp.c"]}
{"id": "C31", "title": "Reported spline derivatives are the true derivatives of the interpolant", "statement": "The first and second derivatives (including mixed ones in 2D) returned by the interpolation routines equal the mathematical derivatives of the returned value as a function of the coordinate, inside every cell.", "quantifier": "every coefficient table, every point inside a cell", "why_tests_cant": "Finite-difference tests only sample.", "anchors": ["src/spline/interp1Dcomp.c:interp1Dcomp_eval_df", "src/spline/interp2Dcomp.c:interp2Dcomp_eval_df"]}
{"id": "C32", "title": "The full-orbit step conserves energy in a static magnetic field", "statement": "With no electric field and no radiation reaction the momentum rotation of the full-orbit step leaves the momentum norm unchanged for every field, charge, mass and time step; neutral markers move ballistically with constant Cartesian momentum.", "quantifier": "every momentum, field, charge, mass and step length", "why_tests_cant": "Exact conservation for all inputs.", "anchors": ["src/simulate/step/step_fo_vpa.c:step_fo_vpa"]}
{"id": "C33", "title": "Guiding-centre equations conserve energy and magnetic moment", "statement": "The guiding-centre time derivatives have zero magnetic-moment change (without radiation reaction) and, with no electric field, exactly zero time derivative of the relativistic kinetic energy along the motion, for any magnetic field and gradient.", "quantifier": "every phase-space point, field and field gradient with nonzero denominator", "why_tests_cant": "Holds identically only by cancellation.", "anchors": ["src/simulate/step/step_gceom.h:step_gceom"]}
{"id": "C34", "title": "Runge-Kutta tableaux have their design order", "statement": "The coefficients used by the adaptive guiding-centre and field-line steps satisfy all order conditions for fifth order, and for fourth order for the embedded solution; the fixed step satisfies those for fourth order; both reproduce polynomial solutions up to that degree exactly.", "quantifier": "every right-hand side (through the order conditions), every step length", "why_tests_cant": "Order is an asymptotic statement.", "anchors": ["src/simulate/step/step_gc_cashkarp.c", "src/simulate/step/step_ml_cashkarp.c", "src/simulate/step/step_gc_rk4.c"]}
{"id": "C35", "title": "Adaptive step control accepts only within tolerance", "statement": "A step is accepted exactly when the error estimate is within tolerance; a rejected step always proposes a strictly smaller positive step; an accepted step proposes at most 1.5 times the current one.", "quantifier": "every error estimate, tolerance and step length", "why_tests_cant": "Depends on arbitrary trajectories.", "anchors": ["src/simulate/step/step_gc_cashkarp.c"]}
{"id": "C36", "title": "Adaptive simulation time bookkeeping", "statement": "Over any sequence of accepted and rejected steps a marker's mileage increases by exactly the accepted steps, its time by the same amount with the sign of the simulated direction, and after a rejection the marker is exactly as before the step except for the proposed step length.", "quantifier": "every history of accept/reject decisions and step proposals", "why_tests_cant": "Histories are unbounded.", "anchors": ["src/simulate/simulate_gc_adaptive.c"]}
{"id": "C37", "title": "1D plasma profiles are interpolated within bounds", "statement": "Density and temperature evaluation succeeds exactly for a radius within [first,last) of the grid, then returns values between the two neighbouring table values for every species, and equals the table at grid points; toroidal rotation is piecewise constant rather than interpolated.", "quantifier": "every grid, profile, species and radius", "why_tests_cant": "Continuous input domain.", "anchors": ["src/plasma/plasma_1D.c"]}
{"id": "C38", "title": "Time-dependent plasma profiles interpolate in time", "statement": "Between two time slices (other than the last two) profiles are linear in time and hit the slices exactly, though the slice read as density of one species may belong to another species or time because the table is filled and read in different index orders; in the last interval the final slice is returned instead of an interpolation, before the first slice the time lookup reads outside the table, and toroidal rotation uses swapped weights.", "quantifier": "every grid, slice set, time and radius", "why_tests_cant": "Time axis boundaries.", "anchors": ["src/plasma/plasma_1Dt.c"]}
{"id": "C39", "title": "Neutral data keeps species apart", "statement": "With one neutral species evaluation returns that species' interpolated density and temperature; with several species every species is given the first species' data, and freeing releases one table repeatedly.", "quantifier": "every species count, every table", "why_tests_cant": "Tests use a single species.", "anchors": ["src/neutral/N0_1D.c:N0_1D_init,N0_1D_free", "src/neutral/N0_3D.c:N0_3D_init,N0_3D_free"]}
{"id": "C40", "title": "Radial electric field scaling", "statement": "The radial electric field is minus the tabulated potential derivative times the gradient of rho inside the tabulated range and zero outside, and the effective-minor-radius input has no influence on the result.", "quantifier": "every profile, every effective radius, every position", "why_tests_cant": "A scaling input of 1 hides it.", "anchors": ["src/Efield/E_1DS.c:E_1DS_init,E_1DS_eval_E"]}
{"id": "C41", "title": "Axisymmetric field components and derivatives are consistent", "statement": "The reported derivatives of the magnetic field are the partial derivatives of the reported field, and the poloidal part built from the flux function is exactly divergence free.", "quantifier": "every flux function and field table, every r not 0", "why_tests_cant": "Needs symbolic derivatives.", "anchors": ["src/Bfield/B_2DS.c:B_2DS_eval_B,B_2DS_eval_B_dB"]}
{"id": "C42", "title": "Field evaluation failures give defined defaults and an error", "statement": "For every field type and data, a failed evaluation of flux, rho or field returns a nonzero error together with the documented default values, and a successful one returns the type-specific value; rho is nonnegative and squares to the normalised flux.", "quantifier": "every field type, every evaluation outcome", "why_tests_cant": "Error paths in five field types.", "anchors": ["src/B_field.c"]}
{"id": "C43", "title": "Atomic reactions keep the charge state physical", "statement": "For nonnegative reaction rates and any step and random number the charge state stays between 0 and the nuclear charge and changes by at most one, reaction probabilities lie in [0,1] with sum at most 1, and a fully stripped marker whose ionisation is sampled recombines instead.", "quantifier": "every charge state, rate pair, step and random number", "why_tests_cant": "Random sampling.", "anchors": ["src/simulate/atomic.c:atomic_react"]}
{"id": "C44", "title": "Beam markers are shared out exactly", "statement": "Over all injectors the number of generated markers is exactly the requested number, every injector gets a nonnegative count, and marker ids are exactly 1..n without repetition.", "quantifier": "every set of injector powers, every marker count", "why_tests_cant": "Rounding of shares depends on the powers.", "anchors": ["src/bbnbi5.c:bbnbi_simulate,bbnbi_inject_markers"]}
{"id": "C45", "title": "Fusion products conserve momentum and energy in the centre of mass", "statement": "Sampled fusion products have zero total momentum in the centre-of-mass frame and total kinetic energy there equal to the reaction energy plus the reactants' centre-of-mass energy, for any emission direction.", "quantifier": "every reactant velocity pair, mass set, reaction energy and direction", "why_tests_cant": "Identity over continuous inputs.", "anchors": ["src/afsi.c:afsi_compute_product_momenta_2d"]}
{"id": "C46", "title": "Fusion reactant sampling picks the bin it sampled", "statement": "The beam-reactant sampler decodes the sampled cell to its own momentum bins exactly when the two momentum axes have equal length; otherwise, and for energy-pitch distributions, it returns a different bin.", "quantifier": "every distribution shape, every sampled cell", "why_tests_cant": "Tests use square momentum grids.", "anchors": ["src/afsi.c:afsi_sample_beam_2d"]}
{"id": "C47", "title": "Fusion reactions conserve charge", "statement": "For every supported reaction the total charge of the products equals that of the reactants, and the cross section is zero below threshold energy and never negative for supported reactions inside the tabulated range denominators.", "quantifier": "every supported reaction, every energy", "why_tests_cant": "Continuous energy.", "anchors": ["src/boschhale.c:boschhale_reaction,boschhale_sigma"]}
{"id": "C48", "title": "Coil field equals the Biot-Savart integral", "statement": "For a coil given as a chain of straight segments and a point off the segments' lines the returned field is the exact sum of the Biot-Savart integrals over the segments, independent of splitting a segment into two.", "quantifier": "every polyline, every evaluation point off the lines", "why_tests_cant": "Requires an integral identity.", "anchors": ["src/biosaw.c:biosaw_calc_B"]}
{"id": "C49", "title": "Collision coefficients belong to one Fokker-Planck operator", "statement": "The drag, diffusion and their derivative coefficients used for particles and guiding centres satisfy the relations of a single collision operator: the derivative coefficient is the derivative of the parallel diffusion, the particle and guiding-centre drags differ exactly by the divergence terms, and a Maxwellian is stationary.", "quantifier": "every mass, charge, density, temperature and velocity v>0", "why_tests_cant": "Identities between special functions.", "anchors": ["src/simulate/mccc/mccc_coefs.h"]}
{"id": "C50", "title": "Collisional pitch reflection", "statement": "The guiding-centre collision step returns a speed at or above the cutoff, a spatial displacement perpendicular to the magnetic field, and a pitch in [-1,1] exactly when the unreflected pitch is within [-3,3].", "quantifier": "every state, every random increment", "why_tests_cant": "Gaussian tails are unbounded.", "anchors": ["src/simulate/mccc/mccc_gc_euler.c"]}
{"id": "C51", "title": "Guiding-centre transformation round trip", "statement": "To zeroth order the particle to guiding-centre transformation gives mu >= 0 and momentum components whose back transformation is the original momentum vector; in a uniform field the full first-order position and momentum round trip is exact.", "quantifier": "every position, momentum, charge and field with nonvertical direction", "why_tests_cant": "Angle branches and charge sign.", "anchors": ["src/gctransform.c"]}
{"id": "C52", "title": "Field-line curvature in the guiding-centre transformation", "statement": "The curvature vector used by the first-order transformation equals the true field-line curvature exactly when the current perpendicular to the field vanishes, and differs otherwise.", "quantifier": "every field Jacobian", "why_tests_cant": "Test fields are mostly vacuum-like.", "anchors": ["src/gctransform.c:gctransform_particle2guidingcenter"]}
{"id": "C53", "title": "Transport coefficient evaluation stays inside the recorded data", "statement": "Processing recorded crossings visits only recorded points, frees each record once, and the number of averaged points is the floor of recorded points over the window.", "quantifier": "every number of recorded points and averaging window", "why_tests_cant": "Off-by-one depends on the remainder.", "anchors": ["src/diag/diag_transcoef.c:diag_transcoef_process_and_clean"]}
{"id": "C54", "title": "Relativistic kinematics helpers invert each other", "statement": "Conversions between speed, momentum, Lorentz factor and energy are mutually inverse on their physical domains, and magnetic moment with parallel momentum reproduce the total momentum and pitch.", "quantifier": "every mass>0, speed below c, momentum, pitch in [-1,1], field>0", "why_tests_cant": "Continuous domain.", "anchors": ["src/physlib.h"]}
{"id": "C55", "title": "Hybrid mode hands markers over to full orbit", "statement": "In hybrid mode exactly the markers stopped by the hybrid condition are re-simulated as particles with that flag cleared while all other markers keep their result.", "quantifier": "every assignment of end conditions", "why_tests_cant": "Mixed outcomes.", "anchors": ["src/simulate.c:simulate"]}
{"id": "C56", "title": "Input markers are validated and converted faithfully", "statement": "A marker with non-positive radius, weight, id, mass or (guiding centre) energy, or pitch outside [-1,1], is flagged as unphysical with its id kept; an accepted marker carries the user's position, momentum, weight, time and species, with zero mileage and no end condition. A field-line's direction is lost: every accepted field line is traced along +B.", "quantifier": "every input marker of the three kinds, every magnetic field", "why_tests_cant": "The combinations of invalid values and field outcomes are unbounded.", "anchors": ["src/particle.c:particle_input_to_state", "src/particle.c:particle_input_ml_to_state"]}
{"id": "C57", "title": "Normal deviates are Box-Muller pairs and fill the array exactly", "statement": "The vectorised normal samplers write every entry of an array of any length exactly once and nothing beyond it; the common form returns sqrt(-2 ln u1) times cosine and sine of 2 pi u2; the geometric form returns a pair on the ray of the accepted point with squared radius -2 ln w.", "quantifier": "every array length (odd or even), every sequence of uniform deviates", "why_tests_cant": "An odd-length overrun corrupts memory silently and the sign of the second deviate depends on a branch.", "anchors": ["src/random.c:random_lcg_normal_simd"]}
{"id": "C58", "title": "Matrix product layout", "statement": "The product routine computes, for column-by-column inputs, the row-by-row product: entry i*d3+j of the output is the sum over k of A[i+k*d1]*B[k+j*d2], and nothing else is written; read row by row as documented it returns the transpose of B*A instead of A*B.", "quantifier": "all dimensions and entries", "why_tests_cant": "A layout error is invisible for symmetric test matrices.", "anchors": ["src/math.c:math_matmul"]}
{"id": "C59", "title": "Unique values are counted exactly", "statement": "For any input list the unique/count arrays list every distinct value exactly once with its number of occurrences, the remaining entries are zero and the counts add up to the list length.", "quantifier": "every list of integers", "why_tests_cant": "Lists of every length and multiplicity.", "anchors": ["src/math.c:math_uniquecount"]}
{"id": "C60", "title": "Equally spaced vectors and integer powers", "statement": "A generated vector of n>=2 points starts at a, ends at b, has constant spacing and nothing past n is written (n=1 gives b); the integer power is the mathematical power.", "quantifier": "all end points, lengths, bases and exponents", "why_tests_cant": "Unbounded lengths and exponents.", "anchors": ["src/math.c:math_linspace,math_ipow"]}
{"id": "C61", "title": "Plane test, barycentric coordinates and position conversion", "statement": "The point-on-plane test answers no for every point, even one on the plane; the barycentric coordinates are the unique s,t such that AP - s AB - t AC is along the normal; Cartesian positions survive conversion to cylindrical and back, and cylindrical ones with positive radius and angle in (-pi,pi] survive the opposite trip.", "quantifier": "all points, triangles and non-degenerate normals", "why_tests_cant": "A constant answer passes any negative test.", "anchors": ["src/math.c:math_point_on_plane,math_barycentric_coords_triangle", "src/math.h:math_xyz2rpz,math_rpz2xyz"]}
{"id": "C62", "title": "Histogram object addresses its bins without collision", "statement": "For any set of distinct axes with nonzero bin counts, bin tuples in range map to distinct positions inside the array; a running particle whose coordinates are inside all (supported) axes adds its weight to exactly the bin whose cell contains it. (Found: only the final position is checked, so a value above one axis is counted in a neighbouring cell; energy, pitch, moment, canonical momentum and charge axes always use bin 0.)", "quantifier": "every choice of axes, ranges, bin counts and coordinates", "why_tests_cant": "Collisions and spill-over only appear for particular shapes.", "anchors": ["src/diag/hist.c:hist_init,hist_update_fo"]}
{"id": "C63", "title": "Summing distributions", "statement": "Summing two diagnostics adds every bin of the rho5D, rho6D and (without constants-of-motion collection) 6D distributions. (Found: only the first 1/n_phi of the 5D bins are summed, the constants-of-motion distribution is never summed and its block adds the 6D data once more.)", "quantifier": "every pair of diagnostics with the same axes", "why_tests_cant": "Axisymmetric tests use one toroidal bin.", "anchors": ["src/diag.c:diag_sum,diag_arraysum"]}
{"id": "C64", "title": "The 2D wall cannot be tunnelled through", "statement": "A step whose two end points are classified differently by the inside test (at heights that are not vertex heights) is always reported as a wall hit, unless it touches a wall segment parallel to itself.", "quantifier": "every polygon, self-intersecting ones included, and every step", "why_tests_cant": "Every polygon and step; tests check a handful of shapes.", "anchors": ["src/wall/wall_2d.c:wall_2d_inside,wall_2d_find_intersection"]}
{"id": "C65", "title": "The accelerated 3D wall search misses no well-resolved triangle", "statement": "For every octree depth and every list of wall triangles, initialisation stores in each grid cell the triangles that overlap the cell and never reads a missing list; a step that meets, transversally, a triangle whose normal and edges are not almost parallel to the coordinate planes is reported as a wall hit no later than the fraction at which it meets that triangle.", "quantifier": "all triangle lists, depths, steps and triangles with the stated resolution relative to the cell faces", "why_tests_cant": "tunnelling depends on the coincidence of a step, a cell border and the separating test of one of the boxes on the path; random shots almost never show a missing list entry", "anchors": ["src/wall/wall_3d.c:wall_3d_init_octree,wall_3d_tri_in_cube,wall_3d_quad_collision,wall_3d_hit_wall", "src/octree.c:octree_add"]}
{"id": "C66", "title": "Toroidal canonical momentum follows the guiding-centre motion", "statement": "In an axisymmetric field with poloidal flux psi, the toroidal canonical momentum computed by the physics library changes along the guiding-centre motion exactly at the rate charge times major radius times toroidal electric field; without toroidal electric field it is conserved.", "quantifier": "every phase-space point, every axisymmetric field and gradient, every electric field, every trajectory following the equations", "why_tests_cant": "Holds only by cancellation between flux, parallel momentum and curvature terms; tests see drift of integrators.", "anchors": ["src/simulate/step/step_gceom.h:step_gceom", "src/physlib.h:phys_ptoroid_gc"]}
{"id": "C67", "title": "Fixed-step simulation clocks", "statement": "With a fixed step the mileage of a particle after any number of passes is its initial mileage plus the number of completed passes times the step, and its time moves by the same amount in the simulated direction; for guiding centres this holds without RF heating, whereas with RF heating the clock advances by the slot's first default step whatever step the modules used.", "quantifier": "all step sequences, all module behaviours that leave the bookkeeping fields alone, all end conditions", "why_tests_cant": "Tests compare orbits over a handful of steps; the RF retry path and slot refills are not exercised.", "anchors": ["src/simulate/simulate_fo_fixed.c", "src/simulate/simulate_gc_fixed.c"]}
{"id": "C68", "title": "Time acceleration factor", "statement": "The acceleration factor is never below one and never depends on the flags left uninitialised at start; after an orbit of duration T it is max(1, safety/(T nu)/previous factor), so a marker repeating one orbit alternates between factor one and the intended factor instead of keeping it.", "quantifier": "all sequences of steps and midplane crossings, all collision frequencies and safety factors", "why_tests_cant": "Needs many bounces with collisions; tests do not use the acceleration at all.", "anchors": ["src/simulate/simulate_gc_adaptive.c:recalculate_acceleration"]}
{"id": "C69", "title": "Spline plasma profiles are positive and exact at the grid", "statement": "Densities and temperatures from the spline plasma input are the exponential of the cubic spline through the logarithms of the table: positive everywhere, equal to the table at grid points, defined exactly on the closed grid interval; outside it an error is raised, except that rotation evaluation reports success and returns the previous content of the output.", "quantifier": "every grid, positive profile, species and radius", "why_tests_cant": "Continuous input domain, global spline solve.", "anchors": ["src/plasma/plasma_1DS.c"]}
{"id": "C70", "title": "Plasma dispatcher reports failures with defaults", "statement": "Through the plasma interface, a success returns the type-specific value and a failure returns a nonzero error with the fixed default values; an unknown plasma type is reported as an error by the joint evaluation but as a success without a value by the single-quantity evaluations.", "quantifier": "every plasma input, location, time and species", "why_tests_cant": "Error paths and unknown types are not exercised.", "anchors": ["src/plasma.c"]}
{"id": "C71", "title": "Analytic equilibrium is a consistent magnetic field", "statement": "For the analytic tokamak field, at every point with positive major radius: the poloidal field is the flux gradient rotated and divided by R; the twelve reported numbers are the field and its exact partial derivatives (with ripple: off the inboard half line of the ripple pattern); without ripple the reported field is divergence free, and the toroidal current is the Solov'ev profile. The normalised radius squared is the normalised flux and an error is raised exactly when that flux is negative. The flux derivatives reported separately, and the radius derivatives, are wrong by a factor R0/R; ripple makes the field have a divergence, and its pattern is centred at twice the height of the machine centre.", "quantifier": "every coefficient set, major radius, ripple and evaluation point", "why_tests_cant": "Continuous domain and parameter space; tests compare a few points with themselves.", "anchors": ["src/Bfield/B_GS.c"]}
{"id": "C72", "title": "Three-dimensional and stellarator fields come from their splines", "statement": "For the 3D tokamak field and the stellarator field, inside the tables the reported flux, field and derivatives are the values and exact partial derivatives of one periodic cubic-spline field through the given data (with the axisymmetric flux contribution for the 3D field), the reported divergence is that of the tabulated part, and outside the tables or where the field vanishes a nonzero error with the default field is returned.", "quantifier": "every successfully initialised table, every position", "why_tests_cant": "Spline fields have no closed form to test against, and derivative errors only show up as slow drifts of orbits.", "anchors": ["src/Bfield/B_3DS.c:B_3DS_init,B_3DS_eval_B,B_3DS_eval_B_dB", "src/Bfield/B_STS.c:B_STS_init,B_STS_eval_B,B_STS_eval_B_dB"]}
{"id": "C73", "title": "Cartesian test field: value, derivatives and their mismatch", "statement": "The Cartesian test field is the origin field plus the Jacobian times the position, its reported divergence is the trace of the Jacobian, its reported R and z derivatives are exact, but the field and phi derivatives reported together with the derivatives are those of the origin field: they agree with the field exactly where the Jacobian annihilates the position.", "quantifier": "every field, Jacobian and position with r not 0", "why_tests_cant": "Tests use a zero Jacobian or the origin.", "anchors": ["src/Bfield/B_TC.c:B_TC_eval_B,B_TC_eval_B_dB"]}
{"id": "C74", "title": "Atomic data lookups are sums over tables and never negative", "statement": "Every evaluation of cross sections or rate coefficients returns a nonnegative number, and zero together with an error. The charge-exchange rate is the sum over neutral species of table value times density, using the last table that matches, with an error exactly when a species has no table or lies outside it without extrapolation. The beam-stopping coefficient is the charge-density weighted mean over ions, which adds up duplicate tables. At initialisation every reaction is built from the start of the data array, so only a single reaction gets its own data, and only the last reaction can report an error.", "quantifier": "every reaction list, species list, energy, temperature and data array", "why_tests_cant": "Tests use one reaction, where the offset does not show.", "anchors": ["src/asigma.c", "src/asigma/asigma_loc.c"]}
{"id": "C75", "title": "Beam-stopping fit stays within its tables", "statement": "The Suzuki fit reads outside its tables exactly when there are more than three hydrogen species, a hydrogen species of mass number outside 1..3, or another species with no row for its charge and the effective charge; otherwise it fails exactly without hydrogen or above 10 MeV per nucleon, does not depend on the order of species or on splitting an isotope, and for hydrogen lies between the single-isotope values. An impurity of zero density in a hydrogen plasma reads outside the tables, and below 9 keV the high-energy tables are used silently.", "quantifier": "every energy, density, temperature and species list", "why_tests_cant": "Out-of-bounds reads return plausible numbers.", "anchors": ["src/suzuki.c:suzuki_sigmav"]}
{"id": "C76", "title": "Beam markers start on a beamlet with the sampled energy and divergence", "statement": "A marker launched by an injector starts at the position of the beamlet selected by the uniform number, moves with exactly the kinetic energy chosen by the energy-fraction number (full, half or third energy on intervals whose lengths are the fractions), and its direction is the beamlet direction tilted by the sampled horizontal and vertical divergence angles about two orthonormal axes; it is then moved along its ray in fixed steps to the first point where the magnetic field is defined, and stored there with the same velocity in cylindrical components, zero charge and its own identifier.", "quantifier": "for every injector, beamlet table of unit directions, random numbers and field domain", "why_tests_cant": "The frame built from acos and atan2 has to be orthonormal for every beamlet direction, and the index is safe for every random number below one but not at one; sampling cannot show either.", "anchors": ["src/nbi.c:nbi_inject", "src/bbnbi5.c:bbnbi_inject_markers"]}
{"id": "C77", "title": "Neutral beam markers fly straight, decay exponentially and always stop", "statement": "While a beam neutral is in flight its Cartesian velocity does not change and its position is the starting point plus velocity times elapsed time; the surviving fraction is the exponential of minus the accumulated ionisation rate; it is stopped in exactly the step in which the surviving fraction falls below the sampled threshold, a wall element is hit, the flight limit is exceeded or a field or data evaluation fails, with exactly the matching end-condition bits; every flight ends within the limit, and no wall hit is reported before the marker has left the plasma.", "quantifier": "for every marker, field, rate and wall function and number of steps", "why_tests_cant": "The statement is about unbounded numbers of steps through arbitrary background data; a simulated shot exercises one path.", "anchors": ["src/bbnbi5.c:bbnbi_trace_markers"]}
{"id": "C78", "title": "Fusion products are deposited in their own bin", "statement": "Each sampled fusion product is added, with its weight, to exactly the bin of the product histogram whose momentum box contains its momentum coordinates at the spatial cell of the reaction, and nowhere if it lies outside either momentum axis; the bin of a spatial cell is the same in every product histogram; a thermal reactant drawn with numbers (r1..r4) has a momentum whose magnitude matches its sampled kinetic energy and whose parallel and perpendicular parts satisfy the Pythagorean relation.", "quantifier": "for every histogram layout, product momentum, weight and random numbers", "why_tests_cant": "A product counted in a neighbouring bin, or dropped at an edge, changes the source by a statistically invisible amount.", "anchors": ["src/afsi.c:afsi_compute_product_momenta_2d", "src/afsi.c:afsi_run", "src/afsi.c:afsi_sample_thermal_2d"]}
{"id": "C79", "title": "Collision step of a particle", "statement": "One collision step of a particle changes only its momentum. The velocity relative to the plasma flow changes by the drag along it plus noise that is linear in the random numbers with covariance twice the step times the diffusion tensor. A step of zero length changes nothing, an error leaves the momentum and stops the marker, and with positive Coulomb logarithms the step is undefined exactly when the new speed reaches that of light.", "quantifier": "every particle, flow, plasma, step and random number", "why_tests_cant": "The law concerns the joint distribution for every direction; a test sees samples.", "anchors": ["src/simulate/mccc/mccc_fo_euler.c"]}
{"id": "C80", "title": "Milstein scheme and its step control", "statement": "The Milstein correction of speed and pitch is half the noise amplitude times its derivative. The proposed step is negative exactly when one of the error estimates exceeds one and then shorter than nine tenths of the step; otherwise it lies between 0.8 and 1.5 steps. Arrival, cutoff, perpendicular displacement and pitch reflection are as in the Euler scheme.", "quantifier": "every guiding centre, tolerance, step and Wiener increment", "why_tests_cant": "Needs calculus of special functions and all error estimates, including zero.", "anchors": ["src/simulate/mccc/mccc_gc_milstein.c"]}
{"id": "C81", "title": "First-order guiding-centre corrections are adiabatic", "statement": "Along the exact orbit the zeroth-order magnetic moment plus its first-order correction is stationary to first order in a divergence-free field without current across the field, and the first-order changes of parallel momentum, magnetic moment and field strength leave the energy unchanged.", "quantifier": "every field Jacobian, momentum, charge, mass and gyroangle", "why_tests_cant": "Needs the derivative of the correction along the orbit, not its value.", "anchors": ["src/gctransform.c:gctransform_particle2guidingcenter"]}
{"id": "C82", "title": "Transport coefficients come from the marker's own crossings", "statement": "The drift and diffusion stored for a marker are a function of the events of that marker alone, in every interleaving with other markers. A point is recorded exactly when the step passes the outer midplane without starting on it and the interval since the last point has passed. Averaged times strictly increase so no quotient is undefined, and the diffusion is not negative. Finding: the sums over n - 1 differences are divided by n, so uniform motion gives a drift too small by one part in n and a positive diffusion, and one average alone stores two zeros.", "quantifier": "every sequence of marker events, every positive window and non-negative interval", "why_tests_cant": "The bias needs exact uniform motion and the exact formula; interleavings of markers are unbounded.", "anchors": ["src/diag/diag_transcoef.c:diag_transcoef_record", "src/diag/diag_transcoef.c:diag_transcoef_process_and_clean", "src/diag/diag_transcoef.c:diag_transcoef_check_omp_crossing"]}
{"id": "C83", "title": "Boozer coordinates and their derivatives", "statement": "At a position inside the separatrix contour where the flux, the radius, the axis and both tables can be evaluated, boozer_eval_psithetazeta returns the flux, the tabulated angle at the geometric angle about the axis, and phi plus the tabulated shift reduced to one turn; the nine reported derivatives are the derivatives of these three functions along every smooth curve through the position, when the flux does not depend on the toroidal angle and the position is off the half line where the geometric angle starts. Outside, isinside is false.", "quantifier": "every position, flux, tables and axis (oracles), every smooth curve", "why_tests_cant": "the chain rule over tables, the quadrants of the angle and its wrap can only be sampled by tests; a wrong sign in one quadrant passes a test in another", "anchors": ["src/boozer.c:boozer_eval_psithetazeta", "src/boozer.c:boozer_init"]}
{"id": "C84", "title": "MHD mode potentials are consistent with their derivatives", "statement": "mhd_eval returns the sum over the chosen modes of amplitude times profile times cos(n zeta - m theta - omega t + phase) for alpha and Phi; the reported time derivative and gradient components are the derivatives of the two reported potentials along every smooth curve in position and time, for stationary and time-dependent profiles and any number of modes; all modes together give the sum of the single ones; outside the region, for a mode that does not exist or a profile out of range, all outputs are zero whatever uninitialised memory held.", "quantifier": "every list of modes, mode selection, profiles, position, time", "why_tests_cant": "markers gain spurious energy when gradients and potentials disagree; tests compare a few points with tolerances", "anchors": ["src/mhd.c:mhd_eval", "src/mhd/mhd_stat.c:mhd_stat_eval", "src/mhd/mhd_nonstat.c:mhd_nonstat_eval"]}
{"id": "C85", "title": "Perturbed fields come from the potentials", "statement": "mhd_perturbations returns the cylindrical curl of alpha B as the magnetic perturbation, minus the gradient of Phi minus the time derivative of alpha B as the electric perturbation, and Phi; with pertonly off the background field is added to the magnetic part only. With zero potentials the perturbation vanishes.", "quantifier": "every static background field with its derivatives, potentials and position with r > 0", "why_tests_cant": "a sign or metric factor error in one of the curl terms vanishes in the symmetric fields used in tests", "anchors": ["src/mhd/mhd_stat.c:mhd_stat_perturbations", "src/mhd/mhd_nonstat.c:mhd_nonstat_perturbations", "src/mhd.c:mhd_perturbations"]}
{"id": "C86", "title": "Steps with MHD perturbations reduce to the plain steps", "statement": "The full-orbit step with MHD perturbations equals the plain full-orbit step without radiation reaction in the perturbed fields, and with a zero perturbation it equals the plain step of the background. The field-line step with perturbations is the fifth-order Cash-Karp method along the total field at the time of the marker with the corresponding step proposal, and in a static unperturbed field it equals the plain field-line step.", "quantifier": "every field, perturbation, marker, step length and tolerance", "why_tests_cant": "comparing two integrators on sampled orbits cannot show that they agree everywhere, nor which switches one of them ignores", "anchors": ["src/simulate/step/step_fo_vpa.c:step_fo_vpa_mhd", "src/simulate/step/step_ml_cashkarp.c:step_ml_cashkarp_mhd"]}
{"id": "C87", "title": "Cumulative poloidal angle follows the marker around the axis", "statement": "After a completed orbit or collision step the poloidal angle has changed by the angle the marker turned about the magnetic axis, between minus and plus half a turn; if the angle was the direction of the marker from the axis it still is, and over a whole execution about a fixed axis it is the continuous angle along the path through the positions, so that it counts poloidal turns.", "quantifier": "for all full-orbit, guiding-centre and field-line steps and guiding-centre collision steps, all fields, step lengths and random numbers, and all executions of any length whose path does not pass through the axis", "why_tests_cant": "The number of turns is an accumulated quantity with a branch choice at every step; a test sees a few orbits, not every placement of consecutive positions around the axis.", "anchors": ["src/simulate/step/step_fo_vpa.c:step_fo_vpa", "src/simulate/step/step_gc_rk4.c:step_gc_rk4", "src/simulate/step/step_gc_cashkarp.c:step_gc_cashkarp", "src/simulate/step/step_ml_cashkarp.c:step_ml_cashkarp", "src/simulate/mccc/mccc_gc_euler.c:mccc_gc_euler", "src/simulate/mccc/mccc_gc_milstein.c:mccc_gc_milstein"]}
{"id": "C88", "title": "Full-orbit slots convert to guiding-centre slots", "statement": "Converting a slot of the full-orbit bundle to a guiding-centre slot either stores the guiding centre of that particle with the fields and flux coordinate at its position, the marker's identity, weight and clocks, and a poloidal angle turned to the guiding-centre position, or flags the slot with the error, stops it and leaves its phase-space position alone; other slots are never touched, and the result is the guiding centre that the conversion over the marker state gives.", "quantifier": "for all bundles, slots, field evaluations and guiding-centre transformations, including failing ones", "why_tests_cant": "Failing evaluations at the guiding-centre position and stale slot contents are hard to set up in a test; the claim covers every field of the slot and every failure point.", "anchors": ["src/particle.c:particle_fo_to_gc", "src/particle.c:particle_fo_to_state", "src/particle.c:particle_state_to_gc"]}
{"id": "C89", "title": "Mapping of flux coordinates to (R,z)", "statement": "A point returned for (rho, theta, phi) lies on the ray at angle theta from the magnetic axis, at most 5 m away, and has the wanted rho within the tolerance, unless the wanted rho is below that on the axis, in which case it is the axis. If rho grows along the ray at a bounded rate and the surface is inside the region where the field is known, it is found after a number of iterations that grows with the logarithm of the precision. Failed queries leave their output entries untouched and queries do not influence each other. A surface further than 5 m from the axis is never found.", "quantifier": "all field oracles, query arrays, tolerances and iteration limits", "why_tests_cant": "tests query a few points in one equilibrium; the convergence bound, the isolation of queries and the 5 m limit concern every field and array", "anchors": ["src/libascot.c:libascot_B_field_rhotheta2rz"]}
{"id": "C90", "title": "Search for the magnetic axis by gradient descent", "statement": "With a positive iteration limit the search ends. For a flux function whose gradient is Lipschitz with constant at most 1/step it converges within 2 step (psi - min)/tol^2 iterations to a point whose psi is not larger than at the start and, if psi grows quadratically, close to the axis. Ascent equals descent on -psi. The 3D search stays in its sector. Not guaranteed by the code: termination for a non-positive limit, a padding that keeps the stored value on the safe side of the extremum, and a 3D step along the gradient.", "quantifier": "all flux functions in the stated class, all starting points, steps, tolerances and limits", "why_tests_cant": "convergence is a statement about every flux function and starting point; tests look at one equilibrium", "anchors": ["src/libascot.c:libascot_B_field_gradient_descent", "src/libascot.c:libascot_B_field_gradient_descent_3d"]}
{"id": "C91", "title": "Derived library quantities and output layouts", "statement": "If B = grad psi x grad(zeta - q theta), the evaluated safety factor is q, and the Jacobian J satisfies J B.grad theta = 1 and J B.grad zeta = q. The plasma, collision coefficient and rate coefficient queries store each value at the element of its own point, species and velocity, no two iterations of the parallel loop write the same element, and entries whose evaluation failed are kept.", "quantifier": "all gradients and fields with independent coordinates; all sizes, oracles and output arrays", "why_tests_cant": "layout errors show only for particular sizes and race only in parallel; the Boozer identity concerns every coordinate system", "anchors": ["src/libascot.c:libascot_boozer_eval_fun", "src/libascot.c:libascot_plasma_eval_background", "src/libascot.c:libascot_eval_collcoefs", "src/libascot.c:libascot_eval_ratecoeff"]}
{"id": "C92", "title": "Command line arguments are interpreted as documented", "statement": "For every sequence of command line options of ascot5_main: the input file is the last --in argument with '.h5' appended unless it already ends so, or ascot.h5 if none or an empty one is given; the output file is the last --out argument treated the same way, or the input file; process count, rank, description and the ten input QIDs are those of the last corresponding option or their defaults. The program is turned down exactly when an unknown option comes before any over-long text; it is accepted exactly when there is no unknown option and every text and final file name fits its array.", "quantifier": "all option sequences and texts of any length", "why_tests_cant": "Option sequences and string lengths are unbounded; tests check a few spellings.", "anchors": ["src/ascot5_main.c"]}
{"id": "C93", "title": "Markers keep their place from input to output whatever the number of processes", "statement": "For every input marker list and every number of MPI processes: the stored initial states are the converted input markers in input order, each once; the stored final states are the results of the processes in rank order; and if each marker is simulated independently of the others, the stored final states are the same for every number of processes.", "quantifier": "all marker lists, all process counts >= 1, all state conversions and simulations", "why_tests_cant": "Needs every combination of marker count and process count.", "anchors": ["src/ascot5_main.c", "src/mpi_interface.c"]}
{"id": "C94", "title": "The run summary accounts for every marker, and marker arrays are freed once", "statement": "For every non-empty run the printed summary has exactly one line for each end-condition code that occurs, with its multiplicity and the names of exactly its active conditions joined by 'and' (Aborted if none), exactly one line per nonzero error code with its multiplicity and decoded source, and the no-aborts line exactly when all error fields are zero; the counts add up to the number of markers and no text overflows its 256 byte array. On a successful run each marker array is freed exactly once; a failure after the input was read leads to a double free.", "quantifier": "all lists of end conditions and error codes; all success/failure combinations", "why_tests_cant": "All 4096 condition combinations times all marker populations.", "anchors": ["src/ascot5_main.c", "src/endcond.c", "src/math.c"]}
{"id": "C95", "title": "HDF5 addresses and run identifiers are exact", "statement": "For every template path and every ten-character run identifier (QID): the generated path has the QID in place of the first ten X's and is otherwise unchanged, so a dataset is looked up in exactly the group of its input, type and QID; of longer texts only the first ten characters count, while for shorter ones the dataset name is lost. A generated QID is ten decimal digits spelling the first non-negative random number, which is below 2^31.", "quantifier": "all templates, QIDs, files and random sequences", "why_tests_cant": "QIDs and templates are unbounded text; tests only use well-formed ones.", "anchors": ["src/hdf5io/hdf5_helpers.c", "src/hdf5_interface.c"]}
{"id": "C96", "title": "Input reading uses the chosen QIDs, succeeds exactly when all inputs are readable and stops at the first failure", "statement": "For every file, mask of requested inputs and user-given QIDs: reading succeeds exactly when each requested input has its group, a usable QID (the user's, else the active one) and readable data; then the recorded QIDs are those. Otherwise the inputs before the first bad one in the fixed order have been read and none after it. Inputs can be requested independently. Of several types with the same QID the last one in the code's order decides type and success; a QID of a single type selects that type.", "quantifier": "all files, masks, user QIDs, reader outcomes", "why_tests_cant": "Needs all combinations of present groups, QIDs and failing readers.", "anchors": ["src/hdf5_interface.c", "src/hdf5io/hdf5_bfield.c", "src/hdf5io/hdf5_efield.c", "src/hdf5io/hdf5_plasma.c", "src/hdf5io/hdf5_neutral.c", "src/hdf5io/hdf5_wall.c", "src/hdf5io/hdf5_mhd.c"]}
{"id": "C97", "title": "A run gets its own group, and results go to the active run", "statement": "For every output file: setting up a run succeeds exactly when the results place can hold a new group of that run type and QID; then that group exists, is marked active, records the QIDs of all used inputs and the description, and nothing else changed. Results are written to the group of the first run type (run, bbnbi, afsi) having the active QID, hence to the run's own group exactly when no earlier run type has that QID.", "quantifier": "all well-formed files, QIDs, run types and descriptions", "why_tests_cant": "Depends on the history of earlier runs in the file.", "anchors": ["src/hdf5_interface.c", "src/hdf5io/hdf5_helpers.c"]}
{"id": "C98", "title": "Marker input is read completely and in SI units", "statement": "For every file and ten-character QID: reading the particle, guiding-center or field-line group succeeds exactly when all its columns are there with as many entries as the stored number of markers; then the markers are those of the file in order, with angles in radians, masses in kg, charges in C, energies in J and, for velocities below c, momentum gamma*m*v with the relativistic gamma. With a single group of that QID marker_read returns those markers; the returned number equals the length of the list whenever every group of the QID is readable.", "quantifier": "all files, QIDs, marker counts and values", "why_tests_cant": "Files and marker lists are unbounded; the units and the count agreement need every field of every marker.", "anchors": ["src/hdf5io/hdf5_marker.c", "src/hdf5io/hdf5_helpers.c"]}
{"id": "C99", "title": "Written particle markers can be read back", "statement": "For every non-empty list of particles written to a file with a free group: reading the group gives the same number of markers, in order, with equal position, mass, species numbers, weight, time and id; the charge is equal exactly when it is a whole number of elementary charges. The momentum is equal exactly for a marker at rest or of mass 1 kg (the writer divides by m instead of m^2 in gamma), and the stored velocity is below c exactly when p^2 (1-m) < m^2 c^2. An existing group is not overwritten.", "quantifier": "all files, lists of particles and QIDs", "why_tests_cant": "Needs all momenta, masses and files; the deviation is invisible at low energy.", "anchors": ["src/hdf5io/hdf5_marker.c"]}
{"id": "C100", "title": "Final and initial marker states are written completely", "statement": "For every file and list of markers, writing a state creates the group exactly when the run group exists and the name is free, and otherwise changes nothing. After success every field is a dataset with one entry per marker in order and a unit in which entry times unit is the SI value (angles, momenta, moment, mass, charge, fields), integers are equal, errors are split into the message, line and module that were raised, and nothing else in the file changes.", "quantifier": "all files, run groups and non-empty lists of markers with identifiers in range", "why_tests_cant": "Needs every field of arbitrarily many markers and every file.", "anchors": ["src/hdf5io/hdf5_state.c", "src/error.c"]}
{"id": "C101", "title": "Orbit and transport-coefficient output has one row per record in use", "statement": "For every simulation mode, with or without Poincare data: the orbit output contains exactly the quantities whose arrays the mode allocates, each with one row per slot with a nonzero id, in slot order, and with a unit in which it is the SI value; integers and charges are equal when the stored numbers are whole. A run that recorded nothing leaves an empty group without error. Transport coefficients are written in aligned rows (ids, k, d) for the markers with a coefficient, with 1/s units in rho mode and m/s, m^2/s otherwise.", "quantifier": "all files, modes, array lengths and contents", "why_tests_cant": "The alignment of rows across up to twenty datasets depends on the pattern of used slots, which is unbounded.", "anchors": ["src/hdf5io/hdf5_orbit.c", "src/hdf5io/hdf5_transcoef.c", "src/diag/diag_orb.c"]}
{"id": "C102", "title": "A distribution read from the file is the one that was collected", "statement": "For every distribution with axes of positive extent: the edges of each axis in the file run from its minimum to its maximum in the stated unit, a point inside the grid looked up through the edges and dimensions of the file finds the bin in which the simulation counts it, and a point outside finds none; so for guiding centers the value found is the weighted time spent in the cell of the point. The general histogram leaves out axes without bins and the remaining ones address the same bins. Deviations: the magnetic-moment axis of the general histogram is labelled T/eV with limits in J/T, and the ordinate unit is the inverse of the axis units for the rho and constants-of-motion distributions but not for 5D and 6D.", "quantifier": "all axes, bin counts, histograms, points and marker histories", "why_tests_cant": "The flat index has up to sixteen dimensions; agreement needs all bin counts and points.", "anchors": ["src/hdf5io/hdf5_dist.c", "src/hdf5io/hdf5_histogram.c", "src/diag/dist_5D.c", "src/diag/hist.c"]}
{"id": "C103", "title": "The two ways of storing a spline give the same function", "statement": "A two- or three-dimensional table set up in the explicit form (polynomial coefficients of every cell) returns the same value, the same derivatives and the same out-of-domain errors as the same table set up in the compact form, at every point. In two dimensions this excludes the closing cell of a periodic direction, where the explicit setup leaves the coefficients unwritten and the returned value is whatever the memory held before.", "quantifier": "every table, boundary-condition combination, domain and evaluation point, including points outside the domain", "why_tests_cant": "The unit test compares a few points of one smooth function and prints numbers; unwritten memory is often zero and the closing cell is hit by few sample points.", "anchors": ["src/spline/interp2Dexpl.c:33", "src/spline/interp2Dexpl.c:146", "src/spline/interp3Dexpl.c:37", "src/spline/interp3Dexpl.c:340"]}
{"id": "C104", "title": "Options in the file take effect as documented", "statement": "Reading a complete set of simulation options succeeds and puts each option into effect in SI units: switches, step and tolerance settings, end-condition limits (energy limit from eV, orbit limits from counts), the set of active end conditions, the binning of each enabled distribution (angles from degrees) and the recorded Poincare planes. A missing option makes the reading fail. The bins written out at the end have the limits and counts of the options. Two options do not work as documented: the value 2 of ENDCOND_MAXORBS (both orbit limits needed) is looked for in ENDCOND_IONIZED, and exactly thirty Poincare planes leave the number of planes uninitialised.", "quantifier": "every options group, every value of every option, every previous content of the simulation struct", "why_tests_cant": "There are some hundred options whose names, members and units are matched by hand; a swapped pair or missing conversion only shows as a slightly different simulation, and no test reads the struct back.", "anchors": ["src/hdf5io/hdf5_options.c:47", "src/hdf5io/hdf5_options.c:146", "src/hdf5io/hdf5_options.c:285", "src/hdf5io/hdf5_options.c:660"]}
{"id": "C105", "title": "Every input dataset reaches the parameter it is meant for", "statement": "For each of the eighteen kinds of magnetic field, electric field, plasma, neutral, wall, MHD, Boozer and atomic input, reading a complete group succeeds and calls the initialisation with every parameter equal to its dataset, converted to SI units (angles from degrees, temperatures from eV, ion masses and charges from amu and elementary charges, with the electron in front). A group that lacks any dataset is not accepted.", "quantifier": "every file, QID and content of the datasets, every size of the grids", "why_tests_cant": "The readers pass up to thirty arguments by position; a swapped pair of grid limits or a missing unit conversion compiles and gives plausible results for symmetric test inputs.", "anchors": ["src/hdf5io/hdf5_bfield.c:136", "src/hdf5io/hdf5_plasma.c:69", "src/hdf5io/hdf5_neutral.c:66", "src/hdf5io/hdf5_wall.c:69", "src/hdf5io/hdf5_mhd.c:59", "src/hdf5io/hdf5_boozer.c:26", "src/hdf5io/hdf5_asigma.c:55"]}
{"id": "C106", "title": "Queries return what the input file contains", "statement": "After reading a file, the plasma temperature and density queries interpolate the datasets over the rho of the file, for electrons and every ion species, and fail outside; neutral densities and temperatures of the first species do the same; the axisymmetric field returns at every grid point the tabulated flux and toroidal field, and the stellarator field the tabulated flux and field vector, with the toroidal grid in degrees in the file.", "quantifier": "every file, every grid and table, every species and query point", "why_tests_cant": "The path from file to query runs through a reader, an initialisation that repacks the tables and an evaluation that indexes them; index order and unit errors can cancel in tests that use analytic inputs.", "anchors": ["src/hdf5io/hdf5_plasma.c:127", "src/hdf5io/hdf5_neutral.c:105", "src/hdf5io/hdf5_bfield.c:181", "src/hdf5io/hdf5_bfield.c:476", "src/Bfield/B_STS.c:55"]}
{"id": "C107", "title": "Injectors have the properties and beamlets of their own datasets", "statement": "Reading a complete group of neutral beam injectors gives each injector the identifier, species, power, energy (in joules), mass (in kilograms), energy fractions, divergences and beamlet positions and directions stored for it, whatever the numbers of injectors and of beamlets in each. An injector without halo gets positive halo divergences. A group in which any injector lacks a dataset is not accepted.", "quantifier": "every number of injectors and beamlets, every content of the datasets", "why_tests_cant": "The beamlets of all injectors are packed into one array with hand-computed offsets and unpacked again; tests use one injector, where every offset is zero.", "anchors": ["src/hdf5io/hdf5_nbi.c:25", "src/hdf5io/hdf5_nbi.c:113", "src/nbi.c:22"]}
{"id": "C108", "title": "Beam program's command line and the markers of each injector", "statement": "The beam program takes every setting from the last argument that names it and else from its default (10000 markers, times 0, description TAG), accepts a command line exactly if all arguments are known and all texts fit their buffers, and shares exactly the asked number of markers among the injectors of the file in proportion to their stored power, every injector but the last getting its share rounded down and the last one what is left; markers are numbered 1, 2, ... without gaps.", "quantifier": "every list of arguments, every file with a complete injector group, every number of injectors and non-negative powers of which one is positive", "why_tests_cant": "Counts are rounded for each injector and depend on all powers; tests use one injector and the default command line.", "anchors": ["src/bbnbi5_main.c:148", "src/bbnbi5_main.c:42", "src/bbnbi5.c:56"]}
{"id": "C109", "title": "Fixed time steps are the asked fraction of the gyration", "statement": "Unless the user gives a time step, which is then used as it is, the fixed step of a full orbit or a guiding centre times the asked number of steps per gyration equals the smallest period of the momentum of a charge obeying the relativistic equation of motion in a uniform field of the local strength. The first step of the adaptive guiding-centre simulation is the least of one second, this period (with orbit following) and a hundredth of a second (with collisions).", "quantifier": "every mass, charge, field, momentum, step count, and every solution of the equation of motion", "why_tests_cant": "The reference is the solution of a differential equation, for all energies including relativistic ones; tests compare one non-relativistic orbit.", "anchors": ["src/simulate/simulate_fo_fixed.c:236", "src/simulate/simulate_gc_fixed.c:249", "src/simulate/simulate_gc_adaptive.c:335", "src/physlib.h:261"]}
{"id": "C110", "title": "Fields, walls, spline profiles and 3D neutrals in the file come back from the queries", "statement": "For every complete Cartesian, analytic, three-dimensional or radial-electric field group, spline plasma group, three-dimensional neutral group and wall group in the input file, the reader succeeds and the initialised object answers with the numbers of the file: the affine field at every point, the analytic equilibrium with its flux relation, toroidal current and axis, the tabulated flux and field at the grid points, the tabulated profiles at the grid points (temperatures in joules), the trilinear neutral density, and a wall made of exactly the corners of the file that no step crosses unnoticed.", "quantifier": "for all files, identifiers, contents, grid sizes, points, steps, octree depths", "why_tests_cant": "A test file covers one grid and one set of units; the path from dataset name and order of parameters to the queried value has to be right for every content.", "anchors": ["src/hdf5io/hdf5_bfield.c", "src/hdf5io/hdf5_efield.c", "src/hdf5io/hdf5_plasma.c", "src/hdf5io/hdf5_neutral.c", "src/hdf5io/hdf5_wall.c", "src/wall/wall_2d.c:22-46", "src/wall/wall_3d.c:45-70"]}
{"id": "C111", "title": "A distribution collects the time every marker spends, each diagnostic sees only its own data", "statement": "For every sequence of full-orbit, guiding-centre and field-line diagnostic calls: orbits and transport coefficients depend only on their own records; distributions that are not collected, and all of them in field-line runs, stay as they were; a collected one holds in each bin exactly the weight times elapsed time of the steps that ended in the cell with the marker still running; over all bins this is the weight times the time up to the last step but one of every marker, whatever the interleaving, so the ending step is lost; and with time running backward no bin is positive.", "quantifier": "for all sequences of calls, marker sets, interleavings, grids, subsets of diagnostics", "why_tests_cant": "Tests look at one diagnostic and a short run; the sum over bins against the residence time for all interleavings and the loss of the final step are statements about whole executions.", "anchors": ["src/diag.c:37-93", "src/diag.c:180-277", "src/simulate/simulate_gc_fixed.c:205-209", "src/diag/dist_5D.c:195-270"]}
{"id": "C112", "title": "The external library returns the input data, point by point", "statement": "For every set of points, every order in which the parallel loop treats them and every input: each point's results depend on that point only; the field arrays are the field and its nine partial derivatives; flux, gradient, normalised radius, axis and electric field are those of the evaluation routines; Boozer coordinates come with their derivatives; the MHD potentials are the sums over the modes with their derivatives, and the perturbed fields are curl(alpha B) and -grad Phi - d(alpha B)/dt; points whose evaluation fails and elements beyond the points keep their values; species and modes are those of the input file in SI units, electrons first. Findings: the neutral density overruns a one-element array for two or more species; the toroidal derivatives of the MHD potentials lack a factor R.", "quantifier": "all fields, points, orders of iterations, numbers of points and modes, and file contents", "why_tests_cant": "tests query a few points of one input sequentially; a swapped derivative or a race shows only for particular inputs and schedules, and the overrun of a local array may go unnoticed", "anchors": ["src/libascot.c:66-154", "src/libascot.c:382-507", "src/libascot.c:531-568", "src/libascot.c:630-755", "src/plasma.c:284-417", "src/mhd.c:183-300", "src/mhd/mhd_stat.c:23-61"]}
{"id": "C113", "title": "RF heating kicks only its own marker and the library sees a consistent marker", "statement": "With RF heating every slot of the marker array is treated on its own: only running markers with a positive id are handed to the heating library, and time, mileage, id, error, field and running state are never changed by a kick. The library is told velocities, energy, magnetic moment, flux and gyro frequency that fit together, and a kick that changes velocities leaves the marker with the library's moment and parallel momentum. A reported overshoot of the resonance restores the marker and repeats the step with the length asked for; otherwise the step is accepted and the next one is not longer than asked for. Over a whole simulation the library's objects are created before use and freed once, and the resonance history used for a marker holds only that marker's points.", "quantifier": "All markers, libraries (arbitrary behaviour), memories, simulation options, physics modules, numbers of slots, sequences of passes with arbitrary replacement of markers, evaluation points.", "why_tests_cant": "The heating library is an optional external Fortran dependency that is not part of the test builds; the resource and history claims concern all interleavings of finishing and starting markers.", "anchors": ["src/rfof.c:116-334 rfof_resonance_check_and_kick_gc", "src/simulate/simulate_gc_adaptive.c:94-320", "src/simulate/simulate_gc_fixed.c:85-234", "src/libascot.c:984-1026 libascot_eval_rfof"]}
{"id": "C114", "title": "A simulation with a suitable limit ends, however many threads and whatever the physics does", "statement": "A full-orbit or fixed-step guiding-centre simulation (without RF) with the time limit active ends: a marker that is still running after m steps has exactly m step lengths of mileage and time and is within both limits, and it ends at most one step beyond the mileage limit. An adaptive guiding-centre or field-line simulation with the CPU-time limit active ends as well, because every pass is charged to the marker, also one whose step is rejected. For every queue of markers and every number of threads and slots there is a bound on the steps all threads take together, in any order; no endless execution exists, and when nothing can move any more all markers are finished with a result they can have on their own.", "quantifier": "all queues, thread and slot counts, interleavings, step sizes and limits; arbitrary physics modules, wall and temperature answers, new in every pass", "why_tests_cant": "termination over all interleavings and all physics answers is a statement about unbounded executions; a test can only observe that some runs ended", "anchors": ["src/simulate/simulate_fo_fixed.c", "src/simulate/simulate_gc_fixed.c", "src/simulate/simulate_gc_adaptive.c", "src/simulate/simulate_ml_adaptive.c", "src/endcond.c", "src/particle.c"]}
{"id": "C115", "title": "Recording guiding centres of particles counts each running particle once, and nothing else", "statement": "When a full-orbit simulation records guiding centres instead of particles, every slot is converted independently of the others. Each bin of every distribution grows in a step exactly by weight times elapsed time of the particles that are still running, whose guiding centre can be computed and lies in that bin. As long as no particle ends in the step and every guiding centre can be computed, orbits, distributions and transport coefficients do not depend on the uninitialised memory the guiding centres are written to. If a particle ends in the step, this independence is lost: its index, end condition and coordinates are whatever the memory held, so its last point can appear in the orbit of any other marker, behind the arrays, or nowhere, and the transport coefficients of another marker can be evaluated under its id.", "quantifier": "all field, flux, axis and transformation functions, all slots and their number, all marker states before and after the step, all contents of the uninitialised memory, all diagnostic settings", "why_tests_cant": "the outcome depends on stack contents left by earlier calls, which in a test run are usually zero or the previous step's values", "anchors": ["src/simulate/simulate_fo_fixed.c:158-189", "src/particle.c:1174-1292", "src/diag/diag_orb.c:412-494", "src/diag.c:215-244"]}
{"id": "C116", "title": "Time-dependent plasma profiles: what the simulation sees of the file", "statement": "For a file with time-dependent one-dimensional plasma profiles, the temperatures the simulation uses inside the radial grid and between the stored times are the linear interpolation in radius and in time of the datasets of the file, converted to joules; from the last but one stored time on, the last profile is used; outside the radial grid there is an error, and before the first stored time an array is read out of bounds. The densities are also interpolations of stored profiles, but of those of another species and another time; which ones is stated exactly. They are the right ones only for the electrons at the first time and for the ions at the last. Even if all densities are constant, the electron density late in the simulation is that of the last ion species. The rotation is the bilinear interpolation plus an error term that is stated exactly.", "quantifier": "all files with complete datasets, all numbers of radii (>= 1), times (>= 2) and ion species, all increasing times, all positions and times", "why_tests_cant": "a test with one time-independent profile, as in the repository, cannot tell the slices apart; the mixture depends on the number of species and times", "anchors": ["src/hdf5io/hdf5_plasma.c:hdf5_plasma_read_1Dt", "src/plasma/plasma_1Dt.c:plasma_1Dt_init", "src/plasma/plasma_1Dt.c:plasma_1Dt_eval_densandtemp", "src/plasma/plasma_1Dt.c:plasma_1Dt_eval_flow"]}
{"id": "C117", "title": "Boozer coordinates and time-dependent waves: what the simulation sees of the files", "statement": "For a complete Boozer file the simulation uses the spline surfaces through the tables of the file: at tabulated fluxes and angles exactly the entries, with the table of the poloidal angle reaching four cells beyond one turn on either side. At every position inside the contour of the file, between the tabulated fluxes and off the axis, the transformation succeeds. If the poloidal Boozer angle in the file grows by one turn in one turn, nothing the simulation uses jumps at the cut of the geometric angle: neither the toroidal shift nor the phase of any mode with integer mode numbers. For a complete file of modes with time-dependent amplitude, the potentials at covered positions, radii and times are the sum over the modes of the file of amplitude times spline surface of the mode's own block times cosine of the phase, without an error. At times or radii the file does not cover all waves are zero, and no error is reported.", "quantifier": "all complete Boozer and MHD files with at least 2 fluxes, 3 angles and 10 geometric angles, 2 radii and 2 times, any number of modes; all positions, times, flux and axis functions", "why_tests_cant": "layout errors show only when all table dimensions differ; the cut of the angle is a single direction, and the silent end of the waves needs a run longer than the table", "anchors": ["src/boozer.c:boozer_init", "src/boozer.c:boozer_eval", "src/mhd/mhd_nonstat.c:mhd_nonstat_init", "src/mhd/mhd_nonstat.c:mhd_nonstat_eval", "src/hdf5io/hdf5_boozer.c:hdf5_boozer_read", "src/hdf5io/hdf5_mhd.c:hdf5_mhd_read_nonstat"]}
{"id": "C118", "title": "The full-orbit step can be undone and preserves phase-space volume", "statement": "Without radiation reaction the full-orbit step consists of half a step in space with the old momentum, an update of the momentum at the intermediate position and half a step in space with the new momentum. The momentum update is differentiable everywhere and its Jacobian determinant is one, for all charges, masses, step lengths and electric and magnetic fields; the steps in space are translations. Any sequence of steps of any lengths in any fields, also time-dependent ones, followed by the same steps backwards in reverse order restores radius, cumulative toroidal angle, height, time and momentum exactly, as long as the marker keeps running, stays off the axis of the coordinates and does not jump to the opposite side of the axis in one step.", "quantifier": "all charges, masses, momenta, fields (position- and time-dependent), step lengths, numbers of steps", "why_tests_cant": "exactness of reversal and of the determinant is a statement about real arithmetic and all fields; tests see only approximate energy conservation in a few fields", "anchors": ["src/simulate/step/step_fo_vpa.c:step_fo_vpa"]}
{"id": "C119", "title": "Atomic reactions from the file to the rates", "statement": "Every reaction of an atomic data file is available under the reactants, mass numbers and type of the file and on the grid of the file: cross-sections, rate coefficients, charge-exchange rates summed over the neutral species and beam-stopping rates averaged over the ion species are those of natural splines on that grid, in electronvolts, non-negative, with zero or an error outside the table. The numbers of each table are however taken from the start of the data, so that a reaction is served from its own numbers exactly if they repeat the first ones of the file.", "quantifier": "for all file contents with any number of tabulated reactions of one, two or three dimensions, all queries, energies, densities and temperatures, and all lists of species", "why_tests_cant": "The tests use files with a single reaction, for which the start of the data is right; a second table gives plausible positive rates of the wrong reaction without any error.", "anchors": ["src/hdf5io/hdf5_asigma.c:55", "src/asigma/asigma_loc.c:29", "src/asigma/asigma_loc.c:166", "src/asigma/asigma_loc.c:241", "src/asigma.c:95", "a5py/ascot5io/asigma.py:35"]}
{"id": "C120", "title": "Sampling normal deviates by rejection always ends, with a number", "statement": "From every state of either built-in generator (drand48 or the 64-bit congruential one) the rejection loop of the normal sampler ends: it returns the first pair of the stream that lies inside the unit circle, and this pair is never the centre, so that the logarithm and the quotient are defined. An array of any length is filled entry by entry, no entry exceeds 13.2 (drand48: 11.4) in size. drand48 has period 2^48, visits all its states, and its numbers are below 1.", "quantifier": "for all generator states, array lengths and numbers of rounds", "why_tests_cant": "A state from which the loop never ends, or a pair at the centre of the circle, would be one among 2^48 or 2^64; only the arithmetic of the generator excludes it.", "anchors": ["src/random.c:109", "src/random.c:195", "src/random.h:85", "src/ascot5.h:115", "src/simulate.c:146"]}
{"id": "C121", "title": "Energies of thermal fusion reactants drawn with drand48", "statement": "A thermal reactant drawn with drand48 has a positive energy of at most 96 ln 2 temperatures unless the first or second number drawn is zero, in which case it is infinite. After seeding the first number of a sample is never zero, but whatever the seed exactly one of the first 2^46 samples in a row has an infinite energy. There are seeds with which this happens within a single call (seed 1927875824, sample 224850). A whole run between two thermal species on one thread has at most one such sample if it is shorter than the period. The normal sampler of math.c ends from every state and returns the number that random_normal returns from that state.", "quantifier": "for all seeds, generator states, temperatures, masses and numbers of samples", "why_tests_cant": "The zero is one draw among 2^48, and its place among the draws depends on the seed, which is the time of day.", "anchors": ["src/afsi.c:74", "src/afsi.c:530", "src/math.c:188", "src/random.h:87"]}
