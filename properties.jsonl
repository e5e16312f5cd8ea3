{"id": "C01", "title": "Radial work sharing covers every flux surface exactly once", "statement": "For every number of flux surfaces and every thread count that the solver accepts, in fixed- and in free-boundary mode, each flux surface that is advanced in time belongs to exactly one thread, the threads hold consecutive blocks in thread order, block sizes differ by at most one, and every neighbouring surface a thread reads lies in that thread's own storage.", "quantifier": "all ns >= 3, all thread counts 1 <= T <= floor(n/2) where n is ns-1 (fixed) or ns (free), all thread ids, both boundary modes", "why_tests_cant": "the number of (ns, T) pairs is unbounded; tests sample a few", "anchors": ["src/vmecpp/cpp/vmecpp/vmec/radial_partitioning/radial_partitioning.cc: RadialPartitioning::adjustRadialPartitioning"]}
{"id": "C02", "title": "A thread budget is never refused", "statement": "Whatever max_threads >= 1 the caller passes and whatever ns >= 3 occurs in ns_array, the number of radial threads the solver picks is at least one, never above max_threads, and is always accepted by the radial work sharing; the number of vacuum threads picked is at least one, never above max_threads and never above the number of surface grid points.", "quantifier": "all max_threads >= 1, all ns >= 3, both boundary modes, all surface grid sizes >= 1", "why_tests_cant": "a crash only for particular combinations of core count and ns", "anchors": ["src/vmecpp/cpp/vmecpp/common/util/util.cc: vmec_adjust_num_threads, vmec_adjust_vacuum_num_threads", "src/vmecpp/cpp/vmecpp/vmec/radial_partitioning/radial_partitioning.cc"]}
{"id": "C03", "title": "Vacuum work sharing covers every surface grid point exactly once", "statement": "For every tangential grid size and vacuum thread count, each grid point on the plasma boundary is handled by exactly one vacuum thread, in contiguous ordered ranges whose sizes differ by at most one.", "quantifier": "all grid sizes nZnT >= 0, all thread counts >= 1", "why_tests_cant": "unbounded grid sizes and thread counts", "anchors": ["src/vmecpp/cpp/vmecpp/free_boundary/tangential_partitioning/tangential_partitioning.cc: adjustPartitioning"]}
{"id": "C04", "title": "The radial preconditioner result does not depend on the thread count", "statement": "Applying the R/Z preconditioner splits the Fourier modes over the threads such that every mode is solved exactly once; for every thread count the preconditioned forces are bit-for-bit those of the single-threaded run on the same matrix and right-hand side.", "quantifier": "all mode counts, all thread counts, all matrices and right-hand sides, any arithmetic (including IEEE doubles)", "why_tests_cant": "bit-exact equality has to hold for every thread count, mode count and matrix", "anchors": ["src/vmecpp/cpp/vmecpp/vmec/ideal_mhd_model/ideal_mhd_model.cc: applyRZPreconditioner", "src/vmecpp/cpp/vmecpp/common/util/util.cc: TridiagonalSolveSerial"]}
{"id": "C05", "title": "The tridiagonal solver solves the system", "statement": "For every tridiagonal system (any size, any first active row, any number of right-hand sides) whose elimination pivots are non-zero, the solution returned satisfies every equation of the system in exact arithmetic, and inactive rows above the first active one return zero.", "quantifier": "all sizes, all first active rows, all coefficients with non-zero pivots, all right-hand sides", "why_tests_cant": "unbounded sizes and real coefficients", "anchors": ["src/vmecpp/cpp/vmecpp/common/util/util.cc: TridiagonalSolveSerial"]}
{"id": "C06", "title": "MHD and lambda forces do not depend on how surfaces are distributed over threads", "statement": "For every partition of the flux surfaces into threads, the real-space MHD force and the lambda force produced on each flux surface are bit-for-bit the values obtained in a single-threaded run from the same geometry and fields.", "quantifier": "all ns, thread counts, surfaces, field values; any arithmetic", "why_tests_cant": "the kernels carry values from one surface to the next in a sliding window that restarts at each thread boundary; equality has to hold at every possible boundary", "anchors": ["src/vmecpp/cpp/vmecpp/vmec/ideal_mhd_model/mhdforce_kernel.h", "src/vmecpp/cpp/vmecpp/vmec/ideal_mhd_model/lambda_force_kernel.h", "src/vmecpp/cpp/vmecpp/vmec/ideal_mhd_model/ideal_mhd_model.cc"]}
{"id": "C07", "title": "Half-grid to full-grid averaging in the lambda preconditioner does not depend on the thread count", "statement": "The lambda preconditioner averages half-grid values in place; for every partition the value used on each full-grid surface is the average of the two original neighbouring half-grid values (at the outermost surface, where there is no outer neighbour, the average of the last half-grid value and zero), never of an already overwritten one.", "quantifier": "all ns, thread counts, surfaces, values; any arithmetic", "why_tests_cant": "in-place update order bugs appear only for particular partitions", "anchors": ["src/vmecpp/cpp/vmecpp/vmec/ideal_mhd_model/ideal_mhd_model.cc: updateLambdaPreconditioner"]}
{"id": "C08", "title": "Every volume sum counts each half-grid surface exactly once", "statement": "Plasma volume, energies and force norms are sums over half-grid surfaces. For every thread count each half-grid surface contributes through exactly one thread, so in exact arithmetic the total equals the single-threaded sum whatever the order in which threads add their contributions.", "quantifier": "all ns, thread counts, arrival orders of the threads, summands", "why_tests_cant": "double counting at one particular thread boundary changes results by a few percent only", "anchors": ["src/vmecpp/cpp/vmecpp/vmec/ideal_mhd_model/ideal_mhd_model.cc: updateVolume, pressureAndEnergies, computeForceNorms, evalFResInvar"]}
{"id": "C09", "title": "Repeated runs with the same thread count are bit-reproducible", "statement": "Two runs of the same input with the same number of threads return bit-identical force residuals, energies and norms, whatever the order in which the threads reach the accumulation.", "quantifier": "all thread counts, all arrival orders, all IEEE double partial sums", "why_tests_cant": "the failing schedule and the failing operands are both rare; a test cannot force a schedule", "anchors": ["src/vmecpp/cpp/vmecpp/vmec/ideal_mhd_model/ideal_mhd_model.cc: evalFResInvar, evalFResPrecd, pressureAndEnergies (omp critical accumulations)"]}
{"id": "C10", "title": "The equilibrium iteration always terminates within a bounded number of force evaluations", "statement": "For every forward model (whatever residuals, Jacobian failures and huge-force flags it reports, NaN included) one multigrid stage performs at most a fixed multiple of niter force evaluations and then stops.", "quantifier": "all forward-model behaviours (infinite histories), all niter >= 1, all ftol, all iteration styles", "why_tests_cant": "adversarial residual histories cannot be enumerated", "anchors": ["src/vmecpp/cpp/vmecpp/vmec/vmec/vmec.cc: SolveEquilibrium, SolveEquilibriumLoop, Evolve, RestartIteration"]}
{"id": "C11", "title": "Reported convergence is genuine", "statement": "If a stage reports successful termination then all three force residuals are finite and at most ftol, they were produced by a complete force evaluation of this stage (not left over from an evaluation aborted by a bad Jacobian or from an earlier stage), and the geometry held by the solver afterwards is exactly the geometry for which they were evaluated.", "quantifier": "all forward-model behaviours, all niter, ftol, iteration styles", "why_tests_cant": "requires an invariant over every history of rollbacks, axis re-guesses and time-step resets", "anchors": ["src/vmecpp/cpp/vmecpp/vmec/vmec/vmec.cc: SolveEquilibriumLoop, Evolve, RestartIteration"]}
{"id": "C12", "title": "Roll-backs only return to saved geometries and the time step stays in range", "statement": "In every history, a rolled-back geometry is one that was saved earlier in the same stage (the initial state, an axis re-guess, or a state saved by the time-step control), velocities are zero after a roll-back, and the pseudo-time step stays strictly positive and never exceeds the user's delt.", "quantifier": "all histories of force evaluations and restarts", "why_tests_cant": "histories are unbounded", "anchors": ["src/vmecpp/cpp/vmecpp/vmec/vmec/vmec.cc: RestartIteration, SolveEquilibriumLoop"]}
{"id": "C13", "title": "A run returns outputs only after convergence unless asked otherwise", "statement": "Vmec::run returns an OK status without having reached a requested checkpoint only if the last multigrid stage terminated successfully, or if return_outputs_even_if_not_converged is set; a stage that hard-fails is never followed by another stage.", "quantifier": "all ns_array schedules, all stage outcomes", "why_tests_cant": "all combinations of stage outcomes and schedules", "anchors": ["src/vmecpp/cpp/vmecpp/vmec/vmec/vmec.cc: Vmec::run"]}
{"id": "C14", "title": "A bad initial Jacobian triggers the documented ns=3 retry", "statement": "If the first multigrid stage fails with a bad Jacobian, the run is repeated once with a 3-surface stage inserted before the user's ns_array.", "quantifier": "all runs whose first stage ends with status BAD_JACOBIAN", "why_tests_cant": "requires reasoning over all exits of the multigrid loop", "anchors": ["src/vmecpp/cpp/vmecpp/vmec/vmec/vmec.cc: Vmec::run (jacob_off_ loop)"]}
{"id": "C15", "title": "Stages with a repeated ns keep the lambda normalisation", "statement": "For every non-decreasing ns_array accepted by the input check, every stage runs with the lambda scale factor computed from the toroidal flux profile (positive), also when an ns value is repeated with a tighter tolerance.", "quantifier": "all accepted ns_array values", "why_tests_cant": "only schedules with equal neighbouring entries are affected", "anchors": ["src/vmecpp/cpp/vmecpp/vmec/vmec/vmec.cc: Vmec::run, InitializeRadial", "src/vmecpp/cpp/vmecpp/vmec/vmec_constants/vmec_constants.cc: reset"]}
{"id": "C16", "title": "Free-boundary coupling is switched on once and in order", "statement": "Over every history of force evaluations the vacuum coupling goes off -> initializing -> initialized -> active without skipping back within a stage, the vacuum field is solved before it is used in the edge force, the vacuum update interval is always at least one and at most max(nvacskip, 10), and a full vacuum solve happens at the first iteration after every restart.", "quantifier": "all residual histories, all nvacskip >= 1", "why_tests_cant": "histories are unbounded", "anchors": ["src/vmecpp/cpp/vmecpp/vmec/ideal_mhd_model/ideal_mhd_model.cc: IdealMhdModel::update", "src/vmecpp/cpp/vmecpp/vmec/vmec/vmec.cc"]}
{"id": "C17", "title": "The Python force iteration reproduces the C++ one", "statement": "For the iteration styles available in both, vmecpp.solve_equilibrium performs, on the same forward model, the same sequence of evaluations, time steps, saves and roll-backs with the same time steps as the C++ solver, and ends in the same outcome.", "quantifier": "all forward-model behaviours, niter, ftol, delt, styles vmec_8_52 and parvmec", "why_tests_cant": "two state machines have to agree on every history", "anchors": ["src/vmecpp/_iteration.py: solve_equilibrium", "src/vmecpp/cpp/vmecpp/vmec/vmec/vmec.cc: SolveEquilibriumLoop, Evolve"]}
{"id": "C18", "title": "Reading a boundary preserves the surface", "statement": "For every symmetric or asymmetric set of boundary coefficients rbc, zbs, rbs, zbc (m, n), the internal product-basis coefficients describe the same surface R, Z at every poloidal and toroidal angle (up to the documented poloidal re-parametrisation).", "quantifier": "all mpol, ntor, nfp, coefficient values and all angles", "why_tests_cant": "all real coefficient sets and all angles", "anchors": ["src/vmecpp/cpp/vmecpp/vmec/boundaries/boundaries.cc: parseToInternalArrays"]}
{"id": "C19", "title": "The m=1 poloidal origin shift preserves the surface and symmetrises the m=1, n=0 mode", "statement": "For an asymmetric boundary the poloidal angle shift applied when reading the input leaves the set of surface points unchanged and makes the asymmetric m=1,n=0 coefficients of R and Z equal.", "quantifier": "all coefficient values and angles", "why_tests_cant": "all real coefficient sets", "anchors": ["src/vmecpp/cpp/vmecpp/vmec/boundaries/boundaries.cc"]}
{"id": "C20", "title": "Reversing the poloidal angle keeps the surface and flips the orientation", "statement": "When the boundary has the wrong orientation, the coefficients are changed so that the surface is the same point set traversed as theta -> pi - theta; afterwards the orientation test passes.", "quantifier": "all coefficient sets with non-zero orientation sum, all angles", "why_tests_cant": "all real coefficient sets", "anchors": ["src/vmecpp/cpp/vmecpp/vmec/boundaries/boundaries.cc: flipTheta, checkSignOfJacobian"]}
{"id": "C21", "title": "Conversion between the combined and the product Fourier basis is lossless", "statement": "For every set of cos(mu-nv)/sin(mu-nv) coefficients, converting to the product basis and back returns the same coefficients (the coefficient of sin(0), which is identically zero, comes back as zero), and in both directions the product-basis series equals the combined series at every angle.", "quantifier": "all mpol, ntor, coefficients, angles", "why_tests_cant": "all real coefficient sets and sizes", "anchors": ["src/vmecpp/cpp/vmecpp/common/fourier_basis/fourier_basis.cc: cos_to_cc_ss, sin_to_sc_cs, cc_ss_to_cos, sc_cs_to_sin"]}
{"id": "C22", "title": "The m=1 constraint rotation is inverted exactly", "statement": "Applying the m=1 constraint rotation (factor 1/2) and then its inverse (factor 1) returns the original R and Z m=1 coefficients, and other modes are not touched.", "quantifier": "all coefficients, radial surfaces, symmetric and asymmetric", "why_tests_cant": "all values", "anchors": ["src/vmecpp/cpp/vmecpp/vmec/fourier_coefficients/fourier_coefficients.cc: m1Constraint", "src/vmecpp/cpp/vmecpp/vmec/boundaries/boundaries.cc: ensureM1Constrained"]}
{"id": "C23", "title": "Fourier mode tables enumerate every mode once", "statement": "For every resolution, the mode tables xm, xn list each mode (m=0: n=0..ntor; m>0: n=-ntor..ntor) exactly once, their length is the advertised mnmax, and the position of a mode is recovered by the index function; the same holds for the Nyquist tables.", "quantifier": "all mpol >= 1, ntor >= 0, nfp", "why_tests_cant": "unbounded resolutions", "anchors": ["src/vmecpp/cpp/vmecpp/common/fourier_basis/fourier_basis.cc: computeConversionIndices, mnIdx"]}
{"id": "C24", "title": "Grid sizes are always sufficient", "statement": "For every input accepted by the consistency check, the angular grid chosen has at least 2*mpol+6 poloidal and (for ntor>0) 2*ntor+4 toroidal points, an even number of poloidal points, all array sizes are positive, and every mode used is below the Nyquist limit of the grid.", "quantifier": "all accepted mpol, ntor, ntheta, nzeta", "why_tests_cant": "unbounded sizes", "anchors": ["src/vmecpp/cpp/vmecpp/common/sizes/sizes.cc", "src/vmecpp/cpp/vmecpp/common/vmec_indata/vmec_indata.cc: IsConsistent"]}
{"id": "C25", "title": "Grid transforms are exact for resolved modes", "statement": "Evaluating a Fourier series (symmetric or asymmetric) with the solver's modes on the angular grid and projecting it back with the solver's integration weights returns exactly the original coefficients (exact arithmetic), for every 3D resolution the solver accepts and every axisymmetric one with a single toroidal plane (several planes: C55).", "quantifier": "all mpol, ntor, ntheta, nzeta, all coefficients", "why_tests_cant": "all sizes and coefficients", "anchors": ["src/vmecpp/cpp/vmecpp/common/fourier_basis/fourier_basis.cc", "src/vmecpp/cpp/vmecpp/vmec/ideal_mhd_model/dft_toroidal.cc"]}
{"id": "C26", "title": "Asymmetric geometry and forces are assembled with the right parity", "statement": "For lasym runs, combining the symmetric and antisymmetric parts on the reduced grid gives at every point of the full poloidal grid the value of the full Fourier series, and decomposing forces back splits any force field into parts of definite parity whose sum is the original.", "quantifier": "all fields, all grid sizes, all points", "why_tests_cant": "all field values and sizes", "anchors": ["src/vmecpp/cpp/vmecpp/vmec/ideal_mhd_model/ideal_mhd_model.cc: symrzl, symforce"]}
{"id": "C27", "title": "The Jacobian test fires exactly on a sign change", "statement": "The forward model reports a bad Jacobian exactly when the Jacobian takes both a positive and a negative value on the half grid.", "quantifier": "all geometries, thread partitions, floating point values including NaN and tiny values", "why_tests_cant": "all geometries", "anchors": ["src/vmecpp/cpp/vmecpp/vmec/ideal_mhd_model/ideal_mhd_model.cc: computeJacobian"]}
{"id": "C28", "title": "The Jacobian verdict does not depend on the thread count", "statement": "A sign change of the Jacobian between any two half-grid surfaces is detected for every distribution of surfaces over threads.", "quantifier": "all partitions and Jacobian values", "why_tests_cant": "needs a sign change located exactly at a thread boundary", "anchors": ["src/vmecpp/cpp/vmecpp/vmec/ideal_mhd_model/ideal_mhd_model.cc: computeJacobian", "src/vmecpp/cpp/vmecpp/vmec/radial_partitioning/radial_partitioning.cc"]}
{"id": "C29", "title": "Power-series profiles are evaluated and integrated exactly", "statement": "A power_series profile evaluates to the polynomial with the given coefficients; the enclosed current derived from a power-series current density is its antiderivative vanishing on the axis; the toroidal flux derivative profile is the derivative of the flux polynomial.", "quantifier": "all coefficient lists, all s", "why_tests_cant": "all coefficients", "anchors": ["src/vmecpp/cpp/vmecpp/vmec/radial_profiles/radial_profiles.cc: evalPowerSeries, evalPowerSeriesI, torflux, torfluxDeriv"]}
{"id": "C30", "title": "The enclosed toroidal flux at the boundary is phiedge", "statement": "Whatever the (non-degenerate) flux polynomial aphi, the toroidal flux enclosed by the outermost surface is phiedge up to the documented sign and 2*pi factor.", "quantifier": "all aphi with non-zero sum, all phiedge", "why_tests_cant": "all coefficient lists", "anchors": ["src/vmecpp/cpp/vmecpp/vmec/radial_profiles/radial_profiles.cc: computeMagneticFluxes, torflux"]}
{"id": "C31", "title": "Spline profiles pass through their knots and are integrated consistently", "statement": "Akima and cubic spline profiles return the given value at every knot, are evaluated on the segment that contains s, and the integrated variants are antiderivatives of the profile they integrate.", "quantifier": "all knot sets with strictly increasing positions, all values, all s in range", "why_tests_cant": "all knots and positions", "anchors": ["src/vmecpp/cpp/vmecpp/vmec/radial_profiles/radial_profiles.cc: evalAkima, evalCubic, evalAkimaIntegrated, evalCubicIntegrated, CubicLowerIndex"]}
{"id": "C32", "title": "line_segment profiles interpolate linearly between knots", "statement": "A line_segment profile is the piecewise linear function through the given (s, value) knots at every s between the first and last knot; the integrated line_segment current profile is its integral.", "quantifier": "all knot sets, all s", "why_tests_cant": "a test that samples at knots only cannot see it", "anchors": ["src/vmecpp/cpp/vmecpp/vmec/radial_profiles/radial_profiles.cc: evalLineSegment, evalLineSegmentIntegrated", "src/vmecpp/__init__.py: set_profile"]}
{"id": "C33", "title": "Profiles are continuous up to the plasma edge", "statement": "Analytic profile parametrisations are continuous at s = 1 (the edge value is the limit of the interior values).", "quantifier": "all coefficients", "why_tests_cant": "limit statement", "anchors": ["src/vmecpp/cpp/vmecpp/vmec/radial_profiles/radial_profiles.cc: evalSumAtan, evalTwoPower, evalGaussTruncated"]}
{"id": "C34", "title": "A misspelt or unusable profile type is rejected", "statement": "A run with an unknown profile type, or with a type that is not available for the quantity, is refused with an error instead of silently using a zero profile.", "quantifier": "all profile type strings", "why_tests_cant": "all strings", "anchors": ["src/vmecpp/cpp/vmecpp/vmec/radial_profiles/radial_profiles.cc: findParameterization, setupInputProfiles, evalProfileFunction"]}
{"id": "C35", "title": "Accepted inputs cannot cause out-of-range accesses in the checks", "statement": "The consistency check itself never reads beyond an array of the input and rejects every non-finite or out-of-range numerical control parameter.", "quantifier": "all VmecINDATA values", "why_tests_cant": "all inputs", "anchors": ["src/vmecpp/cpp/vmecpp/common/vmec_indata/vmec_indata.cc: IsConsistent"]}
{"id": "C36", "title": "Reading boundary coefficients from JSON never writes outside the coefficient arrays", "statement": "For every list of (m, n, value) entries in a JSON input, entries outside the resolution are ignored, the last entry for a mode wins, and no write outside the coefficient array happens.", "quantifier": "all entry lists, all mpol, ntor", "why_tests_cant": "all inputs", "anchors": ["src/vmecpp/cpp/vmecpp/common/vmec_indata/vmec_indata.cc: FromJson", "src/vmecpp/cpp/vmecpp/common/vmec_indata/boundary_from_json.cc: BoundaryCoefficient::FromJson"]}
{"id": "C37", "title": "Integer settings that do not fit are rejected", "statement": "An integer in the JSON input that is outside the 32-bit range is reported as an error, not silently changed to a different value.", "quantifier": "all JSON integers", "why_tests_cant": "all integers", "anchors": ["src/vmecpp/cpp/util/json_io/json_io.cc: JsonReadInt, JsonReadVectorInt"]}
{"id": "C38", "title": "Sparse and dense boundary representations are interchangeable", "statement": "Serialising a dense coefficient array to the sparse list and reading it back (with the shape restored to mpol x (2 ntor + 1)) returns the same array; resizing keeps every coefficient that fits, zeroes new ones, and never moves a value to another mode.", "quantifier": "all array sizes, all values, all target sizes", "why_tests_cant": "all sizes and values", "anchors": ["src/vmecpp/_util.py: dense_to_sparse_coefficients, sparse_to_dense_coefficients_implicit", "src/vmecpp/__init__.py: VmecInput.resize_2d_coeff, _validate_fourier_coefficients_shapes"]}
{"id": "C39", "title": "Converting a VMEC++ JSON input to a VMEC2000 INDATA file keeps all shared settings", "statement": "Every setting that both input formats have (resolution, profiles, axis guess, boundary) appears in the converted INDATA file with the same value.", "quantifier": "all inputs", "why_tests_cant": "all inputs", "anchors": ["src/vmecpp/_util.py: vmecpp_json_to_indata"]}
{"id": "C40", "title": "Interpolated coil fields are read in range and reproduce the grid", "statement": "For every boundary point (inside or outside the vacuum grid) the interpolation of the mgrid field reads only grid values of the right toroidal plane, returns the grid value at grid nodes, reproduces every field that is bilinear in (R, Z) inside the grid, and is the value at the nearest in-grid point outside.", "quantifier": "all grids with at least 2x2 points, all boundary points", "why_tests_cant": "all positions", "anchors": ["src/vmecpp/cpp/vmecpp/free_boundary/mgrid_provider/mgrid_provider.cc: interpolate"]}
{"id": "C41", "title": "The vacuum field is linear in the coil currents", "statement": "The field loaded from a response table is the sum over circuits of current times response; scaling or adding current vectors scales or adds the fields, and loading again replaces the previous field.", "quantifier": "all response tables, currents, previous states", "why_tests_cant": "all tables", "anchors": ["src/vmecpp/cpp/vmecpp/free_boundary/mgrid_provider/mgrid_provider.cc: LoadFields, LoadFile"]}
{"id": "C42", "title": "Stellarator-symmetric response tables equal the full computation", "statement": "With assume_stellarator_symmetry the field table is filled completely, every mirrored point is copied from a point that was computed, and for a stellarator-symmetric coil set the table equals the one computed without the symmetry option.", "quantifier": "all grids accepted by the parameter check, all symmetric fields", "why_tests_cant": "all grids", "anchors": ["src/vmecpp/cpp/vmecpp/common/makegrid_lib/makegrid_lib.cc: MakeCylindricalGrid, CartesianToCylindricalField, IsValidMakegridParameters"]}
{"id": "C43", "title": "Refining the radial grid preserves boundary and coincident surfaces", "statement": "The multigrid interpolation reads only surfaces of the coarse solution, leaves the boundary surface exactly unchanged, reproduces the coarse values at radial positions common to both grids, and produces zero for odd-m coefficients on the axis.", "quantifier": "all coarse and fine ns, all coefficients, all thread partitions", "why_tests_cant": "all sizes", "anchors": ["src/vmecpp/cpp/vmecpp/vmec/vmec/vmec.cc: InterpolateToNextMultigridStep"]}
{"id": "C44", "title": "Neighbouring threads agree on shared surfaces after every time step", "statement": "After each time step the copies of a flux surface held by neighbouring threads are bit-identical to the owner's copy.", "quantifier": "all partitions, all forces and velocities, any number of steps", "why_tests_cant": "a stale halo appears only at thread boundaries", "anchors": ["src/vmecpp/cpp/vmecpp/vmec/vmec/vmec.cc: PerformTimeStep"]}
{"id": "C45", "title": "No thread can leave a force evaluation alone", "statement": "In every force evaluation all threads pass through the same sequence of barriers and either all threads return an error or none does.", "quantifier": "all geometries, all thread counts", "why_tests_cant": "a deadlock or desynchronisation needs a degenerate geometry on one thread only", "anchors": ["src/vmecpp/cpp/vmecpp/vmec/ideal_mhd_model/ideal_mhd_model.cc: update, constraintForceMultiplier", "src/vmecpp/cpp/vmecpp/vmec/vmec/vmec.cc: SolveEquilibriumLoop"]}
{"id": "C46", "title": "Saving a wout file is atomic", "statement": "At every crash or failure point during VmecWOut.save the target path holds either its previous contents or the complete new file.", "quantifier": "all crash points, all previous directory states", "why_tests_cant": "crash points cannot be enumerated by tests", "anchors": ["src/vmecpp/__init__.py: VmecWOut.save"]}
{"id": "C47", "title": "A user interrupt is honoured within one printout interval", "statement": "If the interrupt callback keeps requesting an interrupt, the solver stops after at most nstep further counted iterations and reports cancellation, whatever the force history without restarts.", "quantifier": "all histories", "why_tests_cant": "all histories", "anchors": ["src/vmecpp/cpp/vmecpp/vmec/vmec/vmec.cc: SolveEquilibriumLoop (interrupt_callback_)"]}
{"id": "C48", "title": "Prescribed-current runs carry the prescribed current", "statement": "With ncurr = 1 the poloidal flux derivative chosen on each surface makes the surface-averaged covariant poloidal field equal to the prescribed enclosed toroidal current (exact arithmetic).", "quantifier": "all geometries with non-zero surface average, all current profiles", "why_tests_cant": "all geometries", "anchors": ["src/vmecpp/cpp/vmecpp/vmec/ideal_mhd_model/ideal_mhd_model.cc: computeBContra"]}
{"id": "C49", "title": "Hot restart reproduces the stored geometry", "statement": "Exporting a geometry to the output representation and using it as restart input at the same resolution gives back the same internal coefficients (inner surfaces; boundary from the new input in fixed-boundary mode).", "quantifier": "all geometries and resolutions", "why_tests_cant": "all geometries", "anchors": ["src/vmecpp/cpp/vmecpp/vmec/fourier_geometry/fourier_geometry.cc: InitFromState", "src/vmecpp/cpp/vmecpp/vmec/output_quantities/output_quantities.cc"]}
{"id": "C50", "title": "Continuation between Fourier resolutions keeps the common modes", "statement": "interpolate_solution keeps every coefficient of a mode present in both resolutions on the boundary surface exactly, sets new modes to zero, is the identity if the resolution does not change, and keeps odd-m coefficients zero on the axis.", "quantifier": "all source and target resolutions, all coefficients", "why_tests_cant": "all sizes and values", "anchors": ["src/vmecpp/_continuation.py: interpolate_solution, _remap_modes, _radial_interpolate_geometry, _state_mode_table"]}
{"id": "C51", "title": "The axis re-guess stays inside the boundary's bounding box", "statement": "The magnetic axis proposed after a bad initial Jacobian lies, in every toroidal plane, within the R/Z extent of the boundary in that plane.", "quantifier": "all boundaries, symmetric and asymmetric", "why_tests_cant": "all boundaries", "anchors": ["src/vmecpp/cpp/vmecpp/vmec/boundaries/guess_magnetic_axis.cc: RecomputeMagneticAxisToFixJacobianSign"]}
{"id": "C52", "title": "A solver object can be run again after an interrupted run", "statement": "After a run was cancelled through the interrupt callback, running the same Vmec object again with a callback that no longer requests an interrupt is not reported as cancelled.", "quantifier": "all inputs, all second runs", "why_tests_cant": "depends on state left in the object by all possible first runs", "anchors": ["src/vmecpp/cpp/vmecpp/vmec/vmec/vmec.cc: Vmec::run, SolveEquilibrium (interrupted_)"]}
{"id": "C53", "title": "An asymmetric boundary satisfies the m=1 constraint after reading", "statement": "For an asymmetric boundary, after the input is read the constrained m=1, n=0 combination (R_sin minus Z_cos) is zero, whether or not the poloidal angle had to be reversed.", "quantifier": "all asymmetric boundary coefficient sets", "why_tests_cant": "only asymmetric boundaries given in the reversed orientation are affected", "anchors": ["src/vmecpp/cpp/vmecpp/vmec/boundaries/boundaries.cc: parseToInternalArrays, flipTheta, ensureM1Constrained"]}
{"id": "C54", "title": "Real-space geometry is the Fourier series and its true derivatives", "statement": "At every grid point and surface, in symmetric and asymmetric, 3D and axisymmetric runs, the R, Z values used by the force computation are the values of the Fourier series of the current coefficients, the arrays used as poloidal and toroidal derivatives of R, Z and lambda are the exact derivatives of those series, and no stale value from an earlier evaluation enters (exact arithmetic).", "quantifier": "all coefficients, all resolutions (axisymmetric: one toroidal plane), all partitions into threads, all earlier array contents", "why_tests_cant": "all coefficients and sizes; derivative statements", "anchors": ["src/vmecpp/cpp/vmecpp/vmec/ideal_mhd_model/ideal_mhd_model.cc: geometryFromFourier, dft_FourierToReal_2d_symm, dft_FourierToReal_2d_asymm, symrzl", "src/vmecpp/cpp/vmecpp/vmec/ideal_mhd_model/dft_toroidal.cc: FourierToReal3DSymmFastPoloidal, FourierToReal3DAsymmFastPoloidal"]}
{"id": "C55", "title": "An axisymmetric run may use several toroidal planes", "statement": "With ntor = 0 and nzeta > 1, which the input check accepts, the geometry of each surface is stored where the rest of the computation reads it.", "quantifier": "all axisymmetric inputs with nzeta > 1", "why_tests_cant": "shipped axisymmetric cases use nzeta <= 1", "anchors": ["src/vmecpp/cpp/vmecpp/common/sizes/sizes.cc: computeDerivedSizes", "src/vmecpp/cpp/vmecpp/vmec/ideal_mhd_model/ideal_mhd_model.cc: dft_FourierToReal_2d_symm"]}
{"id": "C56", "title": "Fourier forces are the work of the real-space forces on each mode", "statement": "The force coefficient of every component, symmetry kind and mode is the grid inner product of the real-space force densities with the basis function and its derivatives - the same formula for symmetric and asymmetric, 3D and axisymmetric runs - on exactly the surfaces that component evolves on, and zero elsewhere (axis: only m=0 for R and Z, none for lambda; boundary surface: R and Z only with an active vacuum field).", "quantifier": "all force fields, all resolutions (axisymmetric: one toroidal plane), all partitions", "why_tests_cant": "all fields and sizes", "anchors": ["src/vmecpp/cpp/vmecpp/vmec/ideal_mhd_model/ideal_mhd_model.cc: forcesToFourier, dft_ForcesToFourier_2d_symm, dft_ForcesToFourier_2d_asymm, symforce", "src/vmecpp/cpp/vmecpp/vmec/ideal_mhd_model/dft_toroidal.cc: ForcesToFourier3DSymmFastPoloidal, ForcesToFourier3DAsymmFastPoloidal"]}
{"id": "C57", "title": "Peaked pressure profiles decrease from their axis value to zero", "statement": "gauss_trunc, two_power and two_lorentz pressure profiles equal their first coefficient on the axis, vanish at the edge, and are non-increasing and non-negative in between.", "quantifier": "all admissible coefficients, all 0 <= s <= 1", "why_tests_cant": "all coefficients and positions", "anchors": ["src/vmecpp/cpp/vmecpp/vmec/radial_profiles/radial_profiles.cc: evalGaussTrunc, evalTwoPower, evalTwoLorentz"]}
{"id": "C58", "title": "Spline profiles reproduce simple shapes exactly", "statement": "A cubic_spline profile through points of a parabola is that parabola, an akima_spline profile through points of a straight line is that line, and reflecting the data of an akima_spline reflects the profile.", "quantifier": "all strictly increasing knot sets of at least four points, all s in range", "why_tests_cant": "all knots", "anchors": ["src/vmecpp/cpp/vmecpp/vmec/radial_profiles/radial_profiles.cc: evalCubic, BuildCubicSecondDerivatives, evalAkima, BuildAkimaCoeffs"]}
{"id": "C59", "title": "The prescribed net toroidal current is imposed independently of the profile's scale", "statement": "In a current-constrained run the enclosed current at the edge is signgs*mu0*curtor/(2 pi) for every current profile with non-negligible edge value, and multiplying the profile by a constant changes nothing.", "quantifier": "all current profiles, all curtor", "why_tests_cant": "all profiles", "anchors": ["src/vmecpp/cpp/vmecpp/vmec/radial_profiles/radial_profiles.cc: evalRadialProfiles (Itor, currH)"]}
{"id": "C60", "title": "The lambda normalisation does not depend on the number of threads", "statement": "The internal scale of lambda is the root mean square of the toroidal flux derivative over the half-grid surfaces, each counted exactly once, for every number of threads.", "quantifier": "all flux profiles, all ns, all thread counts", "why_tests_cant": "all partitions", "anchors": ["src/vmecpp/cpp/vmecpp/vmec/radial_profiles/radial_profiles.cc: evalRadialProfiles (rmsPhiP)", "src/vmecpp/cpp/vmecpp/vmec/vmec/vmec.cc: InitializeRadial (lamscale)"]}
{"id": "C61", "title": "Only the ratios of the flux coefficients matter", "statement": "phiedge fixes the enclosed flux, so multiplying all aphi coefficients by the same constant changes neither the toroidal flux nor the pressure, iota and current profiles.", "quantifier": "all aphi with non-zero sum, all constants", "why_tests_cant": "tests use the default aphi = [1]", "anchors": ["src/vmecpp/cpp/vmecpp/vmec/radial_profiles/radial_profiles.cc: computeMagneticFluxes, torflux, evalRadialProfiles"]}
{"id": "C62", "title": "Radial refinement is exact for polynomials and the default scheme creates no new extrema", "statement": "When the radial grid is refined, coefficients that are straight lines (linear scheme), cubic polynomials in s (cubic scheme) or in sqrt(s) (cubic_rho scheme) over the coarse surfaces are reproduced on every fine surface, and with the linear scheme no fine value leaves the range of the coarse values.", "quantifier": "all coarse and fine grids, all coefficients, all thread counts", "why_tests_cant": "all grids and coefficients", "anchors": ["src/vmecpp/cpp/vmecpp/vmec/vmec/vmec.cc: InterpolateToNextMultigridStep"]}
{"id": "C63", "title": "A failed load of coil fields leaves the loaded field usable", "statement": "If loading coil fields (from a response table or from an mgrid file) into a provider that already holds a field reports an error, the provider still gives the field it gave before.", "quantifier": "all providers holding a field, all tables and files, all currents", "why_tests_cant": "needs a failing load of a differently sized grid followed by a lookup", "anchors": ["src/vmecpp/cpp/vmecpp/free_boundary/mgrid_provider/mgrid_provider.cc: LoadFile, LoadFields, interpolate"]}
{"id": "C64", "title": "The interpolated coil field has no overshoot and no jumps", "statement": "On each toroidal plane every component of the interpolated coil field stays within the range of the grid values of that plane, and moving a boundary point changes it by at most the largest difference of neighbouring grid values per cell width, also across cell boundaries and at the edge of the grid.", "quantifier": "all grids with at least 2x2 points, all pairs of points", "why_tests_cant": "all pairs of positions", "anchors": ["src/vmecpp/cpp/vmecpp/free_boundary/mgrid_provider/mgrid_provider.cc: interpolate"]}
{"id": "C65", "title": "The field of a straight current filament obeys Ampere's law", "statement": "The magnetic field returned for an infinite straight filament is perpendicular to the filament and to the connection with it, right-handed about the current, of magnitude mu0 I / (2 pi distance), and independent of the length of the direction vector and of which point of the filament is given as origin.", "quantifier": "all filaments, currents and positions off the filament", "why_tests_cant": "all geometries", "anchors": ["src/vmecpp/cpp/vmecpp/common/magnetic_field_provider/magnetic_field_provider_lib.cc: MagneticField (InfiniteStraightFilament)"]}
{"id": "C66", "title": "Folding winding numbers into circuit currents does not change the field", "statement": "NumWindingsToCircuitCurrents leaves the magnetic field of the coil set unchanged at every position, for every coil set the field evaluation accepts.", "quantifier": "all coil sets, all positions", "why_tests_cant": "all combinations of winding numbers, including unset ones", "anchors": ["src/vmecpp/cpp/vmecpp/common/magnetic_configuration_lib/magnetic_configuration_lib.cc: NumWindingsToCircuitCurrents", "src/vmecpp/cpp/vmecpp/common/magnetic_field_provider/magnetic_field_provider_lib.cc: MagneticField (MagneticConfiguration)"]}
{"id": "C67", "title": "A response table loaded with the circuit currents reproduces the field of the coil set", "statement": "Computing a response table for a coil set and loading it into the vacuum field provider with the circuit currents (ones, if the table is not normalised) gives at every grid point the cylindrical components of the field of the whole coil set at that point.", "quantifier": "all coil sets, all grids, all orders of the parallel loops", "why_tests_cant": "all grids and coil sets", "anchors": ["src/vmecpp/cpp/vmecpp/common/makegrid_lib/makegrid_lib.cc: ComputeMagneticFieldResponseTable", "src/vmecpp/cpp/vmecpp/free_boundary/mgrid_provider/mgrid_provider.cc: LoadFields"]}
{"id": "C68", "title": "An input written to JSON is read back unchanged", "statement": "For every input that passes the consistency check, the JSON text written for it is accepted again and gives the same input (all settings, axis and boundary coefficients).", "quantifier": "all accepted inputs with finite numbers", "why_tests_cant": "all inputs; the shipped cases are stellarator symmetric", "anchors": ["src/vmecpp/cpp/vmecpp/common/vmec_indata/vmec_indata.cc: ToJson, FromJson, IsConsistent"]}
{"id": "C69", "title": "Changing the Fourier resolution of an input keeps its coefficients", "statement": "After the resolution of an input is changed, every axis and boundary coefficient of a mode inside both resolutions is unchanged, every new one is zero, all other settings are unchanged, arrays have the sizes of the new resolution, and growing followed by shrinking back restores the input.", "quantifier": "all inputs, all old and new resolutions", "why_tests_cant": "all pairs of resolutions", "anchors": ["src/vmecpp/cpp/vmecpp/common/vmec_indata/vmec_indata.cc: SetMpolNtor"]}
{"id": "C70", "title": "A JSON input is either read completely and correctly or refused", "statement": "For every JSON object the reader returns an error or an input in which each setting is the member of that name, or the default where there is none, axis arrays are padded with zeros, and which passes the consistency check; no text leads to an exception or to undefined behaviour.", "quantifier": "all JSON objects", "why_tests_cant": "all texts", "anchors": ["src/vmecpp/cpp/vmecpp/common/vmec_indata/vmec_indata.cc: FromJson", "src/vmecpp/cpp/util/json_io/json_io.cc"]}
{"id": "C71", "title": "Both JSON readers give the same boundary", "statement": "For every list of boundary entries and every resolution, the Python reader and the C++ reader produce the same coefficient array, or both refuse the list.", "quantifier": "all lists of entries, all resolutions", "why_tests_cant": "all entry lists, including out-of-range, duplicate and negative modes", "anchors": ["src/vmecpp/__init__.py: dense/sparse conversion", "src/vmecpp/cpp/vmecpp/common/vmec_indata/vmec_indata.cc: FromJson"]}
{"id": "C72", "title": "Continuation refines the radial grid as the solver does", "statement": "When a solution is brought to a finer radial grid for a continuation step, each Fourier coefficient on each surface gets the value the solver's own multigrid refinement would give it.", "quantifier": "all coefficient profiles, all pairs of grids", "why_tests_cant": "all profiles and grids; the documentation promises this agreement but no test compares the two", "anchors": ["src/vmecpp/_continuation.py: radial interpolation of the geometry", "src/vmecpp/cpp/vmecpp/vmec/vmec/vmec.cc: InterpolateToNextMultigridStep"]}
{"id": "C73", "title": "Changing the resolution of a solution leaves non-radial data alone", "statement": "When a solution is brought to another resolution, every array that does not live on the radial grid (profile coefficients, spline knots, convergence history) is unchanged.", "quantifier": "all solutions, all old and new resolutions", "why_tests_cant": "coincidences between array lengths and numbers of surfaces", "anchors": ["src/vmecpp/_continuation.py: interpolate_solution"]}
{"id": "C74", "title": "A continuation run solves exactly the scheduled problems", "statement": "A run with a resolution schedule performs one solver run per entry of ns_array, each with the scheduled ns, mpol, ntor, tolerance and iteration limit and the boundary cut or padded to that resolution, each started from the previous result brought to the same resolution; the result is that of the last run; a schedule with inconsistent lengths is refused before anything is computed.", "quantifier": "all schedules, all solver outcomes", "why_tests_cant": "all schedules and all failures of intermediate runs", "anchors": ["src/vmecpp/_continuation.py: continuation driver"]}
{"id": "C75", "title": "A failed save leaves the directory as it was", "statement": "If saving an output object raises an exception, the directory contains the same files with the same contents as before the call; in particular no temporary file is left behind.", "quantifier": "all targets, all contents, all failure points", "why_tests_cant": "failures of each file-system call cannot be injected by the test suite one by one", "anchors": ["src/vmecpp/__init__.py: VmecWOut.save"]}
{"id": "C76", "title": "A profile given as a function is used exactly on every surface", "statement": "After set_profile(input, field, f), in every multigrid step the solver uses the value of f on each full-grid and half-grid surface it evaluates the profile on, without any precision loss (up to the rounding of the arithmetic on the values).", "quantifier": "all functions, all multigrid schedules, all surfaces", "why_tests_cant": "all functions and all numbers of surfaces; depends on last-bit agreement of two grid computations in two languages", "anchors": ["src/vmecpp/__init__.py: set_profile", "src/vmecpp/cpp/vmecpp/vmec/radial_partitioning/radial_partitioning.cc: evalLineSegment, evalRadialProfiles"]}
{"id": "C77", "title": "The axis re-guess maximises the smallest Jacobian on its search grid", "statement": "In every toroidal plane, the position chosen after a bad initial Jacobian attains, over the 61 x 61 grid spanning the boundary's R/Z extent (over the 61 points of the line Z = 0 on the symmetry planes), the largest possible value of the smallest signed Jacobian between the boundary and the mid-radius surface; if no grid point gives a positive Jacobian everywhere the middle of the extent is chosen.", "quantifier": "all boundaries, axis guesses, numbers of surfaces and grid sizes", "why_tests_cant": "all boundaries; ties and the special treatment of symmetry planes", "anchors": ["src/vmecpp/cpp/vmecpp/vmec/boundaries/guess_magnetic_axis.cc: RecomputeMagneticAxisToFixJacobianSign"]}
{"id": "C78", "title": "The re-guessed axis coefficients are the least-squares fit of the plane positions", "statement": "The Fourier coefficients of the re-guessed magnetic axis describe the curve that, among all axes with the available toroidal modes, is closest in the least-squares sense to the positions chosen in the toroidal planes; if some axis passes through all the positions, the proposed one does.", "quantifier": "all runs, symmetric and asymmetric, all mode numbers and plane counts", "why_tests_cant": "all inputs; normalisation of the zeroth and Nyquist modes", "anchors": ["src/vmecpp/cpp/vmecpp/vmec/boundaries/guess_magnetic_axis.cc: RecomputeMagneticAxisToFixJacobianSign"]}
{"id": "C79", "title": "The output coefficients describe the computed surfaces", "statement": "The functions R(theta, zeta) and Z(theta, zeta) given by the combined cosine/sine coefficients of the output are, on every surface except the axis, those of the converged internal state, for stellarator-symmetric and non-symmetric runs and however many threads computed it; the exported lambda is the internal one times lamscale/phip. On the axis only the terms with m > 0 and n <> 0 are left out and the m = 0 part of lambda is extrapolated.", "quantifier": "all coefficient values, resolutions, thread counts, angles", "why_tests_cant": "the identity involves conversion between two sign and normalisation conventions for each parity of m, n and undoing the internal m = 1 constraint; tests compare a few cases with tolerance", "anchors": ["src/vmecpp/cpp/vmecpp/vmec/output_quantities/output_quantities.cc:1559-1767", "src/vmecpp/cpp/vmecpp/vmec/output_quantities/output_quantities.cc:4572-4673", "src/vmecpp/cpp/vmecpp/vmec/output_quantities/output_quantities.cc:5186-5277"]}
{"id": "C80", "title": "The Python iteration styles differ only in their reverts", "statement": "For a fixed boundary, running the Python driver with any two of the styles vmec_8_52, parvmec and robust from the same state gives, as long as neither run reverts the geometry, the same sequence of force evaluations, time steps and axis re-guesses, the same verdict and the same final geometry and residuals; the styles then differ only in which geometries they back up.", "quantifier": "all inputs, forward models, initial states and pairs of styles", "why_tests_cant": "tests run one or two equilibria per style; the identity concerns every run without reverts", "anchors": ["src/vmecpp/_iteration.py:4-35", "src/vmecpp/_iteration.py:171-520"]}
{"id": "C81", "title": "The analytic singular integrals of the vacuum solver are the integrals they stand for", "statement": "In exact arithmetic, for every surface point with a regular metric and every Fourier resolution, the quantities T_l and S_l which the free-boundary vacuum solver uses for the singular part of the Green's function equal the integrals over [-1,1] of t^l over the square root of the metric form, and of t^l times the second fundamental form over its 3/2 power, that define them, for every order l up to the resolution and both signs of the cross term.", "quantifier": "all regular metrics, second fundamental forms, resolutions and orders", "why_tests_cant": "tests compare one surface with reference data to a tolerance; the recurrences and the choice of recurrence direction concern every metric and order", "anchors": ["src/vmecpp/cpp/vmecpp/free_boundary/singular_integrals/singular_integrals.cc:176-335", "src/vmecpp/cpp/vmecpp/free_boundary/singular_integrals/singular_integrals.cc:353-373"]}
{"id": "C82", "title": "The expansion coefficients of the singular integrals have their closed form", "statement": "For every resolution and every mode (m, n) the coefficient table of the singular integrals holds, at every order l, the closed-form alternating factorial coefficient (a Zernike radial polynomial coefficient up to sign), zero at all other orders, and the averaged table holds the half sum over the existing neighbour modes.", "quantifier": "all resolutions, modes and orders", "why_tests_cant": "tests compare a few modes with a table; the recurrences for the coefficients run over every mode", "anchors": ["src/vmecpp/cpp/vmecpp/free_boundary/singular_integrals/singular_integrals.cc:82-155"]}
{"id": "C83", "title": "The projected singular integrals are the Fourier sums over the whole boundary grid, for every thread count", "statement": "On every update of the vacuum solver the singular source terms of all threads add up to the Fourier sums over the full boundary grid of coefficient times integral times weighted normal field times sin(m theta - n zeta) (and cos for asymmetric runs), for every mode and every number of threads; every singular kernel entry of a full update is the corresponding sum at its own grid point; a partial update leaves the kernels of the last full update in place.", "quantifier": "all resolutions, symmetry settings, thread counts, modes, grid points, fields and previous array contents", "why_tests_cant": "tests compare one resolution and thread count with reference data; the loop is unrolled by four with a remainder and restarts at every poloidal row, so its bookkeeping depends on resolution and thread ranges", "anchors": ["src/vmecpp/cpp/vmecpp/free_boundary/singular_integrals/singular_integrals.cc:337-600", "src/vmecpp/cpp/vmecpp/common/fourier_basis_fast_toroidal/fourier_basis_fast_toroidal.cc:56-138"]}
{"id": "C84", "title": "The boundary geometry handed to the vacuum solver is that of the Fourier surface", "statement": "After every update of the vacuum solver's surface geometry, at every grid point of every thread, the stored normal vector and metric elements are those of the surface described by the boundary Fourier coefficients in Cartesian space (genuine partial derivatives, angle of one field period); on a full update the second fundamental form, the distance term and the Cartesian positions on the full poloidal range are those of that surface too, including the half obtained by mirroring; and wherever the normal does not vanish the metric is positive definite, which is what the singular integrals need.", "quantifier": "all resolutions, symmetry settings, coefficients, orientations, thread ranges, grid points and previous array contents", "why_tests_cant": "tests check one boundary at one resolution against reference data; the mirrored half, the field-period scaling and the derivative tables must be right for every surface", "anchors": ["src/vmecpp/cpp/vmecpp/free_boundary/surface_geometry/surface_geometry.cc:85-98", "src/vmecpp/cpp/vmecpp/free_boundary/surface_geometry/surface_geometry.cc:100-477"]}
{"id": "C85", "title": "The regularised vacuum kernel is the dipole potential of every image minus its nearest expansion", "statement": "For every boundary with non-vanishing major radius, the kernel stored by the vacuum solver for a field point and a source point is the toroidal weight times the sum, over all images of the source point around the torus except the field point itself, of the potential of a dipole along the surface normal there, minus the second-order expansion of the surface around the source point evaluated at the periodic distance 2 tan(d/2) of the two angles; the stored source term is the same construction with point charges, summed over the source points with the normal field and the integration weight. With toroidal grid points the images are the field periods; without them they are 64 equidistant rotations.", "quantifier": "all resolutions below 2^31 points per angle, symmetry settings, numbers of field periods, boundary coefficients, orientations, thread ranges, normal fields and previous buffer contents", "why_tests_cant": "tests compare one kernel with a stored Fortran reference; the row-wise loop split around the source point, the reused buffers and the rotated normals must be right for every pair of points", "anchors": ["src/vmecpp/cpp/vmecpp/free_boundary/regularized_integrals/regularized_integrals.cc:39-74", "src/vmecpp/cpp/vmecpp/free_boundary/regularized_integrals/regularized_integrals.cc:78-224", "src/vmecpp/cpp/vmecpp/free_boundary/regularized_integrals/regularized_integrals.cc:226-326"]}
{"id": "C86", "title": "The matrix and right-hand side of the vacuum problem are the Galerkin system on the whole boundary", "statement": "In a stellarator-symmetric free-boundary run the entry of the vacuum matrix for a pair of modes is the integral, over the whole boundary grid with the integration weights, of the sine component of the regular plus singular kernel times the source mode, plus one half on the diagonal; the right-hand side is the sine (and without symmetry the cosine) component of the source on the full grid plus the singular source divided by the number of field periods. Rows of the redundant modes m = 0, n < 0 keep only the diagonal and have a zero right-hand side. This holds for every number of threads, every order in which they add their parts and every previous content of the shared arrays.", "quantifier": "all resolutions, field periods, kernels, sources, team sizes, orders of the critical sections, previous contents and mode pairs", "why_tests_cant": "tests compare one matrix computed by one team with a stored reference; half-range symmetrisation, signed toroidal modes and the partition of source points must be right for every kernel", "anchors": ["src/vmecpp/cpp/vmecpp/free_boundary/laplace_solver/laplace_solver.cc:90-249", "src/vmecpp/cpp/vmecpp/free_boundary/laplace_solver/laplace_solver.cc:251-478", "src/vmecpp/cpp/vmecpp/free_boundary/laplace_solver/laplace_solver.cc:480-588", "src/vmecpp/cpp/vmecpp/free_boundary/laplace_solver/laplace_solver.cc:615-665"]}
{"id": "C87", "title": "Without stellarator symmetry the vacuum matrix integrates over the whole boundary too", "statement": "In a non-stellarator-symmetric free-boundary run every entry of the vacuum matrix, for sine and cosine field modes and sine and cosine source modes, is the integral over the whole boundary.", "quantifier": "all kernels and mode pairs", "why_tests_cant": "the stored reference cases are (nearly) symmetric, where the missing half cancels in the sine-sine block", "anchors": ["src/vmecpp/cpp/vmecpp/free_boundary/laplace_solver/laplace_solver.cc:413-478", "src/vmecpp/cpp/vmecpp/free_boundary/laplace_solver/laplace_solver.cc:480-588"]}
{"id": "C88", "title": "The vacuum potential solves the discrete integral equation", "statement": "Whenever the linear solver returns a solution of the assembled system, the redundant harmonics m = 0, n < 0 of the vacuum potential vanish and the others satisfy phi/2 + A phi = b with the Galerkin integrals A and b over the whole boundary, independent of the number of threads and of the order of their contributions to matrix and right-hand side.", "quantifier": "all symmetric resolutions, kernels, sources, teams and solutions of the assembled system", "why_tests_cant": "a test sees one system; a wrongly placed column or a dropped contribution of one thread gives a solvable system with another solution", "anchors": ["src/vmecpp/cpp/vmecpp/free_boundary/laplace_solver/laplace_solver.cc:480-588", "src/vmecpp/cpp/vmecpp/free_boundary/laplace_solver/laplace_solver.cc:615-690"]}
{"id": "C89", "title": "The external field on the boundary is the coil field plus the Biot-Savart field of the closed axis polygon", "statement": "In a free-boundary run the two covariant components and the normal component of the external field given to the vacuum solver at a boundary grid point are those of the coil field at that point plus the Biot-Savart field of the net toroidal current on the closed polygon through the magnetic axis points of all field periods (64 toroidal copies in axisymmetric runs), taken against the tangent vectors and the normal of the boundary, for full and partial updates, for each thread's share of points, and with nothing left over from an earlier call.", "quantifier": "all boundaries, axes, currents, coil fields, resolutions, thread ranges, previous states and grid points off the filament", "why_tests_cant": "tests compare one configuration with a stored reference; the closed formula for a segment, the rotation of the axis into the other periods and the reset between calls must be right for every geometry", "anchors": ["src/vmecpp/cpp/vmecpp/free_boundary/external_magnetic_field/external_magnetic_field.cc:20-329"]}
{"id": "C90", "title": "The vacuum field on the boundary is tangential and its surface average is that of the external field", "statement": "In a free-boundary run the cylindrical field components given back at a grid point form the vector tangent to the boundary whose components along the two tangent directions are those of the external field plus the gradient of the potential found by the linear solver, and the magnetic pressure is half the square of that vector. The net poloidal and toroidal covariant fields are the surface averages of the external field: the potential contributes nothing for any solution vector, number of threads and order of their contributions.", "quantifier": "all regular boundaries, solution vectors, external fields, resolutions, symmetries, thread numbers, orders and previous states", "why_tests_cant": "tests compare one field with a stored reference; an error in a metric factor or a weight that leaves a net current in the potential would be a small shift of the numbers", "anchors": ["src/vmecpp/cpp/vmecpp/free_boundary/nestor/nestor.cc:131-247"]}
{"id": "C91", "title": "The toroidal flux profile in the output ends at phiedge", "statement": "The array phi of the output file is the toroidal flux enclosed by each surface: zero on the axis, phiedge at the boundary, and phiedge times the normalised flux profile in between, for every flux profile aphi.", "quantifier": "all flux profiles, edge fluxes, signs and numbers of surfaces", "why_tests_cant": "all test inputs have the uniform flux profile, for which any quadrature rule is exact; other profiles make the left-point sum differ from phiedge", "anchors": ["src/vmecpp/cpp/vmecpp/vmec/output_quantities/output_quantities.cc:1887-1902", "src/vmecpp/cpp/vmecpp/vmec/output_quantities/output_quantities.cc:4496", "src/vmecpp/cpp/vmecpp/vmec/radial_profiles/radial_profiles.cc:435-484"]}
{"id": "C92", "title": "The poloidal flux profile in the output and its derivative agree", "statement": "The array chipf of the output file is the radial derivative of the array chi (both documented as such), and chi and phi advance from surface to surface in the ratio iota.", "quantifier": "all flux and iota profiles, numbers of surfaces and inner surfaces", "why_tests_cant": "the arrays are compared with reference files that have the same signs; no test relates the two arrays with each other", "anchors": ["src/vmecpp/cpp/vmecpp/vmec/output_quantities/output_quantities.cc:3300-3316", "src/vmecpp/cpp/vmecpp/vmec/output_quantities/output_quantities.cc:4483-4497", "src/vmecpp/cpp/vmecpp/vmec/ideal_mhd_model/ideal_mhd_model.cc:1848-1870", "src/vmecpp/cpp/vmecpp/vmec/vmec/vmec.h:106"]}
{"id": "C93", "title": "The output does not depend on how surfaces are shared between threads", "statement": "When the run ends, the fields and profiles of every flux surface are collected for the output, each from the thread that advances it and at its own place, with no access outside the arrays of a thread. Two runs whose threads hold shares of the same equilibrium produce identical data, bit for bit, for every number of threads.", "quantifier": "all thread counts, numbers of surfaces and resolutions, fixed and free boundary, with and without stellarator symmetry", "why_tests_cant": "output files are compared for one or two thread counts; a wrong offset in the partition shows only for some combinations of threads and surfaces", "anchors": ["src/vmecpp/cpp/vmecpp/vmec/output_quantities/output_quantities.cc:1559-1828", "src/vmecpp/cpp/vmecpp/vmec/radial_partitioning/radial_partitioning.cc:20-140"]}
{"id": "C94", "title": "The toroidal covariant field in the output carries the poloidal current of the force balance", "statement": "On every half-grid surface the surface average of the covariant toroidal field written to the output equals the poloidal current function used in the force balance. Its variation over the surface is that of the converged solution at the outermost surface, and further inward the mean of two neighbouring half-grid surfaces varies as the full-grid field between them. No other field has these properties.", "quantifier": "all resolutions, numbers of surfaces and fields", "why_tests_cant": "the field is compared with reference files of a few runs; the averages there agree to truncation error even without the correction", "anchors": ["src/vmecpp/cpp/vmecpp/vmec/output_quantities/output_quantities.cc:1830-1885", "src/vmecpp/cpp/vmecpp/vmec/output_quantities/output_quantities.cc:1386-1395"]}
{"id": "C95", "title": "The filtered covariant field in the output is the projection on the resolved modes", "statement": "Before the current density is computed, the angular components of the covariant field are low-pass filtered. At every point of every surface the filtered field is the orthogonal projection of the unfiltered one on the modes m < mpol, |n| <= ntor of the run. A resolved field passes unchanged, and the average of any field over a surface is kept.", "quantifier": "all resolutions, field periods, surfaces and fields, with and without stellarator symmetry", "why_tests_cant": "filtered fields are compared with reference output for a few runs; a dropped or wrongly normalised mode is hidden by the small size of high harmonics", "anchors": ["src/vmecpp/cpp/vmecpp/vmec/output_quantities/output_quantities.cc:2040-2479"]}
{"id": "C96", "title": "The angular derivatives in the current density are those of the resolved field", "statement": "For a field resolved by the run, the poloidal and toroidal derivatives from which the current density of the output is formed are the exact derivatives of that field at the grid points.", "quantifier": "all resolutions, field periods, surfaces and resolved fields, with and without stellarator symmetry", "why_tests_cant": "the current density of asymmetric three-dimensional runs has no reference data; the derivatives are correct for every symmetric run the tests cover", "anchors": ["src/vmecpp/cpp/vmecpp/vmec/output_quantities/output_quantities.cc:2064-2088", "src/vmecpp/cpp/vmecpp/vmec/output_quantities/output_quantities.cc:2336-2389", "src/vmecpp/cpp/vmecpp/vmec/output_quantities/output_quantities.cc:2443-2478", "src/vmecpp/cpp/vmecpp/vmec/output_quantities/output_quantities.cc:2755-2775"]}
{"id": "C97", "title": "The averaged current density of the output obeys Ampere's law", "statement": "On every interior surface the average of the toroidal current density in the jxbout output is the radial derivative of the averaged poloidal covariant field over mu_0, and that of the poloidal current density is minus the radial derivative of the averaged toroidal covariant field over mu_0. Summed over the surfaces they give the net current between the innermost and the outermost half-grid surface, and the poloidal average is the derivative of the poloidal current function of the force balance.", "quantifier": "all resolutions, fields, surfaces, with and without stellarator symmetry, also where single values of the angular derivatives are wrong (C96)", "why_tests_cant": "an error in the angular derivative or in the sign of one component shows only in quantities for which a run has no closed-form reference", "anchors": ["src/vmecpp/cpp/vmecpp/vmec/output_quantities/output_quantities.cc:2501-2840"]}
{"id": "C98", "title": "The surface averages in jxbout are consistent with each other", "statement": "On every interior surface where the Jacobian has the assumed sign and |B|^2 is positive: <J.B>^2 <= <B^2> <J_par^2>, <B^2> is positive and lies between the smallest and largest |B|^2 on the two neighbouring half-grid surfaces, and <J_par^2> and <J_perp^2> are not negative.", "quantifier": "all resolutions, fields, pressure profiles and interior surfaces", "why_tests_cant": "inequalities between averages can only be sampled by tests", "anchors": ["src/vmecpp/cpp/vmecpp/vmec/output_quantities/output_quantities.cc:2570-2737"]}
{"id": "C99", "title": "jperp2 is the average of the squared perpendicular current density", "statement": "The jperp2 column of jxbout is the flux surface average of |J_perp|^2, where J_perp is the current density perpendicular to B which balances the pressure gradient.", "quantifier": "all resolutions, fields, metrics, pressure profiles and interior surfaces", "why_tests_cant": "tests compare the column with the reference code, which can contain the same mistake", "anchors": ["src/vmecpp/cpp/vmecpp/vmec/output_quantities/output_quantities.cc:2604-2648", "src/vmecpp/cpp/vmecpp/vmec/output_quantities/output_quantities.cc:2715-2737"]}
{"id": "C100", "title": "Every row of the jxbout output is filled", "statement": "The profiles and the toroidal current density at the axis and at the boundary continue the interior values linearly, so that a profile that does not vary stays constant; the half-grid components are present on every half-grid surface.", "quantifier": "all numbers of surfaces >= 3, all fields", "why_tests_cant": "tests use dozens of surfaces and compare interior rows", "anchors": ["src/vmecpp/cpp/vmecpp/vmec/output_quantities/output_quantities.cc:2739-2840"]}
{"id": "C101", "title": "Composition and signs of the Mercier criterion", "statement": "On every interior surface DMerc is the sum of the shear, current, well and geodesic terms; the shear term is a quarter of the square of d(iota)/d(flux) and not negative; the geodesic term is never positive, so that DMerc never exceeds the sum of the other three.", "quantifier": "all resolutions, states with a Jacobian of one sign and |B|^2 > 0, interior surfaces", "why_tests_cant": "signs of surface integrals for arbitrary states cannot be enumerated", "anchors": ["src/vmecpp/cpp/vmecpp/vmec/output_quantities/output_quantities.cc:2842-3210"]}
{"id": "C102", "title": "Stability and averaged currents do not depend on the direction of the field", "statement": "Reversing the magnetic field everywhere (fields, fluxes and their derivatives) leaves <J.B>, <B^2>, <J_par^2>, <J_perp^2>, the average force residual, the pressure gradient and all terms of the Mercier criterion unchanged on every surface including the extrapolated ones, and changes the sign of <B.grad v>.", "quantifier": "all resolutions, states and surfaces", "why_tests_cant": "a relation between two runs of arbitrary states", "anchors": ["src/vmecpp/cpp/vmecpp/vmec/output_quantities/output_quantities.cc:2501-3210"]}
{"id": "C103", "title": "The Mercier integrals are weighted with the inverse squared flux gradient", "statement": "At every point of an interior surface the weight of the Mercier surface integrals is 1/|grad Phi|^2 of the geometry on the full grid, whenever the averaged Jacobian is that of the geometry.", "quantifier": "all geometries, surfaces and grid points", "why_tests_cant": "the weight is an intermediate value checked only through the criterion", "anchors": ["src/vmecpp/cpp/vmecpp/vmec/output_quantities/output_quantities.cc:2929-3036"]}
{"id": "C104", "title": "The toroidal flux column of the Mercier table is the flux through the surface", "statement": "The toroidal flux listed for a surface in the Mercier table is the toroidal flux through that surface.", "quantifier": "all flux profiles and interior surfaces", "why_tests_cant": "tests compare with the reference code for a uniform flux profile", "anchors": ["src/vmecpp/cpp/vmecpp/vmec/output_quantities/output_quantities.cc:3127-3180"]}
{"id": "C105", "title": "The output spectra reproduce the fields at the grid points", "statement": "Evaluating the Fourier series in the output file with the stored mode numbers at any grid point gives back the Jacobian, |B|, the angular field components (cosine, and in asymmetric runs sine series) and the radial component (sine, and in asymmetric runs cosine series) on the half grid and on the full grid.", "quantifier": "all resolutions, fields of the assumed symmetry, surfaces and grid points, with and without stellarator symmetry", "why_tests_cant": "tests compare spectra with the reference code for a few resolutions; exactness of a discrete transform for every grid size is a theorem about trigonometric sums", "anchors": ["src/vmecpp/cpp/vmecpp/vmec/output_quantities/output_quantities.cc:4541-4572", "src/vmecpp/cpp/vmecpp/vmec/output_quantities/output_quantities.cc:4697-5182"]}
{"id": "C106", "title": "The constant coefficient of an output spectrum is the surface average", "statement": "The (m, n) = (0, 0) coefficient of a cosine spectrum in the output file is the average of the quantity over the grid points of the surface, in every run and for every number of toroidal points.", "quantifier": "all resolutions, fields and surfaces", "why_tests_cant": "relates independently computed profiles and spectra for all resolutions", "anchors": ["src/vmecpp/cpp/vmecpp/vmec/output_quantities/output_quantities.cc:4541-4572", "src/vmecpp/cpp/vmecpp/vmec/output_quantities/output_quantities.cc:4697-5182"]}
{"id": "C107", "title": "The radial field component on the full grid continues the half grid linearly", "statement": "If the radial covariant field component is linear in s on the half grid then its full-grid values lie on the same line on every surface including the axis and the boundary; the full-grid spectrum of an interior surface is the average of the spectra of the neighbouring half-grid surfaces.", "quantifier": "all numbers of surfaces >= 3, all fields, resolutions, modes", "why_tests_cant": "tests use dozens of surfaces and compare interior values", "anchors": ["src/vmecpp/cpp/vmecpp/vmec/output_quantities/output_quantities.cc:2018-2038", "src/vmecpp/cpp/vmecpp/vmec/output_quantities/output_quantities.cc:2481-2499", "src/vmecpp/cpp/vmecpp/vmec/output_quantities/output_quantities.cc:4697-5182"]}
{"id": "C108", "title": "Cylindrical field and radial component of the output are consistent with the geometry", "statement": "On every half-grid surface the radial derivatives used for the output are the exact derivatives of the geometry interpolated between the two neighbouring surfaces (odd harmonics with the square root of s); the radial covariant component is the scalar product of the cylindrical field (B_R, B_phi, B_Z) with the radial tangent vector, the cylindrical field is tangential to the surface, and its contravariant components are those of the solver.", "quantifier": "all geometries, fields, surfaces and grid points", "why_tests_cant": "identities between several output arrays for arbitrary geometries", "anchors": ["src/vmecpp/cpp/vmecpp/vmec/output_quantities/output_quantities.cc:1904-2016"]}
{"id": "C109", "title": "The geometry in the output file is the geometry the solver computed with", "statement": "On every surface other than the axis the functions R and Z described by the coefficients rmnc, zmns (and rmns, zmnc in asymmetric runs) of the output file take at every grid point the values the solver uses there, and so do their derivatives in both angles; on the axis the same holds of the values if the state has no m > 0 coefficients there; the number of coefficients per surface is mnmax.", "quantifier": "all resolutions, thread partitions, coefficient states, surfaces and grid points, both symmetries", "why_tests_cant": "the output stage converts the coefficients to another basis with different normalisation, radial scaling and m = 1 constraint; tests compare single equilibria only", "anchors": ["src/vmecpp/cpp/vmecpp/vmec/output_quantities/output_quantities.cc:4574-4672", "src/vmecpp/cpp/vmecpp/vmec/output_quantities/output_quantities.cc:5183-5276"]}
{"id": "C110", "title": "The stream function in the output file is the one the solver computed with", "statement": "On every surface other than the axis the angular derivatives of lambda in the output file (full grid), times the flux derivative, are the solver's derivatives times its scale factor; on the axis the m = 0 coefficients are extrapolated linearly; on the half grid the coefficients are those of the interpolated profile.", "quantifier": "all resolutions, states, surfaces, grid points; profiles linear in s (times sqrt s for odd m)", "why_tests_cant": "tests compare single equilibria only and mostly stellarator-symmetric ones", "anchors": ["src/vmecpp/cpp/vmecpp/vmec/output_quantities/output_quantities.cc:4574-4701", "src/vmecpp/cpp/vmecpp/vmec/output_quantities/output_quantities.cc:5183-5304"]}
{"id": "C111", "title": "The current coefficients in the output file satisfy Ampere's law", "statement": "If the covariant field components are quadratic (linear for the radial one) in s, with the square root of s for odd m, then the contravariant current coefficients on every interior surface are the curl of the field over mu0 at all angles; the enclosed toroidal current between any two half surfaces is the difference of the poloidal field averages over mu0 for arbitrary fields; the values on the axis and the boundary continue the interior linearly.", "quantifier": "all numbers of surfaces >= 3, modes, fields, angles", "why_tests_cant": "exactness of finite differences and telescoping sums for every grid and profile", "anchors": ["src/vmecpp/cpp/vmecpp/vmec/output_quantities/output_quantities.cc:5313-5452"]}
{"id": "C112", "title": "The Python input object and the solver's input carry the same data", "statement": "Every input which the Python constructor accepts has arrays of the shapes its resolution requires, keeps all other settings, is accepted again unchanged, and reaches the solver with every field unchanged; an input read by the solver's own reader reaches Python unchanged; the default inputs of both sides are the same; converting back and forth is the identity.", "quantifier": "all inputs, resolutions (also schedules), array contents in any arithmetic", "why_tests_cant": "44 fields with shape rules depending on resolution and symmetry; tests convert a few files", "anchors": ["src/vmecpp/__init__.py:75-106", "src/vmecpp/__init__.py:179-565", "src/vmecpp/__init__.py:667-762", "src/vmecpp/cpp/vmecpp/common/vmec_indata/vmec_indata.cc:108-187"]}
{"id": "C113", "title": "The reported plasma area, volume and radii are those of the computed boundary", "statement": "The average cross-section area of the output is exactly the area enclosed by the boundary described by the Fourier coefficients, averaged over the toroidal angle; the volume is exactly the enclosed volume; the circular torus with the reported major and minor radius has the same area and volume, and the aspect ratio is their quotient. For a circular torus circumference, surface area and elongation are exact too.", "quantifier": "all boundaries, resolutions, symmetric and asymmetric runs, thread counts (exact arithmetic)", "why_tests_cant": "tests compare with reference files of another program that uses the same quadrature; whether quadrature on the grid is exact is a statement about all boundaries", "anchors": ["src/vmecpp/cpp/vmecpp/vmec/output_quantities/output_quantities.cc:3538-3582", "src/vmecpp/cpp/vmecpp/vmec/output_quantities/output_quantities.cc:3777-3836"]}
{"id": "C114", "title": "The energies and betas of the output are the integrals they are named after", "statement": "The pressure, magnetic, toroidal and poloidal field energies, their volume averages, the three betas, the per-surface beta and <1/R> profiles and the toroidal flux of the output are the volume integrals and flux-surface averages of pressure, field components and Jacobian; 1/betatot = 1/betapol + 1/betator; <1/R> lies between the extreme values of 1/R on the surface.", "quantifier": "all fields with the stored total pressure p + B^2/2 and dV/ds the integral of the Jacobian, all grids (exact arithmetic)", "why_tests_cant": "reference values are for a handful of equilibria; the identities hold for every field", "anchors": ["src/vmecpp/cpp/vmecpp/vmec/output_quantities/output_quantities.cc:3201-3264", "src/vmecpp/cpp/vmecpp/vmec/output_quantities/output_quantities.cc:3597-3601", "src/vmecpp/cpp/vmecpp/vmec/output_quantities/output_quantities.cc:3689-3775", "src/vmecpp/cpp/vmecpp/vmec/output_quantities/output_quantities.cc:3933-3936", "src/vmecpp/cpp/vmecpp/vmec/output_quantities/output_quantities.cc:4073-4110"]}
{"id": "C115", "title": "The reported extents of the plasma bound it", "statement": "The largest and smallest R, the largest Z, the waist and the height in the two symmetry planes, and the extreme field strengths of the output are attained on the boundary (surface) and bound its values on the whole angular grid.", "quantifier": "all boundaries and fields, symmetric and asymmetric, all grids", "why_tests_cant": "tests use symmetric plasmas centred on z = 0, where the mistakes do not show", "anchors": ["src/vmecpp/cpp/vmecpp/vmec/output_quantities/output_quantities.cc:3852-3931"]}
{"id": "C116", "title": "The radial profile table is consistent with the profiles it is derived from", "statement": "On interior surfaces the reported radial force is the averaged force balance chi' J_v + phi' J_u-term + p' V' divided by the sum of the magnitudes of its three terms, so it lies in [-1,1] and vanishes exactly in force balance; the values on the axis and at the edge continue it linearly; profiles linear in the flux label are reproduced exactly on the full grid, including both ends; the toroidal and poloidal flux columns are the running integrals; the averaged current densities are the derivatives of the enclosed currents and add up to the total enclosed current; dV/dPhi and dp/dPhi are the derivatives with respect to the reported flux.", "quantifier": "all profiles and fields, all numbers of surfaces accepted (exact arithmetic)", "why_tests_cant": "reference tables exist for a few equilibria with many surfaces; the smallest accepted number of surfaces and all other profiles are not covered", "anchors": ["src/vmecpp/cpp/vmecpp/vmec/output_quantities/output_quantities.cc:3267-3443", "src/vmecpp/cpp/vmecpp/vmec/output_quantities/output_quantities.cc:3445-3536"]}
{"id": "C117", "title": "The reported cross-section shape numbers describe the computed flux surfaces", "statement": "For every flux surface and each of the two reported toroidal planes, the elongation is height over width of the complete cross-section, the indentation lies in [0,1], the triangularity uses the major radius of the highest point, and the shift is the axis position relative to the geometric centre, all over the width; the second plane is the symmetry plane at half a field period.", "quantifier": "all surfaces, numbers of toroidal planes and poloidal points, symmetric and asymmetric runs (exact arithmetic, extremes over the grid points)", "why_tests_cant": "the scan takes an absolute value and updates minimum and maximum in one if-else chain; whether this finds the extremes depends on the order of the values, i.e. on the shape", "anchors": ["src/vmecpp/cpp/vmecpp/vmec/output_quantities/output_quantities.cc:3978-4066"]}
{"id": "C118", "title": "Parallel-current measures of the output are ordered and the poloidal flux is an integral", "statement": "The Pfirsch-Schlueter part of the squared parallel current is never negative and never exceeds the whole, it vanishes exactly when the parallel current is proportional to |B|; the same order holds for the volume-averaged and local ratios to the perpendicular current; the poloidal flux column is the running integral of iota times the toroidal flux derivative and agrees, up to the sign of the Jacobian, with the radial table.", "quantifier": "all fields with Jacobian of one sign, positive |B|^2 and positive semidefinite metric, all numbers of surfaces (exact arithmetic)", "why_tests_cant": "the inequality holds because two independently computed averages satisfy Cauchy-Schwarz for every field; tests see individual numbers", "anchors": ["src/vmecpp/cpp/vmecpp/vmec/output_quantities/output_quantities.cc:3717-3752", "src/vmecpp/cpp/vmecpp/vmec/output_quantities/output_quantities.cc:3935-3976"]}
{"id": "C119", "title": "The radial profiles of the output file satisfy the relations between them", "statement": "Within one wout file: q is the reciprocal of iota; half-grid profiles are stored with index shifted by one and a zero in front; jcurv and jcuru are the difference quotients of buco and bvco; presf is the mean of the adjacent pres values; the radial force column can be recomputed from chipf, phipf, jcuru, jcurv, pres and vp; the poloidal flux chi increases by iota times the toroidal flux increment.", "quantifier": "all profiles and numbers of surfaces (exact arithmetic)", "why_tests_cant": "tests compare each array with reference data separately; relations between arrays are not checked, and the sign convention makes one of them fail", "anchors": ["src/vmecpp/cpp/vmecpp/vmec/output_quantities/output_quantities.cc:4472-4535"]}
{"id": "C120", "title": "The reported energy trace is the relative change of the energy", "statement": "Entry i of wdot is (W_i - W_(i-1)) / W_i with W the MHD energy after step i, so a run whose energy does not change reports zeros.", "quantifier": "all energy histories with at least three entries, every way of evaluating the vector assignment piece by piece", "why_tests_cant": "the result depends on how the vector library evaluates an assignment whose source and target overlap; no test reads wdot", "anchors": ["src/vmecpp/cpp/vmecpp/vmec/output_quantities/output_quantities.cc:4463-4470"]}
{"id": "C121", "title": "The initial guess fills the plasma between the given axis and the given boundary", "statement": "Before the first step the solver's R and Z at every grid point of every surface are those of the surface with minor radius sqrt(s): the theta-independent part is interpolated linearly in s between axis and boundary, mode m of the boundary is multiplied by sqrt(s)^m. On the last surface this is the surface of the input file (at the shifted, possibly reversed angle), on surface 0 the axis of the input file. lambda is left as it was.", "quantifier": "all boundaries, axes, resolutions, thread counts, surfaces, grid points and old array contents (exact arithmetic)", "why_tests_cant": "the code spreads this over four functions with different scalings (basis norm, m=1 rotation, 1/sqrt(s) for odd m, transforms); tests compare single coefficients with a reference", "anchors": ["src/vmecpp/cpp/vmecpp/vmec/fourier_geometry/fourier_geometry.cc:98-168", "src/vmecpp/cpp/vmecpp/vmec/ideal_mhd_model/ideal_mhd_model.cc:576-585"]}
{"id": "C122", "title": "The magnetic axis in the output can be given back as the axis of an input", "statement": "raxis_cc, zaxis_cs (and raxis_cs, zaxis_cc without stellarator symmetry) are the m = 0 coefficients of surface 0 in rmnc, zmns (rmns, zmnc); read with the convention of the input file they describe the curve on which the solver's surface 0 lies; taken before the first step they are the axis coefficients of the input.", "quantifier": "all states, resolutions and grid points (exact arithmetic)", "why_tests_cant": "sign and normalisation conventions of input and output have to agree for every mode number; tests compare the arrays with a reference run only", "anchors": ["src/vmecpp/cpp/vmecpp/vmec/output_quantities/output_quantities.cc:4119-4160"]}
{"id": "C123", "title": "|B| in the output is the length of the field", "statement": "At every half-grid point, the value whose Fourier coefficients are written as |B| is non-negative and its square is g_uu (B^u)^2 + 2 g_uv B^u B^v + g_vv (B^v)^2 with the metric and the field of the solver, whatever the pressure there.", "quantifier": "all fields, pressures, partitions and grid points with a positive semidefinite metric (exact arithmetic)", "why_tests_cant": "|B| is recovered from the total pressure by subtracting the kinetic pressure of another array; a test with one pressure profile does not show that the two always cancel", "anchors": ["src/vmecpp/cpp/vmecpp/vmec/output_quantities/output_quantities.cc:4700-4715", "src/vmecpp/cpp/vmecpp/vmec/ideal_mhd_model/ideal_mhd_model.cc:1895-1957"]}
{"id": "C124", "title": "The FFT build computes the same transforms as the plain build", "statement": "For every accepted input, every partition of the surfaces over threads and whatever the scratch buffers held before, the real-space geometry and the Fourier coefficients of the forces computed through the batched toroidal FFT routines are those of the plain sums, provided the routines compute the documented transforms; runs for which no routine exists take the plain path.", "quantifier": "all inputs with lasym or not, all Fourier coefficients and forces, all numbers of threads, all earlier buffer contents, all shapes with or without a routine (exact arithmetic)", "why_tests_cant": "the unit test compares the two paths on random data for four shapes, without lasym, with one thread and fresh buffers, up to 1e-10", "anchors": ["src/vmecpp/cpp/vmecpp/vmec/ideal_mhd_model/fft_toroidal.cc: FourierToReal3DSymmFastPoloidalFft, ForcesToFourier3DSymmFastPoloidalFft", "src/vmecpp/cpp/vmecpp/vmec/ideal_mhd_model/ideal_mhd_model.cc: dft_FourierToReal_3d_symm, dft_ForcesToFourier_3d_symm"]}
{"id": "C125", "title": "The vendored FFT routines compute the Fourier transforms that the toroidal transforms ask for", "statement": "For every transform length and batch size, each routine that the FFT library returns for a request (both directions) is the one for that length and batch: after its init function has run, every call, whatever the output buffer, the scratch array and earlier calls left behind, terminates without an access outside an array or a read of an uninitialised value, writes exactly the requested number of transforms, and every number written differs from the exact discrete Fourier transform (unscaled complex-to-real; real-to-complex with the factor sqrt 2 for n >= 1) by at most 5e-16 times the sum of the absolute values of the transform's input. The library has routines for both directions exactly for nZeta in {16, 20, ..., 40} with even mpol from 6 to 18.", "quantifier": "all inputs, all buffer contents, all states of the static arrays left by the init function, all transforms of a batch, all requests", "why_tests_cant": "The unit tests compare a few random inputs with a tolerance of 1e-10 or so; they cannot show that each of the 98 generated routines is right for every input, nor that none of them ever reads stale scratch memory.", "anchors": ["src/vmecpp/cpp/third_party/fftx_codelets/lib_fftx_prdftbat_cpu_srcs/*.cpp", "src/vmecpp/cpp/third_party/fftx_codelets/lib_fftx_iprdftbat_cpu_srcs/*.cpp", "src/vmecpp/cpp/third_party/fftx_codelets/include/omega64.h", "src/vmecpp/cpp/vmecpp/vmec/ideal_mhd_model/fft_toroidal.cc:28-48"]}
{"id": "C126", "title": "Saving a wout object and loading it returns the same data", "statement": "VmecWOut.save followed by VmecWOut.from_wout_file returns every field unchanged (2-D arrays in the same orientation, absent asymmetric arrays as None, no further fields), provided arrays with a common dimension have equal lengths, integers fit in 32 bit and texts are ASCII, within their maximum length and without white space at the ends. A save that raises leaves all existing files as they were and a successful one changes the named file only. For every run, the profile coefficients would have to come back too; this is false: with more than 21 pressure coefficients the loaded current and iota coefficient arrays end in NetCDF fill values (9.97e36), and with more than 21 current coefficients but fewer pressure coefficients the result cannot be saved.", "quantifier": "every set of fields, values, array shapes and lengths; every pair of profile lengths; every failure point of the save", "why_tests_cant": "the tests save and load a handful of stored equilibria whose profile arrays all have at most 21 coefficients; lengths, texts, None patterns and failures are unbounded", "anchors": ["src/vmecpp/__init__.py:1401-1608", "src/vmecpp/__init__.py:1678-1741", "src/vmecpp/cpp/vmecpp/vmec/output_quantities/output_quantities.cc:4348-4385"]}
{"id": "C127", "title": "The FFT build stays within rounding-size distance of the plain build", "statement": "In exact arithmetic, with the FFT routines shipped in the repository (whose constants are truncated decimals), every real-space geometry value (R, Z, their poloidal and toroidal derivatives, the derivatives of lambda, and the two constraint arrays) and every Fourier coefficient of the forces differs from what the build without FFT computes by at most 5e-16 times the natural size of the quantity: the sum of the absolute values of the coefficients on the surface weighted with m or n*nfp for derivatives, respectively the average over the angular grid of the absolute values of the force terms. The same holds with error e for any routine that is accurate to e per signal.", "quantifier": "every resolution with toroidal modes, every radial partition, surface, grid point, mode, coefficient and force array, all previous contents of the thread's buffers and of the routines' scratch arrays, every relative error e >= 0 (5e-16 for the 14 vendored routines)", "why_tests_cant": "A test compares the two builds on a few equilibria with a tolerance chosen by hand; it cannot show that the deviation is bounded by the size of the data for all inputs, nor that no mode, surface or slot is treated differently.", "anchors": ["src/vmecpp/cpp/vmecpp/vmec/ideal_mhd_model/fft_toroidal.cc:162-669", "src/vmecpp/cpp/vmecpp/vmec/ideal_mhd_model/dft_toroidal.cc:14-658", "src/vmecpp/cpp/vmecpp/vmec/ideal_mhd_model/ideal_mhd_model.cc:1193-1203"]}
{"id": "C128", "title": "Objects with NumPy fields survive a trip through JSON", "statement": "Writing an input or output object to JSON and reading it back gives the same field values, NaN and infinities included, for fields that are float, integer or boolean arrays of a declared number of dimensions, floats, other scalars, and Optional, list or dict of these. The text is strict JSON. No value is ever changed silently: either the same value comes back or reading raises.", "quantifier": "every field type built from these, every value of that type: all shapes, all entries, all nestings; the round trip needs arrays with at least one dimension, no zero dimension except the last, and float entries if empty", "why_tests_cant": "The shapes, nestings and positions of NaN and infinity are unbounded, and the dtype and shape are not in the JSON text but guessed from nested lists: tests on sample objects never meet the empty and the 0-d arrays.", "anchors": ["src/vmecpp/_pydantic_numpy.py:18-56", "src/vmecpp/_pydantic_numpy.py:115-425"]}
{"id": "C129", "title": "The SIMSOPT wrapper always reports results for the current parameters", "statement": "After any sequence of changes of the degrees of freedom, of the boundary surface or its coefficients, of the resolution, and of runs, failed runs, reads and written input files, a result read from the object is the one the solver gives for the input file with the current degrees of freedom, resolution and boundary modes (missing modes zero, axis guess zero); nothing of earlier runs enters. The written input file is the same input. Reading again does not call the solver. A hot restart runs only the last multi-grid step and leaves the object's own sequence alone. An object made from a result file returns that file's data and raises once something was changed.", "quantifier": "every input file content, every sequence of operations, every surface resolution, every solver behaviour including failures", "why_tests_cant": "The number of histories is unbounded; tests follow a handful of call sequences and cannot show that no sequence leaves a stale result or a trace of a previous run.", "anchors": ["src/vmecpp/simsopt_compat.py:86-277", "src/vmecpp/simsopt_compat.py:360-368", "src/vmecpp/simsopt_compat.py:426-578"]}
{"id": "C130", "title": "Output files of the SIMSOPT wrapper are named after the input file", "statement": "With keep_all_files, the inputs input.foo, foo.json and input.foo.json store their result in wout_foo.nc, input.json in wout_input.nc, different inputs in different files, and every file name accepted as input has an output name.", "quantifier": "every file name", "why_tests_cant": "File names are unbounded strings; the tests never store an output through the wrapper.", "anchors": ["src/vmecpp/simsopt_compat.py:127", "src/vmecpp/simsopt_compat.py:267-271", "src/vmecpp/simsopt_compat.py:581-600"]}
{"id": "C131", "title": "Scalar results of the SIMSOPT wrapper use the right radial positions", "statement": "The full radial grid runs from 0 to 1 and the half grid lies in the middle. For profiles linear in the flux, the mean rotational transform is the integral, the vacuum well is (V'(0) - V'(1)) / V'(0), and the external current is 2 pi/mu0 times the edge value: the half-grid data are averaged and extrapolated to the axis and the edge without an offset.", "quantifier": "every number of surfaces (at least 2, or 3 for extrapolations), every linear profile", "why_tests_cant": "Tests compare with another code that uses the same formulas for one equilibrium; they cannot show exactness for all resolutions.", "anchors": ["src/vmecpp/simsopt_compat.py:287-326", "src/vmecpp/simsopt_compat.py:370-424"]}
{"id": "C132", "title": "The Shafranov integrals of the output are dimensionless and consistent", "statement": "With all lengths and all magnetic fields of a plasma multiplied by constants, the reported Shafranov integrals, internal inductance, beta_i, mu_i, scaling ratio and beta-star stay the same and the reported radii scale like lengths. The three versions of S1 belong to the same surface integrals taken about the three reported major radii, beta_i is beta_pol times the internal inductance, and for a free boundary every grid point uses the vacuum field at that point. For a uniform poloidal field and pressure at the edge the internal inductance, beta_i, S2 and S1+S2-S3 have their textbook values.", "quantifier": "every resolution, every geometry and field on the grid, fixed and free boundary, every positive length factor and nonzero field factor", "why_tests_cant": "A test compares the numbers with a reference code for a few equilibria and cannot see a wrong power of a length or a field, or an exchange of grid points in a nearly symmetric case.", "anchors": ["src/vmecpp/cpp/vmecpp/vmec/output_quantities/output_quantities.cc:3602-3687", "src/vmecpp/cpp/vmecpp/vmec/output_quantities/output_quantities.cc:4175-4310"]}
{"id": "C133", "title": "The external field used by a run is the one its Python object shows", "statement": "The field response table that a free-boundary run hands to the solver has the grid parameters and the three field components that the Python object shows at that moment, whether its arrays are views of memory of the solver or belong to Python, and handing it over changes nothing a Python program can see. A table built from arrays of the caller is a copy that later writes do not reach. Grid parameters are passed to C++ without exchange and are refused if an integer does not fit.", "quantifier": "every Python program of computing, wrapping, building, writing, replacing, sharing, assigning parameters and converting, in any order and number", "why_tests_cant": "Tests convert one freshly made object each way; they do not follow a sequence of assignments, sharing and writes, and the positional hand-over of ten parameters of three types hides exchanges of equal types.", "anchors": ["src/vmecpp/_free_boundary.py:15-140", "src/vmecpp/cpp/vmecpp/vmec/pybind11/pybind_vmec.cc:1165-1226", "src/vmecpp/cpp/vmecpp/common/makegrid_lib/makegrid_lib.h:23-78"]}
{"id": "C134", "title": "Output quantities saved to a file and loaded again are the same", "statement": "OutputQuantities.save followed by OutputQuantities.load returns the same values for every member of every part of the output (internal results, tables, jxbout, Mercier, threed1, wout), with matrices in the same orientation.", "quantifier": "every value of every member, every resolution, fixed and free boundary, with and without stellarator symmetry", "why_tests_cant": "A test saves and loads one equilibrium; the loader guesses the layout of a matrix from its shape, so the outcome depends on the combination of mode and surface numbers, and members that are not written look right as long as they are not compared.", "anchors": ["src/vmecpp/cpp/vmecpp/vmec/output_quantities/output_quantities.cc:39-1363", "src/vmecpp/cpp/util/hdf5_io/hdf5_io.cc:11-75", "src/vmecpp/cpp/vmecpp/vmec/output_quantities/output_quantities.h"]}
{"id": "C135", "title": "The input saved with the results and loaded again is the same input", "statement": "Saving an input (VmecINDATA) to an HDF5 file, as OutputQuantities.save does, and loading it again gives the same input: every parameter, both enumerators, the axis and the boundary coefficients, for symmetric and asymmetric inputs; files of earlier versions load with the documented fall-back values, and boundary coefficients of the wrong shape are refused.", "quantifier": "every input, symmetric or not, every value the object had before loading, debug and release builds", "why_tests_cant": "The test saves and loads one symmetric input and does not compare every member; the asymmetric branch of writer and reader is not run by it, and a file of an earlier version is not tried.", "anchors": ["src/vmecpp/cpp/vmecpp/common/vmec_indata/vmec_indata.cc:51-107", "src/vmecpp/cpp/vmecpp/common/vmec_indata/vmec_indata.cc:258-486", "src/vmecpp/cpp/util/hdf5_io/hdf5_io.cc:11-75", "src/vmecpp/cpp/vmecpp/common/vmec_indata/vmec_indata.h:239-262"]}
{"id": "C136", "title": "The command line program keeps the result and its input file and names files after the case", "statement": "Running the command line program on input.foo or foo.json stores a converged result in wout_foo.nc in the working directory; no result is lost after the solver has returned; the input file is never overwritten; 'convert' turns input.foo into foo.json next to it, never overwrites its source, and running the converted file gives a result of the same name.", "quantifier": "every file name, Fortran and JSON content", "why_tests_cant": "File names are unbounded strings and the tests run the program on a few well-formed ones; the name is only parsed after the solver has returned.", "anchors": ["src/vmecpp/__main__.py:72-105", "src/vmecpp/_util.py:58-73", "src/vmecpp/__init__.py:658-674", "src/vmecpp/__init__.py:2484-2530"]}
{"id": "C137", "title": "The status code of the output tells whether and why a run failed", "statement": "wout.ier_flag and wout.reason, which the documentation of return_outputs_even_if_not_converged tells the user to check, distinguish a converged run from one that did not converge, name the way the run failed, and agree with the converged entry of the log.", "quantifier": "every schedule, forward model and state of the solver object; outputs requested for unconverged runs or not", "why_tests_cant": "The tests check the flag of converged runs only; telling runs apart needs all ways in which a stage can end.", "anchors": ["src/vmecpp/cpp/vmecpp/vmec/output_quantities/output_quantities.cc:4414-4420", "src/vmecpp/cpp/vmecpp/common/util/util.h:148-159", "src/vmecpp/cpp/vmecpp/vmec/vmec/vmec.cc:260-457", "src/vmecpp/__init__.py:432-443", "src/vmecpp/__init__.py:837-855"]}
{"id": "C138", "title": "Fortran and JSON inputs are told apart by their content", "statement": "A file given to VmecInput.from_file, vmecpp.run or the command line program is read as a Fortran INDATA file if it is one, with any comments and blank lines before the namelist and whatever follows its opening, and as JSON if it is JSON; no JSON input is ever taken for Fortran.", "quantifier": "every text", "why_tests_cant": "The tests read a few files that all open with &INDATA alone on a line; the space of texts is unbounded.", "anchors": ["src/vmecpp/__init__.py:2484-2494", "src/vmecpp/__init__.py:2498-2530", "src/vmecpp/__init__.py:658-674"]}
