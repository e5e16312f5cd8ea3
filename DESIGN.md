# Formal model of VMEC++ — design

Everything lives in `rocq/theories` (Rocq/Coq 8.16.1, logical root `Verif`). 138 properties are
listed in `properties.jsonl`; `MANIFEST.json` gives the theorems for each.

## 1. Conventions

* `XModel.v` contains only executable definitions transcribed from `/repo`, each with a comment that cites file and lines and lists simplifications.
* `XSpec.v` (or a part at the head of the property file) states what the user expects, without the model's helpers.
* `XProofs.v`, `XMain.v`, `XFinal.v`, `XCases.v` contain lemmas and concrete cases.
* `XProps.v` contains only the property theorems, each closed by `exact`, followed by `Print Assumptions`, and a concrete non-trivial case that meets the hypotheses.
* Bit-exact claims (parallel = serial, any order of threads) are stated over an arbitrary carrier with uninterpreted operations (`Num.v`), hence they cover IEEE doubles with NaN.
* Algebraic claims (series identities, integrals, geometry, linear algebra) are stated over Coq's `R`: exact arithmetic; rounding is not modelled there.
* IEEE facts use the standard library's primitive-free `SpecFloat` (precision 53, emax 1024) for computed witnesses, and Flocq (`NumB64.v`) for theorems about rounding.
* `int` is `Z`; overflow, out-of-range access, reads of uninitialised values and access to an empty optional are explicit outcomes wherever the property is about them.
* External calls (coil fields, file contents, the interrupt flag, the vacuum solver inside the run loop, the operating system) are oracles: universally quantified arguments of the theorems.
* A claim that is false of the faithful model is proved false as `..._refuted` with a witness, next to the strongest true restriction; its status is `partial` and its note starts with REFUTED. A theorem that covers part of a claim is named `..._partial`.
* `seeded/LOG.jsonl` records wrong variants of the definitions and the theorems that reject them.

## 2. Trusted base

1. The Coq 8.16.1 kernel, including its virtual machine (`vm_compute` is used in concrete cases and, as a proof method, in `FftCodProps.v`; `native_compute` is not used).
2. The standard library axioms below, and nothing else. No axiom, parameter, section-less variable, admitted proof, functor or module type is declared in this development; no kernel check is switched off.
   * `ClassicalDedekindReals.sig_forall_dec`, `ClassicalDedekindReals.sig_not_dec` — the axioms of the construction of `R` in `Coq.Reals`;
   * `FunctionalExtensionality.functional_extensionality_dep` — used by `Coq.Reals` and directly for arrays as functions;
   * `Classical_Prop.classic` — through `Coq.Reals`/Coquelicot/Flocq lemmas.
3. That the definitions of the `*Model.v` files transcribe the code. This is by reading only: the code was not run and nothing is extracted from it. Exception: `FftCodelets.v` was produced from the text of the generated FFT sources by a script that maps each C++ statement to one constructor of `FftLang.v`. That translation was checked by reading samples only.
4. The behaviour assumed for libraries: Eigen expressions evaluate as the sums and products they denote, so theorems about Eigen reductions are over `R`; C120 assumes that Eigen evaluates a coefficient-wise assignment in place, piece by piece in increasing order, without a temporary. OpenMP: `single`, `critical`, `barrier` and `for` as in the OpenMP standard, modelled in `OmpModel.v` and `TeamModel.v`. NumPy, pydantic and netCDF4: as described in the model files that use them.

### Axioms per theorem (output of `Print Assumptions`)

* **none (closed under the global context)** — 172 theorems: C01_radial_work_sharing, C02_thread_budget_never_refused, C03_vacuum_work_sharing, C04_preconditioner_thread_independent, C06_forces_thread_independent, C06_single_thread_owns_all, C07_lambda_averages, C07_preconditioner_thread_independent, C08_accumulation_completes, C09_reproducible_refuted, C09_reproducible_two_threads, C10_stage_terminates, C11_convergence_is_genuine, C11_geometry_held_refuted, C112_validated, C112_to_solver_partial, C112_accepted_partial, C112_from_solver, C112_round_trip, C112_defaults, C112_refuted_wrap, C112_refuted_axis, C12_rollbacks_any_arithmetic, C125_coverage, C126_round_trip, C126_profiles, C126_all_runs_refuted, C126_long_current_refuted, C126_atomic, C126_case, C13_run_outcome, C14_retry_refuted, C14_no_inserted_stage, C15_lambda_scale_refuted, C15_lambda_scale_partial, C16_full_solve_after_restart_refuted, C16_active_start_refuted, C17_same_run_partial, C17_8_52_refuted, C17_parvmec_refuted, C17_velocity_refuted, C23_mode_tables, C27_underflow_refuted, C27_overflow_refuted, C27_nan_not_reported, C28_thread_boundary_refuted, C35_refuted_short_list, C35_refuted_nan, C35_refuted_unset, C35_no_bad_read_partial, C36_refuted, C36_entries_partial, C36_boundary_from_json, C36_stand_alone_reader, C37_refuted, C37_exact_in_range_partial, C37_large_refused_partial, C37_lists_exact_in_range_partial, C38_roundtrip, C38_sparse_list, C38_resize, C38_resize_back, C38_constructor, C38_axis, C38_strict, C39_keeps_settings_partial, C39_keeps_what_it_converts_partial, C39_refuted_axis, C39_refuted, C39_refuted_schedule, C41_superposition, C41_loading_replaces, C41_loading_file_replaces, C41_file_like_table, C42_filled_from_computed_points, C43_thread_independent, C43_reads_only_coarse_surfaces, C43_axis_odd_zero, C43_cubic_boundary_rounding_refuted, C44_team_can_finish, C45_threads_in_step_partial, C45_threads_in_step_if_agreed_partial, C45_no_thread_leaves_alone_refuted, C46_atomic, C46_open_file_stable, C46_other_files, C46_success, C46_h5_refused, C46_others_tried, C47_interrupt_honoured, C50_identity, C50_axis_odd, C52_rerun_after_interrupt_refuted, C52_interrupt_is_permanent, C63_failed_table_keeps_field_partial, C63_failed_file_refuted, C66_unset_windings_refuted, C68_roundtrip_symmetric_partial, C68_refuted, C68_refuted_case, C69_change_resolution, C69_grow_and_shrink, C70_settings, C70_input_or_error_partial, C70_refuted, C71_same_array_partial, C71_python_refuses_negative, C71_refuted, C73_other_arrays_partial, C74_schedule, C74_returns, C74_stops_at_failure, C74_last_step, C74_wrong_length, C74_refuted, C75_failed_write_partial, C75_refuted, C76_refuted, C80_styles_differ_in_reverts, C93_collected, C128_round_trip, C128_array, C128_never_wrong, C128_strict_json, C128_all_refuted, C128_empty_int_refuted, C128_case, C129_current, C129_input_written, C129_no_rerun, C129_hot_restart, C129_last_step, C129_wout_object, C129_edit_refuted, C129_case, C130_both, C130_json, C130_input, C130_input_json_refuted, C130_distinct_refuted, C130_saved_refuted, C133_parameters, C133_table, C133_copy, C133_refuted, C133_case, C134_roundtrip, C134_refuted, C134_case, C135_symmetric, C135_older, C135_shape, C135_asymmetric, C135_refuted, C135_case, C136_names, C136_keeps_input, C136_refuted, C136_indata, C136_convert_keeps, C136_convert, C136_convert_refuted, C136_case, C137_flag, C137_kinds, C137_refuted, C137_reason_refuted, C137_case, C138_fortran, C138_json, C138_refuted, C138_case.
* **`ClassicalDedekindReals.sig_forall_dec`, `ClassicalDedekindReals.sig_not_dec`, `Classical_Prop.classic`, `FunctionalExtensionality.functional_extensionality_dep`** — 94 theorems: C05_tridiagonal_solve, C05_diagonally_dominant, C108_geometry, C108_field, C11_geometry_held_partial, C113_area, C113_volume_partial, C113_volume_refuted, C113_circular, C12_rollbacks_and_time_steps, C121_boundary, C123_modB, C125_routines, C15_lambda_scale_positive_partial, C16_vacuum_coupling_partial, C16_vacuum_coupling_doubles_partial, C18_surface, C18_symmetric, C19_shift, C19_no_repeat, C20_orientation, C27_single_thread_exact_partial, C27_reported_iff_sign_change_in_a_thread, C27_binary64_moderate_partial, C28_verdict_thread_independent_partial, C27_reported_iff_sign_change_in_a_thread, C29_power_series, C29_power_series_i, C29_current, C29_entry_points, C31_akima, C31_cubic, C32_line_segment_refuted, C32_integrated_refuted, C32_at_knots_partial, C33_sum_atan_refuted, C33_continuous_partial, C34_bad_type_refuted, C34_lookup, C34_unimplemented_refuted, C35_accepts_exactly_partial, C40_reads_in_range, C40_reads_own_plane, C40_call, C40_value_at_nodes, C40_bilinear_exact, C40_outside_nearest, C41_linear, C42_equals_full_table_partial, C42_asymmetric_z_refuted, C43_boundary_unchanged, C43_coincident_surfaces, C48_prescribed_current, C50_common_modes, C50_result_complete, C53_constrained_refuted, C53_constrained_unflipped_partial, C57_peaked, C58_cubic_parabola, C58_akima_line, C58_akima_mirror, C62_linear_no_overshoot, C62_polynomials_exact, C64_no_overshoot, C64_continuous, C65_straight_filament, C65_no_current, C66_field_unchanged_partial, C67_table_reproduces_coil_field, C72_common_surfaces_partial, C72_refuted, C73_refuted, C74_guess_fits, C76_exact_partial, C77_symmetry_plane_partial, C77_general_plane_partial, C81_forward_integrals_partial, C81_double_layer_integrals, C81_backward_refuted, C84_normal_and_metric, C84_curvature, C84_positions, C84_metric_regular, C85_kernel, C85_source, C85_axisymmetric_kernel, C85_axisymmetric_source, C89_external_field, C90_vacuum_field, C90_with_external, C91_error_partial, C127_routines, C127_vendored, C127_case.
* **`ClassicalDedekindReals.sig_forall_dec`, `FunctionalExtensionality.functional_extensionality_dep`** — 38 theorems: C08_half_grid_sums, C08_half_grid_surface_sums, C08_force_residual_sums, C08_magnetic_energy, C100_half_grid_partial, C107_linear_partial, C107_refuted, C110_half_refuted, C114_profiles, C115_overrun_refuted, C116_radial_force, C116_ends_partial, C116_ends_refuted, C118_ends, C118_averages, C119_q, C120_first_piece_partial, C120_wdot_refuted, C120_second_piece, C22_boundary, C22_surfaces, C23_nyquist, C24_sizes, C26_forces, C29_flux_derivative, C32_actual_value, C82_coefficients_closed_form, C82_other_coefficients_zero, C82_averaged_coefficients, C93_restored, C94_bsubv, C94_unique, C94_average, C99_j_perp, C131_grids, C131_mean_iota, C131_case, C132_vacuum_order.
* **`ClassicalDedekindReals.sig_forall_dec`, `ClassicalDedekindReals.sig_not_dec`, `FunctionalExtensionality.functional_extensionality_dep`** — 139 theorems: C100_extrapolation_partial, C100_izeta_partial, C100_extrapolation_refuted, C100_half_grid_refuted, C101_sum, C101_shear, C101_geodesic, C102_reverse_jxb, C102_reverse_mercier, C103_weight, C104_flux_value, C104_flux_partial, C104_flux_refuted, C105_angular_partial, C105_radial_partial, C105_odd_refuted, C106_average, C107_spectrum, C109_surface, C109_axis, C109_count, C110_lambda, C110_axis_partial, C110_axis_refuted, C110_half_partial, C111_ampere, C111_enclosed, C111_ends_partial, C111_refuted, C113_radii, C114_energies, C114_betas, C114_flux, C115_R_extremes, C115_planes, C115_B_extremes, C115_asymmetric_refuted, C116_affine, C116_fluxes, C116_currents, C116_flux_derivatives, C116_volume_sign_refuted, C117_section_partial, C117_symmetry_planes, C117_odd_planes_refuted, C117_asymmetric_refuted, C118_pfirsch_schlueter, C118_psi, C119_half_grid, C119_ampere, C119_presf, C119_force, C119_chi, C119_chi_sign_refuted, C121_guess, C121_lambda, C122_arrays, C122_curve, C122_round_trip, C124_geometry, C124_forces, C20_flip, C21_cos_round_trip, C21_sin_round_trip, C21_series, C25_round_trip, C25_orthonormal, C26_geometry, C30_edge_flux, C49_inner_partial, C49_axis_partial, C49_boundary_partial, C49_asymmetric_refuted, C51_planes_partial, C51_axis_partial, C51_axisymmetric_partial, C51_refuted, C51_asymmetric_refuted, C54_geometry, C54_combined, C54_basis, C55_axisymmetric_planes_refuted, C56_forces, C59_edge_current, C59_scale_invariant, C59_vanishing_edge, C60_lamscale, C61_flux_scale_refuted, C61_flux_itself_partial, C65_strength_and_direction, C77_old_axis, C78_least_squares, C78_exact, C79_surfaces, C79_axis, C83_source_terms, C83_kernel_terms, C83_kept, C86_matrix, C86_source, C87_cosine_rows_partial, C87_sine_rows_partial, C87_sine_rows_symmetric_partial, C87_sine_rows_refuted, C88_solution, C89_defined, C90_net, C91_edge_refuted, C91_uniform_partial, C92_sign_refuted, C92_up_to_sign_partial, C92_ratio_partial, C95_projection, C95_exact, C95_average, C96_angular_partial, C96_radial_partial, C96_angular_refuted, C96_radial_refuted, C97_ampere, C97_enclosed, C97_poloidal, C98_cauchy_schwarz, C98_bdotb, C98_jperp2, C99_jperp2_partial, C99_jperp2_value, C99_jperp2_refuted, C127_geometry, C127_constraint, C127_forces, C131_vacuum_well, C131_external_current, C132_units, C132_relations, C132_case, C132_uniform, C132_uniform_case, C92_edge_refuted.
* **`ClassicalDedekindReals.sig_forall_dec`** — 1 theorems: C117_arrays.
* **`FunctionalExtensionality.functional_extensionality_dep`** — 3 theorems: C44_step_synchronises_copies, C44_copies_agree_after_any_history, C44_team_follows_single_history.

## 3. What is modelled

Paths are relative to `src/vmecpp/cpp/vmecpp` unless they start with `src/`. The comments in the model
files give the lines.

* `AxisModel.v` — The new guess for the magnetic axis after a bad initial Jacobian: src/vmecpp/cpp/vmecpp/vmec/boundaries/guess_magnetic_axis.cc. Simplifications: exact arithmetic; vectors of vectors are functions of (k, l), initially zero (std::vector::resize value-initialises).
* `BoundaryModel.v` — Reading the boundary: sorting of the input coefficients into the product basis, the poloidal origin shift, the orientation test, the reversal of the poloidal angle and the m=1 constraint. Source: src/vmecpp/cpp/vmecpp/vmec/boundaries/boundaries.cc and src/vmecpp/cpp/vmecpp/vmec/fourier_coefficients/fourier_coefficients.cc. Simplifications: exact arithmetic over [R], [int] as [Z]; arrays that are not allocated when lthreed / lasym is false are present in the record but neither written nor (by the specification) read; the axis coefficients and the console output are left out.
* `BsubModel.v` — The toroidal covariant field on the half grid that goes to the output, vmec/output_quantities/output_quantities.cc:1830-1885. Exact arithmetic. Matrices are flat arrays, row = surface.
* `CliModel.v` — The command line program: src/vmecpp/__main__.py:72-105 (main), _util.py:58-73 (get_vmec_configuration_name), __init__.py:658-674 (VmecInput.from_file), 2484-2530 (ensure_vmecpp_input). File names are base names; [starts], [ends], [take], [drop] are those of SimsModel.v. External: reading the content ([reads]) and the solver ([solves], whether vmecpp.run returns). Printing, the verbosity flags and the temporary JSON file next to an INDATA input are left out; saving the wout succeeds.
* `ContModel.v` — Change of resolution of a solution and the continuation driver, src/vmecpp/_continuation.py. NumPy functions used there (linspace, interp, sqrt, elementwise arithmetic) follow NumPy's documented algorithms: numpy/core/function_base.py (linspace), numpy/core/src/multiarray/ compiled_base.c (arr_interp); these are not part of the repository. Arrays of integers are converted to numbers by the generic pass; this conversion is not modelled.
* `CylModel.v` — Remaining metric elements, cylindrical field components and the radial covariant field component, vmec/output_quantities/output_quantities.cc:1904-2038 and 2481-2499. Exact arithmetic. The members of VmecInternalResults are passed as one record per grid point ([geo], [jacp] and [vecp] of KernelModel); new arrays are zero.
* `DetectModel.v` — Telling a Fortran input file from a JSON one: is_vmec2000_input, src/vmecpp/__init__.py:2484-2494. A text is the list of its lines (opened in text mode, with or without the line end), a line the list of its characters. str.strip is restricted to the white space of ASCII.
* `DftModel.v` — Transforms between Fourier coefficients and the angular grid: geometry from coefficients, real-space forces to coefficients, and the parity handling of non-stellarator-symmetric (lasym) runs. Source: src/vmecpp/cpp/vmecpp/vmec/ideal_mhd_model/dft_toroidal.cc and ideal_mhd_model.cc (geometryFromFourier, dft_*_2d_*, symrzl, symforce, forcesToFourier). Simplifications: [double] is [R] (exact arithmetic), [int] is [Z]; arrays are functions of the flat index of the source; the arrays of one name family (r1_e, r1_o, ru_e, ...) are one function of a tag; the OpenMP barriers inside the 2D routines are not represented (every array here is thread-local). In exact arithmetic [x -= y] is written [x + - y] and Eigen's dot products are left-to-right sums.
* `ExtModel.v` — Model of ExternalMagneticField, free_boundary/external_magnetic_field/external_magnetic_field.cc. [double] is modelled by [R] (exact arithmetic; 1.0e-7 is 1/10^7), [int] by [Z], arrays by functions of the flat index. The coil field interpolated from the mgrid file (mgrid_.interpolate, line 57) enters as three arrays. The branch kUseAbscabForAxisCurrent is a compile-time constant [false] (external_magnetic_field.h:65), so AddAxisCurrentFieldAbscab is dead code and not modelled.
* `FftModel.v` — The FFT path of the toroidal transforms. Source: src/vmecpp/cpp/vmecpp/vmec/ideal_mhd_model/fft_toroidal.cc and the dispatch in ideal_mhd_model.cc:1193-1203, 2585-2597. Simplifications: [double] is [R] (exact arithmetic), [int] is [Z]; the thread-local buffers are functions of the flat index of the source (a complex entry takes two consecutive numbers) which keep their contents from surface to surface and from call to call; the vendored FFTX routines are the arguments [c2r], [r2c], called as run(output, input); [nfp] of the plans is that of the sizes (ideal_mhd_model.cc:277). Resizing of the buffers is not represented.
* `FiltModel.v` — Splitting of the covariant magnetic field by symmetry, and the Fourier low-pass filter that also provides its derivatives in the angles, vmec/output_quantities/output_quantities.cc:2040-2479. Exact arithmetic. Matrices are flat arrays (row = surface) as indexed by the source; new matrices are zero. Simplification: each array has its own loop nest, where the source fills several arrays in one; no array is read while being filled by the others, and every entry receives its terms in the same order.
* `FlagModel.v` — The status code of the output file: common/util/util.h:148-159 (VmecStatus), util.cc:14-17 (VmecStatusCode), vmec/output_quantities/output_quantities.cc:4414-4420 (wout.ier_flag), src/vmecpp/__init__.py:843-855 (VmecWOut.reason), vmec.cc:437 (the converged entry of the run summary in the log).
* `FluxModel.v` — The magnetic flux profiles of the output file, output_quantities.cc. Exact arithmetic. Indices are global: the gathering of the shares of the threads is in GatherModel.
* `FourierModel.v` — Fourier basis tables, conversions between the combined basis cos(m theta - n zeta), sin(m theta - n zeta) and the product basis, and the mode number tables. Source: src/vmecpp/cpp/vmecpp/common/fourier_basis/fourier_basis.{h,cc}. Simplifications: [double] is modelled by [R] (exact arithmetic), [int] by [Z]; arrays are functions from the flat index of the source.
* `GatherModel.v` — Collecting the data of the threads for the output, GatherDataFromThreads, vmec/output_quantities/output_quantities.cc:1559-1828. Any arithmetic. An array of a thread has a size; a read outside gives [None], which is then what the output entry holds. Names enumerate the arrays that are copied.
* `GeoModel.v` — Geometric and magnetic quantities of the output: vmec/output_quantities/output_quantities.cc:3201-3264 (first table, part), 3538-3747 (intermediate), 3749-3935 (result, part), 4073-4110 (volume integrals). Exact arithmetic. Matrices are flat arrays, row by row: the entry of surface j and grid point kl of a matrix with nZnT columns is at j * nZnT + kl. A vector write outside its size is [None].
* `HdfModel.v` — Saving the output quantities of a run to an HDF5 file and loading them: vmec/output_quantities/output_quantities.cc:39-1141 (WriteTo and LoadInto of each part, the lists of members are in HdfData.v), 1146-1248 (Save), 1250-1363 (Load) and util/hdf5_io/hdf5_io.{h,cc}. The copy of the input (VmecINDATA) is in IhdfModel.v. A part is a function from member names to values; a file maps a group and a name to the stored value. HDF5 stores every value as it is; creating a dataset or group that exists and opening a dataset that does not exist throw ([None]). A member that a constructor leaves uninitialised has an arbitrary value.
* `HotModel.v` — Export of the converged Fourier coefficients to the output quantities and the initialisation of a new run from them (hot restart). Source: src/vmecpp/cpp/vmecpp/vmec/output_quantities/output_quantities.cc and src/vmecpp/cpp/vmecpp/vmec/fourier_geometry/fourier_geometry.cc. Simplifications: exact arithmetic over [R], [int] as [Z]. The twelve coefficient arrays of a geometry are one function from the name of the array; an array that is not allocated (lthreed / lasym false) is present but never written. Independent assignments to several arrays at one index are one simultaneous update. The three vectors filled together for one surface (rmnc1, zmns1, lmns1 and rmns1, zmnc1, lmnc1) are one array of triples.
* `IhdfModel.v` — Saving the input in the HDF5 file and loading it: common/vmec_indata/vmec_indata.cc:258-329 (WriteTo), 334-486 (LoadInto), 51-107 (names of the enumerators) and util/hdf5_io/hdf5_io.{h,cc}. [num] holds the members that are neither enumerators nor optional, [opt] the four optional arrays of an asymmetric input. The lists of statements are in the order of the code. All datasets are in the group "indata" of a new file.
* `IndataModel.v` — The input object: reading it from JSON, writing it to JSON, checking it, changing its resolution. common/vmec_indata/vmec_indata.{h,cc}, common/vmec_indata/boundary_from_json.cc, util/json_io/json_io.cc. JSON text is represented by its value after parsing (nlohmann::json, external). [int] is [Z] in the 32-bit range; arithmetic on it that would overflow is [UB].
* `InitModel.v` — The initial guess of a run and the magnetic axis of the output: vmec/fourier_geometry/fourier_geometry.cc:98-168 and vmec/output_quantities/output_quantities.cc:4119-4160. Exact arithmetic; arrays are functions of their flat index.
* `JacModel.v` — The Jacobian sign test.
* `JxbModel.v` — The current density, the force residual and the flux surface averages of the jxbout output, vmec/output_quantities/output_quantities.cc:2501-2840. Exact arithmetic. Matrices are flat arrays (row = surface) as indexed by the source; new arrays are zero. Simplifications: each output array and each accumulator has its own loop, where the source fills several in one; local variables of the loop over the grid points (kl) are functions of kl. DBL_EPSILON and DBL_MAX are the real numbers they stand for.
* `KernelModel.v` — One thread's share of a force evaluation in real space: half-grid Jacobian, metric, differential volume, contravariant and covariant field, pressure, radial force balance, lambda force and MHD force, lambda preconditioner. Arithmetic is an arbitrary [num]; [npow], [nneg] and [ncopysign] (std::pow, unary minus, copysign) are further uninterpreted functions. Simplifications that hold for the whole file: (1) arrays are functions [Z -> A]; the index expressions are those of the code. (2) parallel arrays that are written together at the same index (r12, ru12, ... tau) are one array of records. (3) the checkpoints used by the unit tests are left out.
* `LapModel.v` — Model of LaplaceSolver, free_boundary/laplace_solver/laplace_solver.cc. [double] is modelled by [R] (exact arithmetic), [int] by [Z], arrays by functions of the flat index. Matrix-vector products of Eigen are sums. Local buffers that are completely assigned before they are read (kernel_odd, kernel_even, g1, g2, actemp_l, astemp_l, cac, cas, result) are functions. [%] acts on non-negative integers only.
* `LoopModel.v` — One multigrid stage of the equilibrium solver: [Vmec::SolveEquilibrium], [Vmec::SolveEquilibriumLoop], [Vmec::Evolve], [Vmec::RestartIteration], [Vmec::UpdateForwardModel] and the control-flow part of [IdealMhdModel::update]. All C++ paths are relative to /repo/src/vmecpp/cpp/vmecpp. Simplifications, common to the whole file: - one thread's view: the flags read here are shared variables written in [omp single] blocks separated by barriers (thread agreement is the subject of other files); - the forward model is an oracle: a function of the whole solver state, so any residuals, Jacobian failures or errors may be reported in any order; - no checkpoint is requested ([VmecCheckpoint::NONE], the production setting); - log output is left out; - the geometry, velocity and force vectors are abstract types. [trace] (newest first) is a ghost record of the observable actions.
* `MakegridModel.v` — Coil sets, their magnetic field, and the response table computed from them. common/makegrid_lib/makegrid_lib.{h,cc}, common/magnetic_configuration_lib/magnetic_configuration_lib.cc, common/magnetic_field_provider/magnetic_field_provider_lib.cc. [cos_ sin_ pi_ hypot3 mu0]: libm and constants. [carrier_field]: the field of a circular or polygon filament, computed by the external library ABSCAB.
* `MercModel.v` — The Mercier stability criterion of the output, vmec/output_quantities/output_quantities.cc:2842-3190. Exact arithmetic. Arrays and loops as in JxbModel; bdotk is read from the jxbout contents. Simplification: values at the points of one surface are functions of the surface and the point instead of matrices; they are only read for the surface and point for which they were computed.
* `MgModel.v` — Interpolation of the state vector from one radial grid to the next, Vmec::InterpolateToNextMultigridStep, vmec/vmec/vmec.cc:1799-2050. [int] products are modelled by [Z]; 32-bit overflow of [jNew * (ns_old - 1)] (line 1929; needs more than 46340 surfaces) is not modelled.
* `MgridModel.v` — The vacuum grid: loading coil fields into MGridProvider and interpolating them on the plasma boundary. free_boundary/mgrid_provider/mgrid_provider.{h,cc}.
* `NamelistModel.v` — Conversion of a VMEC++ JSON input to a VMEC2000 namelist, src/vmecpp/_util.py:171-312. The text is represented by its lines, [name = right-hand side]; the comment lines and the enclosing "&INDATA", "/" are left out. Numbers written with [:.20e] are represented by the number (21 significant digits identify a double; exactness of Python's formatting and Fortran's reading is assumed). Python exceptions (TypeError, ValueError, KeyError) are [Throws].
* `NesModel.v` — Model of the last part of Nestor::update, free_boundary/nestor/nestor.cc:131-247: from the solution of the linear system to the vacuum field on the boundary. [double] is modelled by [R] (exact arithmetic), [int] by [Z], arrays by functions of the flat index. [%] and [/] act on non-negative integers only. The barriers and the single region order the reset of the two net sums before all additions; the critical sections run in any order ([net_field]). The early returns for checkpoints are left out (they skip this part).
* `NyqModel.v` — The spectra of the derived quantities in the wout contents (Nyquist modes), vmec/output_quantities/output_quantities.cc:4550-4572 and 4712-5182. Exact arithmetic. The seven half-grid quantities (Jacobian, |B|, covariant and contravariant field) and the full-grid B_s run through copies of the same statements; here one definition per kernel takes the field as an argument. Matrices (mode, surface) are functions of two indices; new ones are zero. Each array has its own loop. The loops over surfaces run in parallel in the source; each iteration writes its own column (C10 covers such loops).
* `OmpModel.v` — A team of OpenMP threads running the same straight-line code on a shared state. Used for the accumulation pattern "omp single / omp barrier / omp critical / omp barrier / omp single" that occurs in vmec/ideal_mhd_model/ideal_mhd_model.cc:488-561 (evalFResInvar, evalFResPrecd), 1713-1772 (volumes), 1962-1990 (energies), 2099-2133 (force norms). Simplifications: the bodies of [single] and [critical] constructs execute atomically (they are mutually exclusive by the OpenMP rules, and between barriers the shared data of the pattern is touched only inside them); the implicit barrier at the end of a [single] is written as an explicit [IBarrier]; threads are numbered [0 <= t < T].
* `PartModel.v` — Work sharing: radial partition of flux surfaces, tangential partition of boundary grid points, split of Fourier modes, choice of thread counts. [int] is modelled by [Z]; C++ integer division by [Z.quot]/[Z.rem] (truncation towards zero).
* `ProfileModel.v` — Radial profiles (pressure, rotational transform, current, magnetic flux) as functions of the normalised flux, radial_profiles.cc. Arithmetic over the reals. [outcome] separates a real result from a value which is not a finite real in the code (division by zero, [std::pow] outside its domain) and from a read outside a coefficient vector. Warning messages are not modelled.
* `PyCoefModel.v` — The Python input object: dense and sparse boundary coefficients. src/vmecpp/_util.py:314-415 and src/vmecpp/__init__.py:505-665. A 2-D NumPy array is a [mat] of [IndataModel]. Python exceptions (AssertionError, ValueError) are [Throws]. Python integers are unbounded.
* `PyInputModel.v` — The Python input object VmecInput: defaults, validation, conversion to and from the C++ VmecINDATA. src/vmecpp/__init__.py:75-106, 179-565, 667-762. The fields of both classes are the same except that mpol and ntor of VmecInput may be schedules; a VmecInput is therefore the two resolutions and an [indata] whose members mpol and ntor hold the final resolutions (they are not read). Field types are taken as already coerced by pydantic (bool, int, float, str, arrays); Python integers are unbounded, array elements are 64-bit. Strings are ASCII. The enumerations of both sides correspond one to one and are identified.
* `PyIterModel.v` — The Python driver of one multigrid stage: [solve_equilibrium] in /repo/src/vmecpp/_iteration.py:171-520, acting on the primitives of [VmecModel] (cpp/vmecpp/vmec/pybind11/pybind_vmec.cc:161-345). The state record of LoopModel.v is reused: the geometry, velocity, backup, forces, residuals and restart reason are those of the wrapped C++ object; the driver's local variables iter1, iter2, ijacob, res0, res1, delt0r, fsq_prev, inv_tau are kept in the fields of the same meaning (the C++ object's own counters are not read by the primitives). Simplifications: callback, logging and the recorded traces of residuals are left out ([trace] records the actions); the restart counters n_restarts, n_reguesses are not kept.
* `PydModel.v` — JSON form of the Python data classes with NumPy fields: BaseModelWithNumpy, src/vmecpp/_pydantic_numpy.py. A Python value and a JSON value have the same representation [pv] (a JSON value has no [PArr]); printing and parsing of the text, which reproduces finite floats exactly, is left out. [A] stands for the finite doubles. Field types: arrays, floats, other scalars (str, int, bool), Any, and Optional, list, dict of these; unions of several types, tuples, sets, nested models and computed fields are not modelled. NumPy functions follow NumPy's documentation (tolist, array); JAX arrays are not modelled.
* `ReduceModel.v` — Volume sums and force residuals: the per-thread partial sums and the accumulation of the partial sums by the thread team. The partial sums are written over an arbitrary carrier [A] with addition [add] and zero [zero], so that they can be read over the reals and over IEEE doubles. Thread-local arrays are functions of the global radial index; a read outside the thread's range is excluded by the theorems' hypotheses, which fix the contents only inside the range.
* `RegModel.v` — Model of RegularizedIntegrals, free_boundary/regularized_integrals/regularized_integrals.cc. [double] is modelled by [R] (exact arithmetic), [int] by [Z], arrays by functions of the flat index; the scratch buffers are arrays too. The surface geometry is the record of SurfModel. [%] acts on non-negative integers only.
* `RegionModel.v` — Control skeleton of the parallel region of the solver: every barrier, every single region, every branch that decides whether a thread meets them, of Vmec::SolveEquilibrium (vmec.cc:774-844), SolveEquilibriumLoop (881-1236), RestartIteration (1239-1305), Evolve (1307-1425), UpdateForwardModel (1465-1498), Printout (1427-1463), PerformTimeStep (1500-1517), performTimeStep (1520-1797) and IdealMhdModel::update (ideal_mhd_model.cc:559-1116) with the routines it calls. What the threads compute (geometry, forces) is not modelled here: the control data they produce - local Jacobian test, local failure of constraintForceMultiplier, residuals, currents, interrupt request - are arbitrary functions of the thread and of the number of barriers passed, in the record [world]. Calls are inlined; a return jumps to the code after the call. applyRZPreconditioner's internal-error return (3073-3077) is left out: num_basis is by construction the number of basis functions counted there.
* `RtabModel.v` — The Python response table of the external field and its conversion to and from the C++ table: src/vmecpp/_free_boundary.py and cpp/vmecpp/vmec/pybind11/pybind_vmec.cc:1165-1226, makegrid_lib.h:23-78. Memory is explicit because the Python arrays may be views of the C++ table. An array is one that Python owns or a view of a whole component of a C++ table (DefEigenProperty returns a reference that keeps its table alive); slices and reshaped views, whose base is an array and not the table, are left out. [A] stands for the doubles. Values have the types of their pydantic fields.
* `RunModel.v` — The multigrid run: [Vmec::run] and the part of [Vmec::InitializeRadial] that decides what a stage starts from, on top of the stage loop (LoopModel.v). All C++ paths are relative to /repo/src/vmecpp/cpp/vmecpp. Simplifications: - no checkpoint is requested; - the checks before the loop (mgrid loading, IsConsistent, CheckInitialState, vmec.cc:230-258) are outside: the model starts from an accepted input; - geometry constructions (boundary and axis, hot restart, interpolation) are arbitrary functions.
* `SaveModel.v` — Saving a wout file, VmecWOut.save, src/vmecpp/__init__.py:1401-1433, by any number of processes on one directory. Every system call is one event; the events also choose which calls fail, the name mkstemp picks, the contents a file has while it is written, and when a process is killed. A file is an inode: a reader that opened it keeps reading it after a rename. Power loss (unsynchronised disk caches) is not modelled. netCDF4 is not part of the repository: while _save_to_netcdf3 runs the temporary file may hold anything, and it holds the complete representation when it returns without exception.
* `SetProfModel.v` — set_profile, src/vmecpp/__init__.py:2574-2634, and the evaluation of the resulting line segment profile by the solver, over any arithmetic.
* `ShafModel.v` — Shafranov integrals and beta-star of the output: vmec/output_quantities/output_quantities.cc:3602-3687 (intermediate values), 4175-4178 (betstr) and 4183-4310. Exact arithmetic; arrays as in GeoModel. [vac] says that the run has a free boundary and the vacuum field is active.
* `ShapeModel.v` — Cross-section shape and parallel-current profiles of the output: vmec/output_quantities/output_quantities.cc:3717-3752 (intermediate) and 3937-4066 (result). Exact arithmetic; [big] is DBL_MAX and [eps] is DBL_EPSILON.
* `SimsGridModel.v` — Radial grids and scalar results of the SIMSOPT wrapper, simsopt_compat.py, over the real numbers. Arrays are functions of the index; a negative index of Python counts from the end.
* `SimsModel.v` — The wrapper for SIMSOPT: class Vmec of src/vmecpp/simsopt_compat.py, 45-600. [K] stands for doubles, [k0] for 0.0; [O] collects the input fields that the wrapper never touches, [Q] is VmecOutput, [W] VmecWOut. External: vmecpp.run ([solve], None for a RuntimeError; it does not change its argument), wout.save (succeeds), the conversion to and from the C++ input in set_mpol_ntor ([resize], new arrays), and SIMSOPT: a change of the degrees of freedom of the object calls set_dofs and recompute_bell, a change of the boundary's coefficients calls recompute_bell, to_RZFourier and copy of a SurfaceRZFourier return the same coefficients, change_resolution keeps the common modes in place. mpol and ntor are plain integers; boundaries are SurfaceRZFourier. MPI, logging, the radial grids (SimsGridModel) and the quadrature points are left out.
* `SingModel.v` — Model of the analytic singular part of the vacuum solver, free_boundary/singular_integrals/singular_integrals.{h,cc}, over the real numbers: every [double] operation is the exact one, [log] and [sqrt] are those of the standard library. Arrays are functions of an integer index; an array that the code never initialised is an arbitrary function. One grid point [kl] is modelled at a time in [prepareUpdate], whose body reads and writes entry [kl] of its arrays only (lines 181-334).
* `SingSumModel.v` — Model of SingularIntegrals::performUpdate, free_boundary/singular_integrals/singular_integrals.cc:337-600: the projection of the singular part onto the Fourier basis, summed over the grid points of one thread. [double] is modelled by [R] (exact arithmetic), [int] by [Z], arrays by functions of the flat index of the source. [/] and [%] act on non-negative integers only, where they are [Z.div] and [Z.modulo]. The Slp / Slm arrays are inputs here: their formula (lines 361-374) is [SingModel.s_table]; the code fills row [fl] before it reads row [fl].
* `SizesModel.v` — Grid and array sizes derived from the input resolution. Source: src/vmecpp/cpp/vmecpp/common/sizes/sizes.cc. Simplification: [int] is modelled by [Z] (no wrap-around); the real-valued integration weights are computed in exact arithmetic.
* `StepModel.v` — The time step of the iteration, the halo exchange between neighbouring threads, and the saving and restoring of the state vector.
* `SurfModel.v` — Model of SurfaceGeometry, free_boundary/surface_geometry/surface_geometry.cc. [double] is modelled by [R] (exact arithmetic), [int] by [Z], arrays by functions of the flat index. The twelve arrays r1b, z1b, rub, ... are one family indexed by [comp] and the twelve ..._asym arrays another; the eight coefficient spans and the 8 x 3 accumulators of the poloidal transform are families indexed by [coef] and the order of the poloidal derivative. The OpenMP barriers of [update] are not modelled: every thread computes its own SurfaceGeometry object from the shared coefficients.
* `TableModel.v` — Radial profile table of the threed1 output: vmec/output_quantities/output_quantities.cc:3201-3443 (ComputeIntermediateThreed1FirstTableQuantities, without beta_vol and overr, which are in GeoModel) and 3445-3536 (ComputeThreed1FirstTable, the copied columns omitted). Exact arithmetic; arrays start as zero (VectorXd::Zero) and are written in the order of the code. A C++ read outside an array is excluded by ns >= 3.
* `TeamModel.v` — A team of OpenMP threads running one program with branches, barriers and single regions. Unlike OmpModel.v (straight-line code), the path of each thread is decided by what it reads: threads can part.
* `ThomasModel.v` — The serial tridiagonal solver and the R/Z preconditioner that distributes Fourier modes over threads. Paths relative to /repo/src/vmecpp/cpp/vmecpp.
* `WncModel.v` — Saving a VmecWOut as a NetCDF3 file and loading it again. src/vmecpp/__init__.py:1401-1608 (save, _save_to_netcdf3) and 1678-1741 (from_wout_file), and the padding of the profile arrays of a run, output_quantities.cc:29-35 and 4348-4385. The fields are taken as model_dump(by_alias=True) yields them: a name, a value, the max_length of a string field, the dimension names of an annotated array field after the translation 1445-1448 and the removal of leading underscores (1564-1582). Arrays of rank 0 and of rank above 2 do not occur in the class. Floating-point entries are only moved, so their type is arbitrary. The netCDF4 library: a dimension of size 0 is unlimited and NETCDF3_CLASSIC has at most one of them; a variable starts filled with its default fill value; assigning to a slice of a fixed dimension needs as many places as values; an assignment of more values raises. What the library does with an integer outside of 32 bit, with values appended along an unlimited dimension, and with a matrix whose shape differs from the shape of its variable (it may broadcast) is [Unspecified] here.
* `WoutModel.v` — Geometry, lambda and current density coefficients of the wout file, vmec/output_quantities/output_quantities.cc:4574-4703, 5183-5311 and 5313-5452, and the preparation of the coefficients for the geometry evaluation in the solver, ideal_mhd_model.cc:576-585 with fourier_coefficients.cc:123-200 and fourier_geometry.cc:310-351. Exact arithmetic; an array is a function of its flat index, a matrix (mode, surface) of two indices; new matrices are zero.
* `WprofModel.v` — Radial profiles and the energy trace of the wout file: vmec/output_quantities/output_quantities.cc:4463-4470 and 4472-4517. Exact arithmetic.
* `FftLang.v` — The fragment of C++ in which the vendored FFTX routines are written (src/vmecpp/cpp/third_party/fftx_codelets), with a semantics that stops ([None]) on reading an uninitialised variable or array cell and on every access outside an array. Simplifications: [double] is [R] (exact arithmetic, decimal literals are the exact decimals), [int] is [Z]; a declaration without initialiser makes the variables uninitialised.
* `FftCodelets.v` — The vendored batched FFT routines, translated statement by statement from the C++ text into the language of FftLang.v (variables are numbered in order of appearance, i1 is number 0; X is array 0, Y array 1, the static arrays follow). One definition stands for the seven files with the same transform length.

## 4. What is not modelled

* Rounding, in all theorems over `R` (the property notes say "exact arithmetic"). Rounding is treated in the IEEE theorems only.
* Performance, memory consumption, logging text (`iteration_logger`, printouts), timing, signal delivery below the level of the interrupt flag.
* HDF5 input and output of the input copy (`VmecINDATA::WriteTo`/`LoadInto`), the HDF5 library itself, `output_quantities.cc:5454-`, NetCDF reading of coil tables in C++ below the level of the values read (`netcdf_io`), `file_io`, command line handling, `standalone`.
* The JSON parser itself (its result is the input of `IndataModel.v`), the coil file parser apart from the parts used by C42, C57 and their neighbours (`magnetic_configuration_lib`, `composed_types_lib`).
* the remaining methods of `src/vmecpp/simsopt_compat.py` (MPI, logging, `mean_shear`), the handling of unions, tuples, sets and nested models in `_pydantic_numpy.py`, `_free_boundary.py` beyond the response table, the pybind11 layer beyond the members used by the Python drivers.
* The unused `TridiagonalSolveOpenMP`, the mockups and the tests.
* The convergence of the descent itself: no claim is made that an equilibrium is found, only that what is reported about it is true.
* C125: the vendored FFT routines are executed in exact arithmetic on the decimal literals of the source; concurrent first calls of their `init` functions (which write static tables) are not modelled.

## 5. Properties

For each property: title, status, how it is modelled and proved (or why only partly), files of the theorems.

* **C01** Radial work sharing covers every flux surface exactly once — *proved*. `adjustRadialPartitioning` over Z; contiguity/cover/disjointness/halo by division lemmas and induction on the thread id. All ns, thread counts, thread ids, both boundary modes. Theorems in `PartProps.v`.
* **C02** A thread budget is never refused — *proved*. `vmec_adjust_num_threads`/`vmec_adjust_vacuum_num_threads` composed with the FATAL guard of C01. Theorems in `PartProps.v`.
* **C03** Vacuum work sharing covers every surface grid point exactly once — *proved*. `TangentialPartitioning::adjustPartitioning` over Z, same block lemma. Theorems in `PartProps.v`.
* **C04** The radial preconditioner result does not depend on the thread count — *proved*. Mode split + per-mode Thomas over an uninterpreted carrier; array-level equality for every thread count. Any arithmetic, any partition accepted, any execution order between barriers, any stale shared storage. Theorems in `ThomasProps.v`.
* **C05** The tridiagonal solver solves the system — *proved*. In-place Thomas recursion on arrays (functions Z->R) against the textbook tridiagonal equations. Exact arithmetic; non-zero pivots as hypothesis, implied by diagonal dominance. Theorems in `ThomasProps.v`.
* **C06** MHD and lambda forces do not depend on how surfaces are distributed over threads — *proved*. Sliding-window kernels over an uninterpreted carrier; invariant on the window. Whole real-space chain (Jacobian, metric, volume derivative, contravariant/covariant field, pressure, radial force balance, lambda force, MHD force) per thread; bit-for-bit equal between any two threads of any two distributions, for every arithmetic. Theorems in `KernelProps.v`.
* **C07** Half-grid to full-grid averaging in the lambda preconditioner does not depend on the thread count — *proved*. In-place averaging loop over an uninterpreted carrier; invariant on the already overwritten prefix. In-place averaging after any history of updates; at the outermost surface the value is the average of the last half-grid value and zero (this is what the code does). Theorems in `KernelProps.v`.
* **C08** Every volume sum counts each half-grid surface exactly once — *proved*. Per-thread partial sums over owned half surfaces; permutation invariance over a commutative monoid. Exact arithmetic (Coq Reals); every interleaving of the OpenMP single/critical/barrier protocol. Magnetic energy takes |.| per thread, so equality needs equal signs: stated as hypothesis. Theorems in `ReduceProps.v`.
* **C09** Repeated runs with the same thread count are bit-reproducible — *partial*. IEEE sums (SpecFloat): commutative for two threads, witness of order dependence for three (refuted). REFUTED of the faithful model for 3 or more threads (C09_reproducible_refuted gives two interleavings of 3 threads with different IEEE double sums); holds for 1 and 2 threads (C09_reproducible_two_threads). Theorems in `ReduceProps.v`.
* **C10** The equilibrium iteration always terminates within a bounded number of force evaluations — *proved*. State machine of SolveEquilibrium(Loop)/Evolve/RestartIteration driven by an oracle; fuel bound by induction. At most 4*niter force evaluations per stage; any arithmetic, any oracle. Theorems in `LoopProps.v`.
* **C11** Reported convergence is genuine — *partial*. Same machine; inductive invariant linking residuals, tested geometry, backup. Residual part proved for every arithmetic, oracle and style. Geometry part REFUTED of the faithful model in general (C11_geometry_held_refuted: vacuum soft start, PARVMEC stale fsq, loose ftol); C11_geometry_held_partial proves it for IEEE doubles, VMEC 8.52 style, ftol<=1/200, fixed boundary or no soft start. Theorems in `LoopGeomProps.v`, `LoopProps.v`.
* **C12** Roll-backs only return to saved geometries and the time step stays in range — *proved*. Same machine; invariant over all reachable states; time step over positive rationals/reals. Every history of a stage; any oracle. Theorems in `LoopRollProps.v`.
* **C13** A run returns outputs only after convergence unless asked otherwise — *proved*. Multigrid driver of Vmec::run over stage-outcome oracle. Every accepted schedule, every forward-model behaviour and prior object state. Theorems in `RunProps.v`.
* **C14** A bad initial Jacobian triggers the documented ns=3 retry — *partial*. Same driver; refuted (the retry is unreachable). REFUTED of the faithful model: the ns=3 stage is dead code. C14_no_inserted_stage: for all inputs only stages of the user's ns_array are ever run. Theorems in `RunProps.v`.
* **C15** Stages with a repeated ns keep the lambda normalisation — *partial*. Same driver with lamscale/ns_old state; refuted for repeated ns, proved for strictly increasing ns. REFUTED of the faithful model for repeated ns (lambda scale 0). C15_lambda_scale_partial characterises the scale of every stage of every non-decreasing schedule exactly; positive for strictly increasing schedules. Theorems in `RunProps.v`.
* **C16** Free-boundary coupling is switched on once and in order — *partial*. Vacuum pressure state of IdealMhdModel::update as a transition system. Order of the states, solve-before-use, interval bounds and full update after a roll-back that repeats the iteration number: proved for exact arithmetic and IEEE doubles. 'Full solve after every restart' is REFUTED (soft-start roll-back), and solve-before-use is REFUTED for a stage that starts with active coupling. Theorems in `LoopVacProps.v`.
* **C17** The Python force iteration reproduces the C++ one — *partial*. Python driver as a second machine; simulation for vmec_8_52, refutation for parvmec. REFUTED of the faithful model: (8.52) a bad Jacobian after more than ten improving iterations is rolled back inside the C++ save branch without being counted, the Python driver counts it and saves at different iterations afterwards (C17_8_52_refuted); (parvmec) the Python driver ignores bad Jacobians in the course of a run, the C++ driver rolls back and fails (C17_parvmec_refuted); with huge initial forces the C++ driver keeps the velocity through the axis re-guess, the Python driver zeroes it (C17_velocity_refuted). Proved: for fixed-boundary runs avoiding these situations (predicate tame) both drivers make the same evaluations, steps, saves and roll-backs with the same time steps and reach the same verdict (C17_same_run_partial). Missing: free boundary. Theorems in `PyIterProps.v`.
* **C18** Reading a boundary preserves the surface — *proved*. ParseToInternalArrays over R; Fourier series equality with angle-addition formulas. Exact arithmetic; mpol >= 2; arrays up to the m=1 rotation, which is undone with factor 1 exactly as the solver does. Theorems in `BoundaryProps.v`.
* **C19** The m=1 poloidal origin shift preserves the surface and symmetrises the m=1, n=0 mode — *proved*. Shift with atan2 characterised by its defining equations. Exact arithmetic; atan2 defined on the reals (ISO C, sign of zero not represented). Theorems in `BoundaryProps.v`.
* **C20** Reversing the poloidal angle keeps the surface and flips the orientation — *proved*. FlipTheta over R; equality of series at pi-theta. Exact arithmetic. Theorems in `BoundaryProps.v`.
* **C21** Conversion between the combined and the product Fourier basis is lossless — *proved*. Cos/sin <-> cc/ss loops over R. Exact arithmetic; both storage layouts; also used with the Nyquist sizes. Theorems in `FourierProps.v`.
* **C22** The m=1 constraint rotation is inverted exactly — *proved*. M1 constraint over R. Exact arithmetic. Theorems in `BoundaryProps.v`.
* **C23** Fourier mode tables enumerate every mode once — *proved*. Mode tables as lists; NoDup/complete/position. Theorems in `FourierProps.v`.
* **C24** Grid sizes are always sufficient — *proved*. Sizes arithmetic over Z. Int as Z (no overflow); quadrature weights in exact arithmetic. Theorems in `FourierProps.v`.
* **C25** Grid transforms are exact for resolved modes — *proved*. Discrete orthogonality of cos/sin on the weighted half grid over R, by telescoping sums. Exact arithmetic; R and Z coefficients; coefficients of identically vanishing basis functions come back as zero. Theorems in `DftProps.v`.
* **C26** Asymmetric geometry and forces are assembled with the right parity — *proved*. Symrzl/symforce over R on the reflected grid. Exact arithmetic. Theorems in `DftProps.v`.
* **C27** The Jacobian test fires exactly on a sign change — *partial*. Min/max product test over R (proved) and over SpecFloat (refuted for NaN/underflow). REFUTED of the faithful model in IEEE arithmetic (theorems C27_underflow_refuted, C27_overflow_refuted; NaN can go unreported). Proved: exact arithmetic for all geometries and partitions; binary64 when every Jacobian value is zero or between 2^-511 and 2^511 in magnitude. Theorems in `JacProps.v`.
* **C28** The Jacobian verdict does not depend on the thread count — *partial*. Per-thread range of half surfaces + C01. REFUTED of the faithful model (C28_thread_boundary_refuted): Jacobian 1,0,-1 on consecutive half-grid surfaces, two threads sharing the zero one. Proved under the proviso that no shared half-grid surface has an identically vanishing Jacobian. Theorems in `JacProps.v`.
* **C29** Power-series profiles are evaluated and integrated exactly — *proved*. Horner loops and derivable_pt_lim. Exact arithmetic. Theorems in `ProfileProps.v`.
* **C30** The enclosed toroidal flux at the boundary is phiedge — *proved*. ComputeMagneticFluxes over R. Exact arithmetic; non-zero sum of aphi. Theorems in `ProfileProps.v`.
* **C31** Spline profiles pass through their knots and are integrated consistently — *proved*. Binary search invariant, spline evaluation over R, derivable_pt_lim of the integrated forms. Exact arithmetic; at least four strictly increasing knots. Theorems in `ProfileProps.v`.
* **C32** line_segment profiles interpolate linearly between knots — *partial*. EvalLineSegment over Q/R; refuted with witness, correct only at knots. REFUTED of the faithful model (C32_line_segment_refuted, C32_integrated_refuted): the code evaluates the chord of the following segment (C32_actual_value) and the integrated variant reads out of range beyond the last knot. At the knots it is right (C32_at_knots_partial). Theorems in `ProfileProps.v`.
* **C33** Profiles are continuous up to the plasma edge — *partial*. EvalSumAtan etc. over R; refuted for sum_atan. REFUTED of the faithful model for sum_atan (C33_sum_atan_refuted, every non-trivial single-term coefficient set); all other analytic types are continuous (C33_continuous_partial). Theorems in `ProfileProps.v`.
* **C34** A misspelt or unusable profile type is rejected — *partial*. Profile table lookup over strings; refuted. REFUTED of the faithful model (C34_bad_type_refuted): unknown names give a zero profile; C34_lookup characterises exactly which names are usable. Theorems in `ProfileProps.v`.
* **C35** Accepted inputs cannot cause out-of-range accesses in the checks — *partial*. IsConsistent as a checked program over Z/SpecFloat; refuted for short arrays and NaN. REFUTED of the faithful model: short ftol_array/niter_array are read past their end, NaN controls are accepted, unset asymmetric arrays are dereferenced. The _partial theorems: no bad read (any arithmetic) when the lists are long enough and the asymmetric arrays set; then (exact arithmetic) acceptance is equivalent to all controls being in range and all sizes right. Theorems in `IndataProps.v`.
* **C36** Reading boundary coefficients from JSON never writes outside the coefficient arrays — *partial*. Entry loop with checked writes; refuted for negative m, proved for m >= 0. REFUTED of the faithful model (C36_refuted): an entry with m = -1 is written outside the array. Everything else holds in any arithmetic: entries with m >= 0 are stored in range, last wins, outside ignored; the stand-alone reader BoundaryFromJson is right for all entries. Theorems in `IndataProps.v`.
* **C37** Integer settings that do not fit are rejected — *partial*. Integer narrowing; refuted. REFUTED of the faithful model (C37_refuted): nfp = 4294967301 is read as 5. Literals in the 32-bit range are exact, literals beyond 64 bits are refused, others are reduced modulo 2^32. Theorems in `IndataProps.v`.
* **C38** Sparse and dense boundary representations are interchangeable — *proved*. Dense/sparse lists over an abstract carrier with decidable zero. Any arithmetic with a decidable zero (the zeros of the array are the carrier's 0). Python reader and writer of the sparse lists, the padding and cutting done on construction, and the axis arrays. Theorems in `PyCoefProps.v`.
* **C39** Converting a VMEC++ JSON input to a VMEC2000 INDATA file keeps all shared settings — *partial*. Key tables of both formats; refuted for the axis keys. REFUTED of the faithful model: the initial axis is never written (C39_refuted_axis: the writer looks up keys that no VMEC++ file has), a string with a quote is not escaped (C39_refuted), a resolution schedule is written as a Python list (C39_refuted_schedule). Proved: every other setting and every boundary coefficient is written and is read back as the same value, for strings without quotes and scalar resolutions. Theorems in `NamelistProps.v`.
* **C40** Interpolated coil fields are read in range and reproduce the grid — *proved*. Crop/floor/weights over R; SpecFloat for NaN. Reads in range and plane selection for IEEE doubles (every double position, also NaN and infinities; finite grid bounds with extent at least 2^-900). Values in exact arithmetic. Theorems in `MgridProps.v`.
* **C41** The vacuum field is linear in the coil currents — *proved*. Linear combination over R. Superposition, replacement and file/table agreement in any arithmetic, linearity in exact arithmetic. Reading of the NetCDF file is not modelled: a file is its scalars and arrays, each of which may be unreadable. Theorems in `MgridProps.v`.
* **C42** Stellarator-symmetric response tables equal the full computation — *partial*. Mirror index arithmetic over Z and rotation over R; refuted when z range is asymmetric. Completely filled, each mirrored entry from a computed one: any arithmetic, any order of the parallel loops. Equality with the full table is REFUTED (C42_asymmetric_z_refuted) for z grids not symmetric about 0, which the parameter check accepts, and proved (exact arithmetic) for symmetric ones. Theorems in `MakegridProps.v`.
* **C43** Refining the radial grid preserves boundary and coincident surfaces — *partial*. Interpolation stencil over R. All three interpolation schemes, all partitions. Reads in range, axis zero and thread independence hold in any arithmetic; boundary and coincident surfaces are reproduced in exact arithmetic. 'Exactly unchanged' is REFUTED in binary64 for the cubic schemes (C43_cubic_boundary_rounding_refuted, 50 -> 99 surfaces). Theorems in `MgProps.v`.
* **C44** Neighbouring threads agree on shared surfaces after every time step — *proved*. Time step + handover over an uninterpreted carrier for all partitions. Team of threads with barriers, every schedule (race freedom proved, then determinism), abstract arithmetic. Also: any number of threads follows the same single-thread history, and the exchange cannot deadlock. Phase bodies of one thread are atomic instructions of the team model. Theorems in `StepProps.v`.
* **C45** No thread can leave a force evaluation alone — *partial*. Barrier traces per thread; refuted through the thread-local error exit. REFUTED of the faithful model (theorem C45_no_thread_leaves_alone_refuted): an error of constraintForceMultiplier is local to a thread, which then leaves the region while the others wait in the force evaluation. The two _partial theorems: for every schedule, number of threads, setting and outcome of the computations, all threads pass the same barriers and leave with the same status, whenever no surface is degenerate (resp. the threads agree on that error). Model: every barrier, single region and branch of the parallel region (RegionModel.v) on the team language of TeamModel.v. Theorems in `RegionProps.v`.
* **C46** Saving a wout file is atomic — *proved*. File-system transition system with crash at any point. For any number of concurrent savers, any interleaving, failures of every file-system call and kills at any point. mkstemp is assumed to return a name that is not in use (its contract); os.replace to be atomic. Theorems in `SaveProps.v`.
* **C47** A user interrupt is honoured within one printout interval — *proved*. Control machine with interrupt oracle. Any arithmetic, any oracle, restarts included. Theorems in `LoopIntProps.v`.
* **C48** Prescribed-current runs carry the prescribed current — *proved*. ComputeBContra surface average over R. Exact arithmetic, on top of the kernel model of C06; surfaces with vanishing average of g_uu/sqrt(g) keep the old chi' (hypothesis of the theorem). Theorems in `CurrentProps.v`.
* **C49** Hot restart reproduces the stored geometry — *partial*. Export/import composition of C21, C22. REFUTED of the faithful model without stellarator symmetry (C49_asymmetric_refuted: the asymmetric coefficients are all restored as 0). Proved for the stellarator-symmetric coefficients: inner surfaces, lambda on the boundary and (free boundary) R, Z on the boundary exactly, over the reals; on the axis the exact list of dropped terms; in fixed-boundary mode the boundary is that of the new input. Missing: rounding; the interpolation of lambda to the half grid (the restart uses lmns_full). Theorems in `HotProps.v`.
* **C50** Continuation between Fourier resolutions keeps the common modes — *proved*. Mode tables + np.interp model over R. Identity at unchanged resolution and the zero of odd modes on the axis in any arithmetic; the rest in exact arithmetic, for solutions with at least two surfaces. NumPy's linspace, sqrt and interp are modelled after their documented algorithms. Theorems in `ContProps.v`.
* **C51** The axis re-guess stays inside the boundary's bounding box — *partial*. Grid search stays in the bounding box; refuted for lasym. REFUTED of the faithful model (C51_refuted: odd number of planes, one plane is never filled in; C51_asymmetric_refuted: without stellarator symmetry the planes of the second half are never filled in). Proved for stellarator-symmetric runs with an even number of planes: the positions lie in the box of every plane, and so does the axis when the available modes can represent the positions, e.g. in axisymmetric runs. Theorems in `AxisProps.v`.
* **C52** A solver object can be run again after an interrupted run — *partial*. REFUTED of the faithful model: interrupted_ is never reset. C52_interrupt_is_permanent: every later run is reported as cancelled. Theorems in `RunProps.v`.
* **C53** An asymmetric boundary satisfies the m=1 constraint after reading — *partial*. REFUTED of the faithful model (C53_constrained_refuted): flipTheta changes the sign of Z_cos(1,0) but not of R_sin(1,0). Proved when the orientation is not reversed. Theorems in `BoundaryProps.v`.
* **C54** Real-space geometry is the Fourier series and its true derivatives — *proved*. Exact arithmetic; DFT path (the FFTX build variant is not modelled). Theorems in `DftProps.v`.
* **C55** An axisymmetric run may use several toroidal planes — *partial*. REFUTED of the faithful model (C55_axisymmetric_planes_refuted): the 2D transforms use stride nThetaEff between surfaces, all other kernels nZeta*nThetaEff. With one plane C54 holds. Theorems in `DftProps.v`.
* **C56** Fourier forces are the work of the real-space forces on each mode — *proved*. Exact arithmetic; DFT path. Theorems in `DftProps.v`.
* **C57** Peaked pressure profiles decrease from their axis value to zero — *proved*. Exact arithmetic. Theorems in `ProfileProps.v`.
* **C58** Spline profiles reproduce simple shapes exactly — *proved*. Exact arithmetic. Theorems in `ProfileProps.v`.
* **C59** The prescribed net toroidal current is imposed independently of the profile's scale — *proved*. Exact arithmetic. C59_vanishing_edge: a profile with vanishing edge value switches the prescribed current off. Theorems in `ProfileProps.v`.
* **C60** The lambda normalisation does not depend on the number of threads — *proved*. Exact arithmetic. Theorems in `ProfileProps.v`.
* **C61** Only the ratios of the flux coefficients matter — *partial*. REFUTED of the faithful model (C61_flux_scale_refuted): the profiles are evaluated at the unnormalised flux polynomial. The flux itself is scale independent (C61_flux_itself_partial). Theorems in `ProfileProps.v`.
* **C62** Radial refinement is exact for polynomials and the default scheme creates no new extrema — *proved*. Exact arithmetic, all partitions and all three schemes. cubic schemes need at least four coarse surfaces (below that the code falls back to linear). Theorems in `MgProps.v`.
* **C63** A failed load of coil fields leaves the loaded field usable — *partial*. REFUTED of the faithful model for files (theorem C63_failed_file_refuted): LoadFile stores the new sizes before it checks the number of currents, and clears the arrays before all circuits are read. Holds for response tables. Theorems in `MgridProps.v`.
* **C64** The interpolated coil field has no overshoot and no jumps — *proved*. Exact arithmetic. Theorems in `MgridProps.v`.
* **C65** The field of a straight current filament obeys Ampere's law — *proved*. Exact arithmetic. Theorems in `MakegridProps.v`.
* **C66** Folding winding numbers into circuit currents does not change the field — *partial*. REFUTED of the faithful model for coils without a winding number (C66_unset_windings_refuted): the field counts them once, the migration zero times. Proved when all winding numbers are set and the first of each circuit is not zero (exact arithmetic). Theorems in `MakegridProps.v`.
* **C67** A response table loaded with the circuit currents reproduces the field of the coil set — *proved*. Exact arithmetic; circular and polygon filaments (external library) assumed proportional to their current; all planes evaluated. Theorems in `MakegridProps.v`.
* **C68** An input written to JSON is read back unchanged — *partial*. REFUTED of the faithful model for inputs without stellarator symmetry (C68_refuted: the text is never accepted again, because only the first axis coefficient is written and not as an array). Proved for stellarator-symmetric inputs in any arithmetic (finite numbers, zeros of the boundary +0). JSON text is represented by its parsed value; dump and parse of finite numbers are assumed to be inverse. Theorems in `IndataProps.v`.
* **C69** Changing the Fourier resolution of an input keeps its coefficients — *proved*. Any arithmetic. Resolutions below 2^30. Theorems in `IndataProps.v`.
* **C70** A JSON input is either read completely and correctly or refused — *partial*. First half (every setting correct, default otherwise, consistent): proved in full, C70_settings. 'No exception, no undefined behaviour' is REFUTED (C70_refuted: lasym without axis arrays throws, negative mpol with rbc is undefined) and proved for texts with non-negative resolution, entries with m >= 0 and present axis arrays. Theorems in `IndataProps.v`.
* **C71** Both JSON readers give the same boundary — *partial*. REFUTED of the faithful model (C71_refuted: for an entry with negative m the Python reader raises, the C++ reader writes out of range). Proved for all lists whose entries have m >= 0: both readers give the same array. Theorems in `PyCoefProps.v`.
* **C72** Continuation refines the radial grid as the solver does — *partial*. REFUTED of the faithful model (C72_refuted: the Python code interpolates linearly in sqrt(s), the solver's default scheme linearly in s, so a coefficient linear in s changes). Proved: both agree on all surfaces common to both grids, for every scheme, exact arithmetic. Theorems in `ContProps.v`.
* **C73** Changing the resolution of a solution leaves non-radial data alone — *partial*. REFUTED of the faithful model (C73_refuted: any array whose last dimension equals the old number of surfaces is resampled, e.g. three pressure coefficients on a three-surface grid). Proved for all other arrays, any arithmetic. Theorems in `ContProps.v`.
* **C74** A continuation run solves exactly the scheduled problems — *partial*. The schedule itself is proved in full for arbitrary solver and interpolation. The clause 'an inconsistent schedule is refused before any equilibrium is computed' is proved for mpol and ntor (C74_wrong_length) and REFUTED for the tolerance and iteration arrays (C74_refuted). Theorems in `ContProps.v`.
* **C75** A failed save leaves the directory as it was — *partial*. REFUTED of the faithful model (C75_refuted: if the final rename fails the temporary file stays). Proved when the failure is in creating or writing the temporary file. Theorems in `SaveProps.v`.
* **C76** A profile given as a function is used exactly on every surface — *partial*. REFUTED in IEEE double precision (C76_refuted: seven surfaces, f(s)=s^2, error above 0.01 on surface 5 because Python's knot and the solver's surface differ in the last bit and the line segment profile jumps there). Proved in exact arithmetic for all functions and schedules. Theorems in `SetProfProps.v`.
* **C77** The axis re-guess maximises the smallest Jacobian on its search grid — *partial*. Proved on the symmetry planes. On the other planes R and Z are each taken from a maximiser; that it is the same one is not guaranteed since a tie replaces Z only. Stellarator-symmetric runs, exact arithmetic. Theorems in `AxisProps.v`.
* **C78** The re-guessed axis coefficients are the least-squares fit of the plane positions — *proved*. Exact arithmetic; all plane counts, symmetric and asymmetric. Theorems in `AxisProps.v`.
* **C79** The output coefficients describe the computed surfaces — *proved*. Over the reals; the half-grid lambda of the output file is not modelled. Theorems in `HotProps.v`.
* **C80** The Python iteration styles differ only in their reverts — *proved*. Fixed boundary; the forward model must not depend on the backup nor the running minima. Theorems in `PyStyleProps.v`.
* **C81** The analytic singular integrals of the vacuum solver are the integrals they stand for — *partial*. REFUTED of the faithful model (theorem C81_backward_refuted): the downward recurrence starts from zero only a fixed number of orders above the resolution and rescales an inhomogeneous recurrence; for a regular metric at mf = nf = 25 the relative error in exact arithmetic exceeds 1e-6. Proved: the upward branch gives the integrals for all metrics, resolutions and orders (C81_forward_integrals_partial), and the S_l are the integrals whenever the T_l are (C81_double_layer_integrals). Over the reals: rounding is not modelled. Theorems in `SingProps.v`.
* **C82** The expansion coefficients of the singular integrals have their closed form — *proved*. Over the reals. Theorems in `SingProps.v`.
* **C83** The projected singular integrals are the Fourier sums over the whole boundary grid, for every thread count — *proved*. Over the reals (the unrolled sums are re-associated); the T_l, S_l arrays are inputs here and are the subject of C81. Theorems in `SingSumProps.v`.
* **C84** The boundary geometry handed to the vacuum solver is that of the Fourier surface — *proved*. Over the reals. Theorems in `SurfProps.v`.
* **C85** The regularised vacuum kernel is the dipole potential of every image minus its nearest expansion — *proved*. Over the reals; for an axisymmetric grid the expansion is the one with the angle divided by nfp, as coded. Theorems in `RegProps.v`.
* **C86** The matrix and right-hand side of the vacuum problem are the Galerkin system on the whole boundary — *proved*. Over the reals; the thread-local kernel arrays hold the columns of their source points, as proved for the regularised and singular parts in C85 and C83. Theorems in `LapProps.v`.
* **C87** Without stellarator symmetry the vacuum matrix integrates over the whole boundary too — *partial*. REFUTED of the faithful model (theorem C87_sine_rows_refuted): the sine rows are integrated over the half range theta <= pi only. Proved: the cosine rows, the exact half-range value of the sine rows, and that it is the full integral for sine columns under stellarator symmetry. Theorems in `LapProps.v`.
* **C88** The vacuum potential solves the discrete integral equation — *proved*. LAPACK is a premise: the vector solves the assembled system. Theorems in `LapProps.v`.
* **C89** The external field on the boundary is the coil field plus the Biot-Savart field of the closed axis polygon — *proved*. Over the reals; grid point off the filament; the unused ABSCAB branch is not modelled. Theorems in `ExtProps.v`.
* **C90** The vacuum field on the boundary is tangential and its surface average is that of the external field — *proved*. Over the reals; normal of the boundary not zero; every solution vector of the linear solver. Theorems in `NesProps.v`.
* **C91** The toroidal flux profile in the output ends at phiedge — *partial*. REFUTED of the faithful model (theorem C91_edge_refuted): with aphi giving the flux s^2 the last entry of phi is phiedge*(ns-2)/(ns-1). Proved: exact for the uniform profile, and an error bound of first order in 1/(ns-1) for every profile. Theorems in `FluxProps.v`.
* **C92** The poloidal flux profile in the output and its derivative agree — *partial*. REFUTED of the faithful model (theorem C92_sign_refuted): chi is not multiplied by the sign of the Jacobian while chipf and phi are, so chipf is minus the derivative of chi for the sign -1 the program uses. Proved: equality up to that sign, the ratio of the increments, and for a straight-line derivative that the edge value of chipf is the one half a step outside (theorem C92_edge_refuted). Theorems in `FluxProps.v`.
* **C93** The output does not depend on how surfaces are shared between threads — *proved*. For any arithmetic; a read outside the arrays of a thread is a distinct outcome of the model and excluded by the theorem. C93_restored is over the reals. Theorems in `GatherProps.v`.
* **C94** The toroidal covariant field in the output carries the poloidal current of the force balance — *proved*. Exact arithmetic. Theorems in `BsubProps.v`.
* **C95** The filtered covariant field in the output is the projection on the resolved modes — *proved*. Exact arithmetic, both values of lasym. Theorems in `FiltProps.v`.
* **C96** The angular derivatives in the current density are those of the resolved field — *partial*. REFUTED of the faithful model for asymmetric runs (theorems C96_angular_refuted, C96_radial_refuted): the filter stores derivatives in the layout of the reduced poloidal grid and the current density reads them in that of the full grid; the radial component is also decomposed with mixed layouts. Proved for symmetric runs, and for the radial component of asymmetric runs with one toroidal plane. Theorems in `FiltProps.v`.
* **C97** The averaged current density of the output obeys Ampere's law — *proved*. Exact arithmetic, both values of lasym. Theorems in `JxbProps.v`.
* **C98** The surface averages in jxbout are consistent with each other — *proved*. Exact arithmetic. Theorems in `JxbProps.v`.
* **C99** jperp2 is the average of the squared perpendicular current density — *partial*. REFUTED of the faithful model (theorem C99_jperp2_refuted): the toroidal component of J_perp lacks a minus sign, so that the cross term of the metric has the wrong sign. Proved where that term vanishes; C99_jperp2_value gives the column in general, for states in which the two neighbouring half-grid surfaces carry the same field. Theorems in `JxbProps.v`.
* **C100** Every row of the jxbout output is filled — *partial*. REFUTED of the faithful model (theorems C100_extrapolation_refuted for ns = 3, C100_half_grid_refuted for every ns): with three surfaces the axis is extrapolated from the unfilled boundary row; the outermost half-grid surface of bsubu3, bsubv3, jsups3 stays zero. Proved for ns >= 4 and for the other half-grid surfaces. Theorems in `JxbProps.v`.
* **C101** Composition and signs of the Mercier criterion — *proved*. Exact arithmetic. Theorems in `MercProps.v`.
* **C102** Stability and averaged currents do not depend on the direction of the field — *proved*. Exact arithmetic. Theorems in `MercProps.v`.
* **C103** The Mercier integrals are weighted with the inverse squared flux gradient — *proved*. Exact arithmetic. Theorems in `MercProps.v`.
* **C104** The toroidal flux column of the Mercier table is the flux through the surface — *partial*. REFUTED of the faithful model (theorem C104_flux_refuted): the sum runs over full-grid values up to the surface itself and is off by half a step times the change of the flux derivative. Proved where the derivative equals that at the axis. Theorems in `MercProps.v`.
* **C105** The output spectra reproduce the fields at the grid points — *partial*. REFUTED of the faithful model (theorem C105_odd_refuted): with an odd number of toroidal points the coefficients of the highest toroidal mode number are halved although the grid resolves the mode fully. Proved for an even number of toroidal points or a single one, and for fields without that mode; exact arithmetic. Theorems in `NyqProps.v`.
* **C106** The constant coefficient of an output spectrum is the surface average — *proved*. Exact arithmetic. Theorems in `NyqProps.v`.
* **C107** The radial field component on the full grid continues the half grid linearly — *partial*. REFUTED of the faithful model (theorem C107_refuted) for three surfaces, which the input check accepts: the axis is extrapolated from the unfilled boundary and the boundary from the overwritten axis. Proved for at least four surfaces; the statement about the spectra is proved for all. Theorems in `CylProps.v`.
* **C108** Cylindrical field and radial component of the output are consistent with the geometry — *proved*. Exact arithmetic. Theorems in `CylProps.v`.
* **C109** The geometry in the output file is the geometry the solver computed with — *proved*. Exact arithmetic. Theorems in `WoutProps.v`.
* **C110** The stream function in the output file is the one the solver computed with — *partial*. REFUTED of the faithful model in two places: the cosine m = 0 coefficients of an asymmetric run are not extrapolated to the axis (C110_axis_refuted), and on the innermost half surface the m = 0, 1 coefficients are copied from the first surface instead of interpolated (C110_half_refuted). The derivatives on all surfaces off the axis, the sine coefficients on the axis and all other half-grid coefficients are proved; exact arithmetic. Theorems in `WoutProps.v`.
* **C111** The current coefficients in the output file satisfy Ampere's law — *partial*. REFUTED of the faithful model (theorem C111_refuted) for three surfaces, which the input check accepts: the axis is extrapolated from the unfilled boundary column and the boundary from the overwritten axis. Ampere's law and the enclosed current are proved for all numbers of surfaces, the ends for at least four; exact arithmetic. Theorems in `WoutProps.v`.
* **C112** The Python input object and the solver's input carry the same data — *partial*. REFUTED of the faithful model in two places: ns_array and niter_array entries beyond 32 bits wrap silently (C112_refuted_wrap), and an asymmetric input without raxis_s or zaxis_c is accepted but cannot be sent to the solver (C112_refuted_axis). With integers that fit and the asymmetric axis given everything is proved, for any arithmetic. Theorems in `PyInputProps.v`.
* **C113** The reported plasma area, volume and radii are those of the computed boundary — *partial*. Area, radii and circular case proved. The volume is REFUTED of the faithful model (C113_volume_refuted): triple products of the boundary's modes alias on the coarsest accepted grid for 9 or more poloidal modes; exact when 3 (mpol - 1) < number of poloidal points and 3 ntor < number of planes (C113_volume_partial). Theorems in `GeoProps.v`.
* **C114** The energies and betas of the output are the integrals they are named after — *proved*. Theorems in `GeoProps.v`.
* **C115** The reported extents of the plasma bound it — *partial*. REFUTED of the faithful model: without stellarator symmetry the waist reads a point of another surface and Z extents below the midplane are reported as 0 (C115_asymmetric_refuted); axisymmetric runs with several planes write past the end of the waist and height arrays (C115_overrun_refuted). R extents (all runs), field extremes, and waist and height of symmetric runs are proved. Theorems in `GeoProps.v`.
* **C116** The radial profile table is consistent with the profiles it is derived from — *partial*. REFUTED of the faithful model in two places: with three surfaces (accepted) the axis value is written from the still-zero edge entry and the edge from the new axis value, so a constant profile 1 becomes 2, 1, 0, the normalised force is 2 on the axis and the averaged currents divide by zero at the edge (C116_ends_refuted; from four surfaces on C116_ends_partial); the column dV/dPhi has the sign of the Jacobian (-1), i.e. it is negative when volume and reported flux both grow (C116_volume_sign_refuted; C116_flux_derivatives gives the exact relation). Everything else proved. Theorems in `TableProps.v`.
* **C117** The reported cross-section shape numbers describe the computed flux surfaces — *partial*. REFUTED of the faithful model for stellarator-symmetric runs with an odd number of toroidal planes (the plane nZeta/2 is not at half a field period, and where Z(theta=0) < 0 the absolute value makes the elongation too large: C117_odd_planes_refuted) and for asymmetric runs (a circular torus below Z = 0 is reported with elongation >= 9/2: C117_asymmetric_refuted). Proved for symmetric surfaces in every plane with Z(theta=0) >= 0, in particular in the symmetry planes. Theorems in `ShapeProps.v`.
* **C118** Parallel-current measures of the output are ordered and the poloidal flux is an integral — *proved*. Theorems in `ShapeProps.v`.
* **C119** The radial profiles of the output file satisfy the relations between them — *partial*. REFUTED of the faithful model for chi (C119_chi_sign_refuted): the stored poloidal flux lacks the sign of the Jacobian, so it has the opposite sign of the integral of chipf and of iota dphi (exact relation in C119_chi). All other relations proved. Theorems in `WprofProps.v`.
* **C120** The reported energy trace is the relative change of the energy — *partial*. REFUTED of the faithful model (C120_wdot_refuted): the assignment is made in place without a temporary, so from the second evaluated piece on the already overwritten previous entry is subtracted instead of the previous energy; true for the first piece only (C120_first_piece_partial). That Eigen evaluates coefficient-wise assignments piecewise in increasing order without a temporary is an assumption about the library, stated in WprofModel.v. Theorems in `WprofProps.v`.
* **C121** The initial guess fills the plasma between the given axis and the given boundary — *proved*. Theorems in `InitProps.v`.
* **C122** The magnetic axis in the output can be given back as the axis of an input — *proved*. Theorems in `InitProps.v`.
* **C123** |B| in the output is the length of the field — *proved*. Theorems in `ModbProps.v`.
* **C124** The FFT build computes the same transforms as the plain build — *proved*. Refinement: the flat slot buffers, the packing of the half-spectra, the batched call and the accumulation give the arrays of the plain path; the routines are arguments with the contract c2r_ok / r2c_ok of FftSpec.v. Theorems in `FftProps.v`.
* **C125** The vendored FFT routines compute the Fourier transforms that the toroidal transforms ask for — *proved*. FftLang.v gives the language fragment and its semantics (stops on uninitialised reads and out-of-range accesses), FftCodelets.v the 14 translated routines (the seven batch variants of a length differ only in the outer loop bound, which is a parameter), in exact real arithmetic with the decimal literals of the source; verified symbolic execution (FftSim.v, FftBall.v) gives the coefficient of every input in every output. Floating-point rounding is not modelled; the error bound covers the rounded literals and tables. Theorems in `FftCodProps.v`.
* **C126** Saving a wout object and loading it returns the same data — *partial*. Round trip and atomicity proved; REFUTED of the faithful model for runs with more than 21 profile coefficients (theorems C126_all_runs_refuted, C126_long_current_refuted), with the exact loaded value for all lengths (C126_profiles). Modelled at the level of model_dump(by_alias=True): pydantic conversions of integer arrays stored as floats and the fall-backs for files of version 8 and older are not modelled; the netCDF4 library is modelled as described in WncModel.v. Theorems in `WncProps.v`.
* **C127** The FFT build stays within rounding-size distance of the plain build — *proved*. Exact real arithmetic around the routines, whose constants are the truncated decimals of the source; the asymmetric part never uses the FFT and is not touched. Theorems in `FftNearProps.v`.
* **C128** Objects with NumPy fields survive a trip through JSON — *partial*. REFUTED of the faithful model for all accepted values (C128_all_refuted, C128_empty_int_refuted): an accepted float array of shape (0, 2) or integer array of length 0, such as an empty ns_array, is written as [] and cannot be read. Proved for all other arrays, with the restriction shown exact (C128_array); nothing is changed silently (C128_never_wrong) and the text is strict JSON (C128_strict_json). Unions of several types, tuples, sets, nested models and the before-validators are not modelled; NumPy's tolist and array follow its documentation. Theorems in `PydProps.v`.
* **C129** The SIMSOPT wrapper always reports results for the current parameters — *proved*. SIMSOPT's notification of changes, the surface class and the resize of the C++ input are assumed as stated in SimsModel.v; the solver is any function. Assignments to fields of vmec.indata are not among the operations: C129_edit_refuted shows that they leave a stale result. Theorems in `SimsProps.v`.
* **C130** Output files of the SIMSOPT wrapper are named after the input file — *partial*. REFUTED of the faithful model: input.json gives wout_.nc (C130_input_json_refuted), input.w7x and w7x.json share wout_w7x.nc (C130_distinct_refuted), and input_w7x is accepted but has no output name, so that the result of a completed run is lost (C130_saved_refuted). The three naming rules are proved for every foo. Theorems in `SimsProps.v`.
* **C131** Scalar results of the SIMSOPT wrapper use the right radial positions — *proved*. Exact real arithmetic. mean_shear (a NumPy polynomial fit) is not modelled. Theorems in `SimsProps.v`.
* **C132** The Shafranov integrals of the output are dimensionless and consistent — *proved*. Exact arithmetic. The units theorem also holds where a denominator is zero, with Coq's convention for 1/0; the relations assume nonzero radii and poloidal field energy. The values (C132_uniform) are pinned for a uniform poloidal field and pressure at the edge and the positive orientation of the boundary. Theorems in `ShafProps.v`.
* **C133** The external field used by a run is the one its Python object shows — *partial*. REFUTED of the faithful model (theorem C133_refuted): if all three arrays are views of one C++ table, that table is handed over even when the parameters of the Python object were changed since, or when components were exchanged. Proved for programs that assign parameters only to objects whose arrays belong to Python and share arrays only within the same component between objects of equal parameters (C133_table). Slices and reshaped views are not modelled. Theorems in `RtabProps.v`.
* **C134** Output quantities saved to a file and loaded again are the same — *partial*. REFUTED of the faithful model (theorem C134_refuted): if mnmax or mnmax_nyq equals ns the loaded matrices of that size are transposed, extcur of a fixed-boundary run is dropped, and eleven members of wout are not in the file. Proved for all other cases and members (C134_roundtrip). The lists of members are transcribed from the source into HdfData.v; the copy of the input is C135, and a nonempty curlabel (never produced by a run) is excluded because its write is undefined. Theorems in `HdfProps.v`.
* **C135** The input saved with the results and loaded again is the same input — *partial*. REFUTED of the faithful model (theorem C135_refuted): for an asymmetric input the writer calls raxis_s->value() etc., which is the value() of the Eigen array (the coefficient of a 1x1 array), not of the optional; a debug build fails an assertion, a release build stores one number, and reading it as an array is undefined. C135_asymmetric shows this for every asymmetric input. Proved for every symmetric input, with the older files and the refusal of wrong shapes. The meaning of Eigen's value() is taken from its documentation; the source of Eigen is not on this machine. Theorems in `IhdfProps.v`.
* **C136** The command line program keeps the result and its input file and names files after the case — *partial*. REFUTED of the faithful model (theorem C136_refuted): a JSON input whose name neither ends in .json nor starts with input. (for example case.txt) is read and solved, and the result is then lost because the name is parsed only afterwards; a JSON input named wout_x.nc is overwritten by its result. C136_convert_refuted: convert removes every 'input.' in the name and turns a.json into a.json.json. Proved otherwise, and convert never overwrites its source for any name. The temporary JSON file next to a Fortran input is not modelled. Theorems in `CliProps.v`.
* **C137** The status code of the output tells whether and why a run failed — *partial*. REFUTED of the faithful model (theorem C137_refuted): with return_outputs_even_if_not_converged, a run that used up its iterations has ier_flag 0 like a converged run. C137_reason_refuted: the text for flag 0, hence of every converged run, says that convergence was not reached, and an unrecoverable error of the solver is reported as an input parsing error. Proved: nonzero flags identify the failure, a converged run always has flag 0, without the request flag 0 means convergence, and the log entry is right. Theorems in `FlagProps.v`.
* **C138** Fortran and JSON inputs are told apart by their content — *partial*. REFUTED of the faithful model (theorem C138_refuted): a Fortran file that opens with &indata in lower case, or with an item on the line of &INDATA, both valid namelists, is taken for JSON. C138_fortran gives the exact set of recognised texts; C138_json holds in full. White space is that of ASCII. Theorems in `DetectProps.v`.
