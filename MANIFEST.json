{
 "claims": [
  {
   "property": "C01",
   "status": "proved",
   "theorems": [
    "C01_radial_work_sharing"
   ],
   "note": "All ns, thread counts, thread ids, both boundary modes."
  },
  {
   "property": "C02",
   "status": "proved",
   "theorems": [
    "C02_thread_budget_never_refused"
   ],
   "note": ""
  },
  {
   "property": "C03",
   "status": "proved",
   "theorems": [
    "C03_vacuum_work_sharing"
   ],
   "note": ""
  },
  {
   "property": "C04",
   "status": "proved",
   "theorems": [
    "C04_preconditioner_thread_independent"
   ],
   "note": "Any arithmetic, any partition accepted, any execution order between barriers, any stale shared storage."
  },
  {
   "property": "C05",
   "status": "proved",
   "theorems": [
    "C05_tridiagonal_solve",
    "C05_diagonally_dominant"
   ],
   "note": "Exact arithmetic; non-zero pivots as hypothesis, implied by diagonal dominance."
  },
  {
   "property": "C06",
   "status": "proved",
   "theorems": [
    "C06_forces_thread_independent",
    "C06_single_thread_owns_all"
   ],
   "note": "Whole real-space chain (Jacobian, metric, volume derivative, contravariant/covariant field, pressure, radial force balance, lambda force, MHD force) per thread; bit-for-bit equal between any two threads of any two distributions, for every arithmetic."
  },
  {
   "property": "C07",
   "status": "proved",
   "theorems": [
    "C07_lambda_averages",
    "C07_preconditioner_thread_independent"
   ],
   "note": "In-place averaging after any history of updates; at the outermost surface the value is the average of the last half-grid value and zero (this is what the code does)."
  },
  {
   "property": "C08",
   "status": "proved",
   "theorems": [
    "C08_half_grid_sums",
    "C08_half_grid_surface_sums",
    "C08_force_residual_sums",
    "C08_magnetic_energy",
    "C08_accumulation_completes"
   ],
   "note": "Exact arithmetic (Coq Reals); every interleaving of the OpenMP single/critical/barrier protocol. Magnetic energy takes |.| per thread, so equality needs equal signs: stated as hypothesis."
  },
  {
   "property": "C09",
   "status": "partial",
   "theorems": [
    "C09_reproducible_refuted",
    "C09_reproducible_two_threads"
   ],
   "note": "REFUTED of the faithful model for 3 or more threads (C09_reproducible_refuted gives two interleavings of 3 threads with different IEEE double sums); holds for 1 and 2 threads (C09_reproducible_two_threads)."
  },
  {
   "property": "C10",
   "status": "proved",
   "theorems": [
    "C10_stage_terminates"
   ],
   "note": "At most 4*niter force evaluations per stage; any arithmetic, any oracle."
  },
  {
   "property": "C100",
   "status": "partial",
   "theorems": [
    "C100_extrapolation_partial",
    "C100_izeta_partial",
    "C100_extrapolation_refuted",
    "C100_half_grid_partial",
    "C100_half_grid_refuted"
   ],
   "note": "REFUTED of the faithful model (theorems C100_extrapolation_refuted for ns = 3, C100_half_grid_refuted for every ns): with three surfaces the axis is extrapolated from the unfilled boundary row; the outermost half-grid surface of bsubu3, bsubv3, jsups3 stays zero. Proved for ns >= 4 and for the other half-grid surfaces"
  },
  {
   "property": "C101",
   "status": "proved",
   "theorems": [
    "C101_sum",
    "C101_shear",
    "C101_geodesic"
   ],
   "note": "exact arithmetic"
  },
  {
   "property": "C102",
   "status": "proved",
   "theorems": [
    "C102_reverse_jxb",
    "C102_reverse_mercier"
   ],
   "note": "exact arithmetic"
  },
  {
   "property": "C103",
   "status": "proved",
   "theorems": [
    "C103_weight"
   ],
   "note": "exact arithmetic"
  },
  {
   "property": "C104",
   "status": "partial",
   "theorems": [
    "C104_flux_value",
    "C104_flux_partial",
    "C104_flux_refuted"
   ],
   "note": "REFUTED of the faithful model (theorem C104_flux_refuted): the sum runs over full-grid values up to the surface itself and is off by half a step times the change of the flux derivative. Proved where the derivative equals that at the axis"
  },
  {
   "property": "C105",
   "status": "partial",
   "theorems": [
    "C105_angular_partial",
    "C105_radial_partial",
    "C105_odd_refuted"
   ],
   "note": "REFUTED of the faithful model (theorem C105_odd_refuted): with an odd number of toroidal points the coefficients of the highest toroidal mode number are halved although the grid resolves the mode fully. Proved for an even number of toroidal points or a single one, and for fields without that mode; exact arithmetic"
  },
  {
   "property": "C106",
   "status": "proved",
   "theorems": [
    "C106_average"
   ],
   "note": "exact arithmetic"
  },
  {
   "property": "C107",
   "status": "partial",
   "theorems": [
    "C107_linear_partial",
    "C107_spectrum",
    "C107_refuted"
   ],
   "note": "REFUTED of the faithful model (theorem C107_refuted) for three surfaces, which the input check accepts: the axis is extrapolated from the unfilled boundary and the boundary from the overwritten axis. Proved for at least four surfaces; the statement about the spectra is proved for all"
  },
  {
   "property": "C108",
   "status": "proved",
   "theorems": [
    "C108_geometry",
    "C108_field"
   ],
   "note": "exact arithmetic"
  },
  {
   "property": "C109",
   "status": "proved",
   "theorems": [
    "C109_surface",
    "C109_axis",
    "C109_count"
   ],
   "note": "exact arithmetic"
  },
  {
   "property": "C11",
   "status": "partial",
   "theorems": [
    "C11_convergence_is_genuine",
    "C11_geometry_held_partial",
    "C11_geometry_held_refuted"
   ],
   "note": "Residual part proved for every arithmetic, oracle and style. Geometry part REFUTED of the faithful model in general (C11_geometry_held_refuted: vacuum soft start, PARVMEC stale fsq, loose ftol); C11_geometry_held_partial proves it for IEEE doubles, VMEC 8.52 style, ftol<=1/200, fixed boundary or no soft start."
  },
  {
   "property": "C110",
   "status": "partial",
   "theorems": [
    "C110_lambda",
    "C110_axis_partial",
    "C110_axis_refuted",
    "C110_half_partial",
    "C110_half_refuted"
   ],
   "note": "REFUTED of the faithful model in two places: the cosine m = 0 coefficients of an asymmetric run are not extrapolated to the axis (C110_axis_refuted), and on the innermost half surface the m = 0, 1 coefficients are copied from the first surface instead of interpolated (C110_half_refuted). The derivatives on all surfaces off the axis, the sine coefficients on the axis and all other half-grid coefficients are proved; exact arithmetic"
  },
  {
   "property": "C111",
   "status": "partial",
   "theorems": [
    "C111_ampere",
    "C111_enclosed",
    "C111_ends_partial",
    "C111_refuted"
   ],
   "note": "REFUTED of the faithful model (theorem C111_refuted) for three surfaces, which the input check accepts: the axis is extrapolated from the unfilled boundary column and the boundary from the overwritten axis. Ampere's law and the enclosed current are proved for all numbers of surfaces, the ends for at least four; exact arithmetic"
  },
  {
   "property": "C112",
   "status": "partial",
   "theorems": [
    "C112_validated",
    "C112_to_solver_partial",
    "C112_accepted_partial",
    "C112_from_solver",
    "C112_round_trip",
    "C112_defaults",
    "C112_refuted_wrap",
    "C112_refuted_axis"
   ],
   "note": "REFUTED of the faithful model in two places: ns_array and niter_array entries beyond 32 bits wrap silently (C112_refuted_wrap), and an asymmetric input without raxis_s or zaxis_c is accepted but cannot be sent to the solver (C112_refuted_axis). With integers that fit and the asymmetric axis given everything is proved, for any arithmetic"
  },
  {
   "property": "C113",
   "status": "partial",
   "theorems": [
    "C113_area",
    "C113_volume_partial",
    "C113_volume_refuted",
    "C113_radii",
    "C113_circular"
   ],
   "note": "Area, radii and circular case proved. The volume is REFUTED of the faithful model (C113_volume_refuted): triple products of the boundary's modes alias on the coarsest accepted grid for 9 or more poloidal modes; exact when 3 (mpol - 1) < number of poloidal points and 3 ntor < number of planes (C113_volume_partial)"
  },
  {
   "property": "C114",
   "status": "proved",
   "theorems": [
    "C114_energies",
    "C114_betas",
    "C114_profiles",
    "C114_flux"
   ],
   "note": ""
  },
  {
   "property": "C115",
   "status": "partial",
   "theorems": [
    "C115_R_extremes",
    "C115_planes",
    "C115_B_extremes",
    "C115_asymmetric_refuted",
    "C115_overrun_refuted"
   ],
   "note": "REFUTED of the faithful model: without stellarator symmetry the waist reads a point of another surface and Z extents below the midplane are reported as 0 (C115_asymmetric_refuted); axisymmetric runs with several planes write past the end of the waist and height arrays (C115_overrun_refuted). R extents (all runs), field extremes, and waist and height of symmetric runs are proved"
  },
  {
   "property": "C116",
   "status": "partial",
   "theorems": [
    "C116_radial_force",
    "C116_ends_partial",
    "C116_ends_refuted",
    "C116_affine",
    "C116_fluxes",
    "C116_currents",
    "C116_flux_derivatives",
    "C116_volume_sign_refuted"
   ],
   "note": "REFUTED of the faithful model in two places: with three surfaces (accepted) the axis value is written from the still-zero edge entry and the edge from the new axis value, so a constant profile 1 becomes 2, 1, 0, the normalised force is 2 on the axis and the averaged currents divide by zero at the edge (C116_ends_refuted; from four surfaces on C116_ends_partial); the column dV/dPhi has the sign of the Jacobian (-1), i.e. it is negative when volume and reported flux both grow (C116_volume_sign_refuted; C116_flux_derivatives gives the exact relation). Everything else proved"
  },
  {
   "property": "C117",
   "status": "partial",
   "theorems": [
    "C117_section_partial",
    "C117_symmetry_planes",
    "C117_arrays",
    "C117_odd_planes_refuted",
    "C117_asymmetric_refuted"
   ],
   "note": "REFUTED of the faithful model for stellarator-symmetric runs with an odd number of toroidal planes (the plane nZeta/2 is not at half a field period, and where Z(theta=0) < 0 the absolute value makes the elongation too large: C117_odd_planes_refuted) and for asymmetric runs (a circular torus below Z = 0 is reported with elongation >= 9/2: C117_asymmetric_refuted). Proved for symmetric surfaces in every plane with Z(theta=0) >= 0, in particular in the symmetry planes"
  },
  {
   "property": "C118",
   "status": "proved",
   "theorems": [
    "C118_pfirsch_schlueter",
    "C118_ends",
    "C118_averages",
    "C118_psi"
   ],
   "note": ""
  },
  {
   "property": "C119",
   "status": "partial",
   "theorems": [
    "C119_half_grid",
    "C119_q",
    "C119_ampere",
    "C119_presf",
    "C119_force",
    "C119_chi",
    "C119_chi_sign_refuted"
   ],
   "note": "REFUTED of the faithful model for chi (C119_chi_sign_refuted): the stored poloidal flux lacks the sign of the Jacobian, so it has the opposite sign of the integral of chipf and of iota dphi (exact relation in C119_chi). All other relations proved"
  },
  {
   "property": "C12",
   "status": "proved",
   "theorems": [
    "C12_rollbacks_and_time_steps",
    "C12_rollbacks_any_arithmetic"
   ],
   "note": "Every history of a stage; any oracle."
  },
  {
   "property": "C120",
   "status": "partial",
   "theorems": [
    "C120_first_piece_partial",
    "C120_wdot_refuted",
    "C120_second_piece"
   ],
   "note": "REFUTED of the faithful model (C120_wdot_refuted): the assignment is made in place without a temporary, so from the second evaluated piece on the already overwritten previous entry is subtracted instead of the previous energy; true for the first piece only (C120_first_piece_partial). That Eigen evaluates coefficient-wise assignments piecewise in increasing order without a temporary is an assumption about the library, stated in WprofModel.v"
  },
  {
   "property": "C121",
   "status": "proved",
   "theorems": [
    "C121_guess",
    "C121_boundary",
    "C121_lambda"
   ],
   "note": ""
  },
  {
   "property": "C122",
   "status": "proved",
   "theorems": [
    "C122_arrays",
    "C122_curve",
    "C122_round_trip"
   ],
   "note": ""
  },
  {
   "property": "C123",
   "status": "proved",
   "theorems": [
    "C123_modB"
   ],
   "note": ""
  },
  {
   "property": "C124",
   "status": "proved",
   "theorems": [
    "C124_geometry",
    "C124_forces"
   ],
   "note": "Refinement: the flat slot buffers, the packing of the half-spectra, the batched call and the accumulation give the arrays of the plain path; the routines are arguments with the contract c2r_ok / r2c_ok of FftSpec.v."
  },
  {
   "property": "C125",
   "status": "proved",
   "theorems": [
    "C125_routines",
    "C125_coverage"
   ],
   "note": "FftLang.v gives the language fragment and its semantics (stops on uninitialised reads and out-of-range accesses), FftCodelets.v the 14 translated routines (the seven batch variants of a length differ only in the outer loop bound, which is a parameter), in exact real arithmetic with the decimal literals of the source; verified symbolic execution (FftSim.v, FftBall.v) gives the coefficient of every input in every output. Floating-point rounding is not modelled; the error bound covers the rounded literals and tables."
  },
  {
   "property": "C126",
   "status": "partial",
   "theorems": [
    "C126_round_trip",
    "C126_profiles",
    "C126_all_runs_refuted",
    "C126_long_current_refuted",
    "C126_atomic",
    "C126_case"
   ],
   "note": "Round trip and atomicity proved; REFUTED of the faithful model for runs with more than 21 profile coefficients (theorems C126_all_runs_refuted, C126_long_current_refuted), with the exact loaded value for all lengths (C126_profiles). Modelled at the level of model_dump(by_alias=True): pydantic conversions of integer arrays stored as floats and the fall-backs for files of version 8 and older are not modelled; the netCDF4 library is modelled as described in WncModel.v."
  },
  {
   "property": "C127",
   "status": "proved",
   "theorems": [
    "C127_routines",
    "C127_geometry",
    "C127_constraint",
    "C127_forces",
    "C127_vendored",
    "C127_case"
   ],
   "note": "Exact real arithmetic around the routines, whose constants are the truncated decimals of the source; the asymmetric part never uses the FFT and is not touched."
  },
  {
   "property": "C128",
   "status": "partial",
   "theorems": [
    "C128_round_trip",
    "C128_array",
    "C128_never_wrong",
    "C128_strict_json",
    "C128_all_refuted",
    "C128_empty_int_refuted",
    "C128_case"
   ],
   "note": "REFUTED of the faithful model for all accepted values (C128_all_refuted, C128_empty_int_refuted): an accepted float array of shape (0, 2) or integer array of length 0, such as an empty ns_array, is written as [] and cannot be read. Proved for all other arrays, with the restriction shown exact (C128_array); nothing is changed silently (C128_never_wrong) and the text is strict JSON (C128_strict_json). Unions of several types, tuples, sets, nested models and the before-validators are not modelled; NumPy's tolist and array follow its documentation."
  },
  {
   "property": "C129",
   "status": "proved",
   "theorems": [
    "C129_current",
    "C129_input_written",
    "C129_no_rerun",
    "C129_hot_restart",
    "C129_last_step",
    "C129_wout_object",
    "C129_edit_refuted",
    "C129_case"
   ],
   "note": "SIMSOPT's notification of changes, the surface class and the resize of the C++ input are assumed as stated in SimsModel.v; the solver is any function. Assignments to fields of vmec.indata are not among the operations: C129_edit_refuted shows that they leave a stale result."
  },
  {
   "property": "C13",
   "status": "proved",
   "theorems": [
    "C13_run_outcome"
   ],
   "note": "Every accepted schedule, every forward-model behaviour and prior object state."
  },
  {
   "property": "C130",
   "status": "partial",
   "theorems": [
    "C130_both",
    "C130_json",
    "C130_input",
    "C130_input_json_refuted",
    "C130_distinct_refuted",
    "C130_saved_refuted"
   ],
   "note": "REFUTED of the faithful model: input.json gives wout_.nc (C130_input_json_refuted), input.w7x and w7x.json share wout_w7x.nc (C130_distinct_refuted), and input_w7x is accepted but has no output name, so that the result of a completed run is lost (C130_saved_refuted). The three naming rules are proved for every foo."
  },
  {
   "property": "C131",
   "status": "proved",
   "theorems": [
    "C131_grids",
    "C131_mean_iota",
    "C131_vacuum_well",
    "C131_external_current",
    "C131_case"
   ],
   "note": "Exact real arithmetic. mean_shear (a NumPy polynomial fit) is not modelled."
  },
  {
   "property": "C132",
   "status": "proved",
   "theorems": [
    "C132_units",
    "C132_relations",
    "C132_vacuum_order",
    "C132_case",
    "C132_uniform",
    "C132_uniform_case"
   ],
   "note": "Exact arithmetic. The units theorem also holds where a denominator is zero, with Coq's convention for 1/0; the relations assume nonzero radii and poloidal field energy. The values (C132_uniform) are pinned for a uniform poloidal field and pressure at the edge and the positive orientation of the boundary."
  },
  {
   "property": "C133",
   "status": "partial",
   "theorems": [
    "C133_parameters",
    "C133_table",
    "C133_copy",
    "C133_refuted",
    "C133_case"
   ],
   "note": "REFUTED of the faithful model (theorem C133_refuted): if all three arrays are views of one C++ table, that table is handed over even when the parameters of the Python object were changed since, or when components were exchanged. Proved for programs that assign parameters only to objects whose arrays belong to Python and share arrays only within the same component between objects of equal parameters (C133_table). Slices and reshaped views are not modelled."
  },
  {
   "property": "C134",
   "status": "partial",
   "theorems": [
    "C134_roundtrip",
    "C134_refuted",
    "C134_case"
   ],
   "note": "REFUTED of the faithful model (theorem C134_refuted): if mnmax or mnmax_nyq equals ns the loaded matrices of that size are transposed, extcur of a fixed-boundary run is dropped, and eleven members of wout are not in the file. Proved for all other cases and members (C134_roundtrip). The lists of members are transcribed from the source into HdfData.v; the copy of the input is C135, and a nonempty curlabel (never produced by a run) is excluded because its write is undefined."
  },
  {
   "property": "C135",
   "status": "partial",
   "theorems": [
    "C135_symmetric",
    "C135_older",
    "C135_shape",
    "C135_asymmetric",
    "C135_refuted",
    "C135_case"
   ],
   "note": "REFUTED of the faithful model (theorem C135_refuted): for an asymmetric input the writer calls raxis_s->value() etc., which is the value() of the Eigen array (the coefficient of a 1x1 array), not of the optional; a debug build fails an assertion, a release build stores one number, and reading it as an array is undefined. C135_asymmetric shows this for every asymmetric input. Proved for every symmetric input, with the older files and the refusal of wrong shapes. The meaning of Eigen's value() is taken from its documentation; the source of Eigen is not on this machine."
  },
  {
   "property": "C136",
   "status": "partial",
   "theorems": [
    "C136_names",
    "C136_keeps_input",
    "C136_refuted",
    "C136_indata",
    "C136_convert_keeps",
    "C136_convert",
    "C136_convert_refuted",
    "C136_case"
   ],
   "note": "REFUTED of the faithful model (theorem C136_refuted): a JSON input whose name neither ends in .json nor starts with input. (for example case.txt) is read and solved, and the result is then lost because the name is parsed only afterwards; a JSON input named wout_x.nc is overwritten by its result. C136_convert_refuted: convert removes every 'input.' in the name and turns a.json into a.json.json. Proved otherwise, and convert never overwrites its source for any name. The temporary JSON file next to a Fortran input is not modelled."
  },
  {
   "property": "C137",
   "status": "partial",
   "theorems": [
    "C137_flag",
    "C137_kinds",
    "C137_refuted",
    "C137_reason_refuted",
    "C137_case"
   ],
   "note": "REFUTED of the faithful model (theorem C137_refuted): with return_outputs_even_if_not_converged, a run that used up its iterations has ier_flag 0 like a converged run. C137_reason_refuted: the text for flag 0, hence of every converged run, says that convergence was not reached, and an unrecoverable error of the solver is reported as an input parsing error. Proved: nonzero flags identify the failure, a converged run always has flag 0, without the request flag 0 means convergence, and the log entry is right."
  },
  {
   "property": "C138",
   "status": "partial",
   "theorems": [
    "C138_fortran",
    "C138_json",
    "C138_refuted",
    "C138_case"
   ],
   "note": "REFUTED of the faithful model (theorem C138_refuted): a Fortran file that opens with &indata in lower case, or with an item on the line of &INDATA, both valid namelists, is taken for JSON. C138_fortran gives the exact set of recognised texts; C138_json holds in full. White space is that of ASCII."
  },
  {
   "property": "C14",
   "status": "partial",
   "theorems": [
    "C14_retry_refuted",
    "C14_no_inserted_stage"
   ],
   "note": "REFUTED of the faithful model: the ns=3 stage is dead code. C14_no_inserted_stage: for all inputs only stages of the user's ns_array are ever run."
  },
  {
   "property": "C15",
   "status": "partial",
   "theorems": [
    "C15_lambda_scale_refuted",
    "C15_lambda_scale_partial",
    "C15_lambda_scale_positive_partial"
   ],
   "note": "REFUTED of the faithful model for repeated ns (lambda scale 0). C15_lambda_scale_partial characterises the scale of every stage of every non-decreasing schedule exactly; positive for strictly increasing schedules."
  },
  {
   "property": "C16",
   "status": "partial",
   "theorems": [
    "C16_vacuum_coupling_partial",
    "C16_vacuum_coupling_doubles_partial",
    "C16_full_solve_after_restart_refuted",
    "C16_active_start_refuted"
   ],
   "note": "Order of the states, solve-before-use, interval bounds and full update after a roll-back that repeats the iteration number: proved for exact arithmetic and IEEE doubles. 'Full solve after every restart' is REFUTED (soft-start roll-back), and solve-before-use is REFUTED for a stage that starts with active coupling."
  },
  {
   "property": "C17",
   "status": "partial",
   "theorems": [
    "C17_same_run_partial",
    "C17_8_52_refuted",
    "C17_parvmec_refuted",
    "C17_velocity_refuted"
   ],
   "note": "REFUTED of the faithful model: (8.52) a bad Jacobian after more than ten improving iterations is rolled back inside the C++ save branch without being counted, the Python driver counts it and saves at different iterations afterwards (C17_8_52_refuted); (parvmec) the Python driver ignores bad Jacobians in the course of a run, the C++ driver rolls back and fails (C17_parvmec_refuted); with huge initial forces the C++ driver keeps the velocity through the axis re-guess, the Python driver zeroes it (C17_velocity_refuted). Proved: for fixed-boundary runs avoiding these situations (predicate tame) both drivers make the same evaluations, steps, saves and roll-backs with the same time steps and reach the same verdict (C17_same_run_partial). Missing: free boundary."
  },
  {
   "property": "C18",
   "status": "proved",
   "theorems": [
    "C18_surface",
    "C18_symmetric"
   ],
   "note": "Exact arithmetic; mpol >= 2; arrays up to the m=1 rotation, which is undone with factor 1 exactly as the solver does."
  },
  {
   "property": "C19",
   "status": "proved",
   "theorems": [
    "C19_shift",
    "C19_no_repeat"
   ],
   "note": "Exact arithmetic; atan2 defined on the reals (ISO C, sign of zero not represented)."
  },
  {
   "property": "C20",
   "status": "proved",
   "theorems": [
    "C20_flip",
    "C20_orientation"
   ],
   "note": "Exact arithmetic."
  },
  {
   "property": "C21",
   "status": "proved",
   "theorems": [
    "C21_cos_round_trip",
    "C21_sin_round_trip",
    "C21_series"
   ],
   "note": "Exact arithmetic; both storage layouts; also used with the Nyquist sizes."
  },
  {
   "property": "C22",
   "status": "proved",
   "theorems": [
    "C22_boundary",
    "C22_surfaces"
   ],
   "note": "Exact arithmetic."
  },
  {
   "property": "C23",
   "status": "proved",
   "theorems": [
    "C23_mode_tables",
    "C23_nyquist"
   ],
   "note": ""
  },
  {
   "property": "C24",
   "status": "proved",
   "theorems": [
    "C24_sizes"
   ],
   "note": "int as Z (no overflow); quadrature weights in exact arithmetic."
  },
  {
   "property": "C25",
   "status": "proved",
   "theorems": [
    "C25_round_trip",
    "C25_orthonormal"
   ],
   "note": "Exact arithmetic; R and Z coefficients; coefficients of identically vanishing basis functions come back as zero."
  },
  {
   "property": "C26",
   "status": "proved",
   "theorems": [
    "C26_geometry",
    "C26_forces"
   ],
   "note": "Exact arithmetic."
  },
  {
   "property": "C27",
   "status": "partial",
   "theorems": [
    "C27_single_thread_exact_partial",
    "C27_reported_iff_sign_change_in_a_thread",
    "C27_binary64_moderate_partial",
    "C27_underflow_refuted",
    "C27_overflow_refuted",
    "C27_nan_not_reported"
   ],
   "note": "REFUTED of the faithful model in IEEE arithmetic (theorems C27_underflow_refuted, C27_overflow_refuted; NaN can go unreported). Proved: exact arithmetic for all geometries and partitions; binary64 when every Jacobian value is zero or between 2^-511 and 2^511 in magnitude."
  },
  {
   "property": "C28",
   "status": "partial",
   "theorems": [
    "C28_verdict_thread_independent_partial",
    "C28_thread_boundary_refuted",
    "C27_reported_iff_sign_change_in_a_thread"
   ],
   "note": "REFUTED of the faithful model (C28_thread_boundary_refuted): Jacobian 1,0,-1 on consecutive half-grid surfaces, two threads sharing the zero one. Proved under the proviso that no shared half-grid surface has an identically vanishing Jacobian."
  },
  {
   "property": "C29",
   "status": "proved",
   "theorems": [
    "C29_power_series",
    "C29_power_series_i",
    "C29_current",
    "C29_flux_derivative",
    "C29_entry_points"
   ],
   "note": "Exact arithmetic."
  },
  {
   "property": "C30",
   "status": "proved",
   "theorems": [
    "C30_edge_flux"
   ],
   "note": "Exact arithmetic; non-zero sum of aphi."
  },
  {
   "property": "C31",
   "status": "proved",
   "theorems": [
    "C31_akima",
    "C31_cubic"
   ],
   "note": "Exact arithmetic; at least four strictly increasing knots."
  },
  {
   "property": "C32",
   "status": "partial",
   "theorems": [
    "C32_line_segment_refuted",
    "C32_integrated_refuted",
    "C32_actual_value",
    "C32_at_knots_partial"
   ],
   "note": "REFUTED of the faithful model (C32_line_segment_refuted, C32_integrated_refuted): the code evaluates the chord of the following segment (C32_actual_value) and the integrated variant reads out of range beyond the last knot. At the knots it is right (C32_at_knots_partial)."
  },
  {
   "property": "C33",
   "status": "partial",
   "theorems": [
    "C33_sum_atan_refuted",
    "C33_continuous_partial"
   ],
   "note": "REFUTED of the faithful model for sum_atan (C33_sum_atan_refuted, every non-trivial single-term coefficient set); all other analytic types are continuous (C33_continuous_partial)."
  },
  {
   "property": "C34",
   "status": "partial",
   "theorems": [
    "C34_bad_type_refuted",
    "C34_lookup",
    "C34_unimplemented_refuted"
   ],
   "note": "REFUTED of the faithful model (C34_bad_type_refuted): unknown names give a zero profile; C34_lookup characterises exactly which names are usable."
  },
  {
   "property": "C35",
   "status": "partial",
   "theorems": [
    "C35_refuted_short_list",
    "C35_refuted_nan",
    "C35_refuted_unset",
    "C35_no_bad_read_partial",
    "C35_accepts_exactly_partial"
   ],
   "note": "REFUTED of the faithful model: short ftol_array/niter_array are read past their end, NaN controls are accepted, unset asymmetric arrays are dereferenced. The _partial theorems: no bad read (any arithmetic) when the lists are long enough and the asymmetric arrays set; then (exact arithmetic) acceptance is equivalent to all controls being in range and all sizes right."
  },
  {
   "property": "C36",
   "status": "partial",
   "theorems": [
    "C36_refuted",
    "C36_entries_partial",
    "C36_boundary_from_json",
    "C36_stand_alone_reader"
   ],
   "note": "REFUTED of the faithful model (C36_refuted): an entry with m = -1 is written outside the array. Everything else holds in any arithmetic: entries with m >= 0 are stored in range, last wins, outside ignored; the stand-alone reader BoundaryFromJson is right for all entries."
  },
  {
   "property": "C37",
   "status": "partial",
   "theorems": [
    "C37_refuted",
    "C37_exact_in_range_partial",
    "C37_large_refused_partial",
    "C37_lists_exact_in_range_partial"
   ],
   "note": "REFUTED of the faithful model (C37_refuted): nfp = 4294967301 is read as 5. Literals in the 32-bit range are exact, literals beyond 64 bits are refused, others are reduced modulo 2^32."
  },
  {
   "property": "C38",
   "status": "proved",
   "theorems": [
    "C38_roundtrip",
    "C38_sparse_list",
    "C38_resize",
    "C38_resize_back",
    "C38_constructor",
    "C38_axis",
    "C38_strict"
   ],
   "note": "Any arithmetic with a decidable zero (the zeros of the array are the carrier's 0). Python reader and writer of the sparse lists, the padding and cutting done on construction, and the axis arrays."
  },
  {
   "property": "C39",
   "status": "partial",
   "theorems": [
    "C39_keeps_settings_partial",
    "C39_keeps_what_it_converts_partial",
    "C39_refuted_axis",
    "C39_refuted",
    "C39_refuted_schedule"
   ],
   "note": "REFUTED of the faithful model: the initial axis is never written (C39_refuted_axis: the writer looks up keys that no VMEC++ file has), a string with a quote is not escaped (C39_refuted), a resolution schedule is written as a Python list (C39_refuted_schedule). Proved: every other setting and every boundary coefficient is written and is read back as the same value, for strings without quotes and scalar resolutions."
  },
  {
   "property": "C40",
   "status": "proved",
   "theorems": [
    "C40_reads_in_range",
    "C40_reads_own_plane",
    "C40_call",
    "C40_value_at_nodes",
    "C40_bilinear_exact",
    "C40_outside_nearest"
   ],
   "note": "Reads in range and plane selection for IEEE doubles (every double position, also NaN and infinities; finite grid bounds with extent at least 2^-900). Values in exact arithmetic."
  },
  {
   "property": "C41",
   "status": "proved",
   "theorems": [
    "C41_superposition",
    "C41_linear",
    "C41_loading_replaces",
    "C41_loading_file_replaces",
    "C41_file_like_table"
   ],
   "note": "Superposition, replacement and file/table agreement in any arithmetic, linearity in exact arithmetic. Reading of the NetCDF file is not modelled: a file is its scalars and arrays, each of which may be unreadable."
  },
  {
   "property": "C42",
   "status": "partial",
   "theorems": [
    "C42_filled_from_computed_points",
    "C42_equals_full_table_partial",
    "C42_asymmetric_z_refuted"
   ],
   "note": "Completely filled, each mirrored entry from a computed one: any arithmetic, any order of the parallel loops. Equality with the full table is REFUTED (C42_asymmetric_z_refuted) for z grids not symmetric about 0, which the parameter check accepts, and proved (exact arithmetic) for symmetric ones."
  },
  {
   "property": "C43",
   "status": "partial",
   "theorems": [
    "C43_thread_independent",
    "C43_reads_only_coarse_surfaces",
    "C43_boundary_unchanged",
    "C43_coincident_surfaces",
    "C43_axis_odd_zero",
    "C43_cubic_boundary_rounding_refuted"
   ],
   "note": "All three interpolation schemes, all partitions. Reads in range, axis zero and thread independence hold in any arithmetic; boundary and coincident surfaces are reproduced in exact arithmetic. 'Exactly unchanged' is REFUTED in binary64 for the cubic schemes (C43_cubic_boundary_rounding_refuted, 50 -> 99 surfaces)."
  },
  {
   "property": "C44",
   "status": "proved",
   "theorems": [
    "C44_step_synchronises_copies",
    "C44_copies_agree_after_any_history",
    "C44_team_follows_single_history",
    "C44_team_can_finish"
   ],
   "note": "Team of threads with barriers, every schedule (race freedom proved, then determinism), abstract arithmetic. Also: any number of threads follows the same single-thread history, and the exchange cannot deadlock. Phase bodies of one thread are atomic instructions of the team model."
  },
  {
   "property": "C45",
   "status": "partial",
   "theorems": [
    "C45_threads_in_step_partial",
    "C45_threads_in_step_if_agreed_partial",
    "C45_no_thread_leaves_alone_refuted"
   ],
   "note": "REFUTED of the faithful model (theorem C45_no_thread_leaves_alone_refuted): an error of constraintForceMultiplier is local to a thread, which then leaves the region while the others wait in the force evaluation. The two _partial theorems: for every schedule, number of threads, setting and outcome of the computations, all threads pass the same barriers and leave with the same status, whenever no surface is degenerate (resp. the threads agree on that error). Model: every barrier, single region and branch of the parallel region (RegionModel.v) on the team language of TeamModel.v."
  },
  {
   "property": "C46",
   "status": "proved",
   "theorems": [
    "C46_atomic",
    "C46_open_file_stable",
    "C46_other_files",
    "C46_success",
    "C46_h5_refused",
    "C46_others_tried"
   ],
   "note": "For any number of concurrent savers, any interleaving, failures of every file-system call and kills at any point. mkstemp is assumed to return a name that is not in use (its contract); os.replace to be atomic."
  },
  {
   "property": "C47",
   "status": "proved",
   "theorems": [
    "C47_interrupt_honoured"
   ],
   "note": "Any arithmetic, any oracle, restarts included."
  },
  {
   "property": "C48",
   "status": "proved",
   "theorems": [
    "C48_prescribed_current"
   ],
   "note": "Exact arithmetic, on top of the kernel model of C06; surfaces with vanishing average of g_uu/sqrt(g) keep the old chi' (hypothesis of the theorem)."
  },
  {
   "property": "C49",
   "status": "partial",
   "theorems": [
    "C49_inner_partial",
    "C49_axis_partial",
    "C49_boundary_partial",
    "C49_asymmetric_refuted"
   ],
   "note": "REFUTED of the faithful model without stellarator symmetry (C49_asymmetric_refuted: the asymmetric coefficients are all restored as 0). Proved for the stellarator-symmetric coefficients: inner surfaces, lambda on the boundary and (free boundary) R, Z on the boundary exactly, over the reals; on the axis the exact list of dropped terms; in fixed-boundary mode the boundary is that of the new input. Missing: rounding; the interpolation of lambda to the half grid (the restart uses lmns_full)."
  },
  {
   "property": "C50",
   "status": "proved",
   "theorems": [
    "C50_identity",
    "C50_common_modes",
    "C50_axis_odd",
    "C50_result_complete"
   ],
   "note": "Identity at unchanged resolution and the zero of odd modes on the axis in any arithmetic; the rest in exact arithmetic, for solutions with at least two surfaces. NumPy's linspace, sqrt and interp are modelled after their documented algorithms."
  },
  {
   "property": "C51",
   "status": "partial",
   "theorems": [
    "C51_planes_partial",
    "C51_axis_partial",
    "C51_axisymmetric_partial",
    "C51_refuted",
    "C51_asymmetric_refuted"
   ],
   "note": "REFUTED of the faithful model (C51_refuted: odd number of planes, one plane is never filled in; C51_asymmetric_refuted: without stellarator symmetry the planes of the second half are never filled in). Proved for stellarator-symmetric runs with an even number of planes: the positions lie in the box of every plane, and so does the axis when the available modes can represent the positions, e.g. in axisymmetric runs."
  },
  {
   "property": "C52",
   "status": "partial",
   "theorems": [
    "C52_rerun_after_interrupt_refuted",
    "C52_interrupt_is_permanent"
   ],
   "note": "REFUTED of the faithful model: interrupted_ is never reset. C52_interrupt_is_permanent: every later run is reported as cancelled."
  },
  {
   "property": "C53",
   "status": "partial",
   "theorems": [
    "C53_constrained_refuted",
    "C53_constrained_unflipped_partial"
   ],
   "note": "REFUTED of the faithful model (C53_constrained_refuted): flipTheta changes the sign of Z_cos(1,0) but not of R_sin(1,0). Proved when the orientation is not reversed."
  },
  {
   "property": "C54",
   "status": "proved",
   "theorems": [
    "C54_geometry",
    "C54_combined",
    "C54_basis"
   ],
   "note": "Exact arithmetic; DFT path (the FFTX build variant is not modelled)."
  },
  {
   "property": "C55",
   "status": "partial",
   "theorems": [
    "C55_axisymmetric_planes_refuted"
   ],
   "note": "REFUTED of the faithful model (C55_axisymmetric_planes_refuted): the 2D transforms use stride nThetaEff between surfaces, all other kernels nZeta*nThetaEff. With one plane C54 holds."
  },
  {
   "property": "C56",
   "status": "proved",
   "theorems": [
    "C56_forces"
   ],
   "note": "Exact arithmetic; DFT path."
  },
  {
   "property": "C57",
   "status": "proved",
   "theorems": [
    "C57_peaked"
   ],
   "note": "Exact arithmetic."
  },
  {
   "property": "C58",
   "status": "proved",
   "theorems": [
    "C58_cubic_parabola",
    "C58_akima_line",
    "C58_akima_mirror"
   ],
   "note": "Exact arithmetic."
  },
  {
   "property": "C59",
   "status": "proved",
   "theorems": [
    "C59_edge_current",
    "C59_scale_invariant",
    "C59_vanishing_edge"
   ],
   "note": "Exact arithmetic. C59_vanishing_edge: a profile with vanishing edge value switches the prescribed current off."
  },
  {
   "property": "C60",
   "status": "proved",
   "theorems": [
    "C60_lamscale"
   ],
   "note": "Exact arithmetic."
  },
  {
   "property": "C61",
   "status": "partial",
   "theorems": [
    "C61_flux_scale_refuted",
    "C61_flux_itself_partial"
   ],
   "note": "REFUTED of the faithful model (C61_flux_scale_refuted): the profiles are evaluated at the unnormalised flux polynomial. The flux itself is scale independent (C61_flux_itself_partial)."
  },
  {
   "property": "C62",
   "status": "proved",
   "theorems": [
    "C62_linear_no_overshoot",
    "C62_polynomials_exact"
   ],
   "note": "Exact arithmetic, all partitions and all three schemes. cubic schemes need at least four coarse surfaces (below that the code falls back to linear)."
  },
  {
   "property": "C63",
   "status": "partial",
   "theorems": [
    "C63_failed_table_keeps_field_partial",
    "C63_failed_file_refuted"
   ],
   "note": "REFUTED of the faithful model for files (theorem C63_failed_file_refuted): LoadFile stores the new sizes before it checks the number of currents, and clears the arrays before all circuits are read. Holds for response tables."
  },
  {
   "property": "C64",
   "status": "proved",
   "theorems": [
    "C64_no_overshoot",
    "C64_continuous"
   ],
   "note": "Exact arithmetic."
  },
  {
   "property": "C65",
   "status": "proved",
   "theorems": [
    "C65_straight_filament",
    "C65_strength_and_direction",
    "C65_no_current"
   ],
   "note": "Exact arithmetic."
  },
  {
   "property": "C66",
   "status": "partial",
   "theorems": [
    "C66_field_unchanged_partial",
    "C66_unset_windings_refuted"
   ],
   "note": "REFUTED of the faithful model for coils without a winding number (C66_unset_windings_refuted): the field counts them once, the migration zero times. Proved when all winding numbers are set and the first of each circuit is not zero (exact arithmetic)."
  },
  {
   "property": "C67",
   "status": "proved",
   "theorems": [
    "C67_table_reproduces_coil_field"
   ],
   "note": "Exact arithmetic; circular and polygon filaments (external library) assumed proportional to their current; all planes evaluated."
  },
  {
   "property": "C68",
   "status": "partial",
   "theorems": [
    "C68_roundtrip_symmetric_partial",
    "C68_refuted",
    "C68_refuted_case"
   ],
   "note": "REFUTED of the faithful model for inputs without stellarator symmetry (C68_refuted: the text is never accepted again, because only the first axis coefficient is written and not as an array). Proved for stellarator-symmetric inputs in any arithmetic (finite numbers, zeros of the boundary +0). JSON text is represented by its parsed value; dump and parse of finite numbers are assumed to be inverse."
  },
  {
   "property": "C69",
   "status": "proved",
   "theorems": [
    "C69_change_resolution",
    "C69_grow_and_shrink"
   ],
   "note": "Any arithmetic. Resolutions below 2^30."
  },
  {
   "property": "C70",
   "status": "partial",
   "theorems": [
    "C70_settings",
    "C70_input_or_error_partial",
    "C70_refuted"
   ],
   "note": "First half (every setting correct, default otherwise, consistent): proved in full, C70_settings. 'No exception, no undefined behaviour' is REFUTED (C70_refuted: lasym without axis arrays throws, negative mpol with rbc is undefined) and proved for texts with non-negative resolution, entries with m >= 0 and present axis arrays."
  },
  {
   "property": "C71",
   "status": "partial",
   "theorems": [
    "C71_same_array_partial",
    "C71_python_refuses_negative",
    "C71_refuted"
   ],
   "note": "REFUTED of the faithful model (C71_refuted: for an entry with negative m the Python reader raises, the C++ reader writes out of range). Proved for all lists whose entries have m >= 0: both readers give the same array."
  },
  {
   "property": "C72",
   "status": "partial",
   "theorems": [
    "C72_common_surfaces_partial",
    "C72_refuted"
   ],
   "note": "REFUTED of the faithful model (C72_refuted: the Python code interpolates linearly in sqrt(s), the solver's default scheme linearly in s, so a coefficient linear in s changes). Proved: both agree on all surfaces common to both grids, for every scheme, exact arithmetic."
  },
  {
   "property": "C73",
   "status": "partial",
   "theorems": [
    "C73_other_arrays_partial",
    "C73_refuted"
   ],
   "note": "REFUTED of the faithful model (C73_refuted: any array whose last dimension equals the old number of surfaces is resampled, e.g. three pressure coefficients on a three-surface grid). Proved for all other arrays, any arithmetic."
  },
  {
   "property": "C74",
   "status": "partial",
   "theorems": [
    "C74_schedule",
    "C74_returns",
    "C74_stops_at_failure",
    "C74_last_step",
    "C74_wrong_length",
    "C74_guess_fits",
    "C74_refuted"
   ],
   "note": "The schedule itself is proved in full for arbitrary solver and interpolation. The clause 'an inconsistent schedule is refused before any equilibrium is computed' is proved for mpol and ntor (C74_wrong_length) and REFUTED for the tolerance and iteration arrays (C74_refuted)."
  },
  {
   "property": "C75",
   "status": "partial",
   "theorems": [
    "C75_failed_write_partial",
    "C75_refuted"
   ],
   "note": "REFUTED of the faithful model (C75_refuted: if the final rename fails the temporary file stays). Proved when the failure is in creating or writing the temporary file."
  },
  {
   "property": "C76",
   "status": "partial",
   "theorems": [
    "C76_exact_partial",
    "C76_refuted"
   ],
   "note": "REFUTED in IEEE double precision (C76_refuted: seven surfaces, f(s)=s^2, error above 0.01 on surface 5 because Python's knot and the solver's surface differ in the last bit and the line segment profile jumps there). Proved in exact arithmetic for all functions and schedules."
  },
  {
   "property": "C77",
   "status": "partial",
   "theorems": [
    "C77_symmetry_plane_partial",
    "C77_general_plane_partial",
    "C77_old_axis"
   ],
   "note": "Proved on the symmetry planes. On the other planes R and Z are each taken from a maximiser; that it is the same one is not guaranteed since a tie replaces Z only. Stellarator-symmetric runs, exact arithmetic."
  },
  {
   "property": "C78",
   "status": "proved",
   "theorems": [
    "C78_least_squares",
    "C78_exact"
   ],
   "note": "Exact arithmetic; all plane counts, symmetric and asymmetric."
  },
  {
   "property": "C79",
   "status": "proved",
   "theorems": [
    "C79_surfaces",
    "C79_axis"
   ],
   "note": "over the reals; the half-grid lambda of the output file is not modelled"
  },
  {
   "property": "C80",
   "status": "proved",
   "theorems": [
    "C80_styles_differ_in_reverts"
   ],
   "note": "fixed boundary; the forward model must not depend on the backup nor the running minima"
  },
  {
   "property": "C81",
   "status": "partial",
   "theorems": [
    "C81_forward_integrals_partial",
    "C81_double_layer_integrals",
    "C81_backward_refuted"
   ],
   "note": "REFUTED of the faithful model (theorem C81_backward_refuted): the downward recurrence starts from zero only a fixed number of orders above the resolution and rescales an inhomogeneous recurrence; for a regular metric at mf = nf = 25 the relative error in exact arithmetic exceeds 1e-6. Proved: the upward branch gives the integrals for all metrics, resolutions and orders (C81_forward_integrals_partial), and the S_l are the integrals whenever the T_l are (C81_double_layer_integrals). Over the reals: rounding is not modelled."
  },
  {
   "property": "C82",
   "status": "proved",
   "theorems": [
    "C82_coefficients_closed_form",
    "C82_other_coefficients_zero",
    "C82_averaged_coefficients"
   ],
   "note": "over the reals"
  },
  {
   "property": "C83",
   "status": "proved",
   "theorems": [
    "C83_source_terms",
    "C83_kernel_terms",
    "C83_kept"
   ],
   "note": "over the reals (the unrolled sums are re-associated); the T_l, S_l arrays are inputs here and are the subject of C81"
  },
  {
   "property": "C84",
   "status": "proved",
   "theorems": [
    "C84_normal_and_metric",
    "C84_curvature",
    "C84_positions",
    "C84_metric_regular"
   ],
   "note": "over the reals"
  },
  {
   "property": "C85",
   "status": "proved",
   "theorems": [
    "C85_kernel",
    "C85_source",
    "C85_axisymmetric_kernel",
    "C85_axisymmetric_source"
   ],
   "note": "over the reals; for an axisymmetric grid the expansion is the one with the angle divided by nfp, as coded"
  },
  {
   "property": "C86",
   "status": "proved",
   "theorems": [
    "C86_matrix",
    "C86_source"
   ],
   "note": "over the reals; the thread-local kernel arrays hold the columns of their source points, as proved for the regularised and singular parts in C85 and C83"
  },
  {
   "property": "C87",
   "status": "partial",
   "theorems": [
    "C87_cosine_rows_partial",
    "C87_sine_rows_partial",
    "C87_sine_rows_symmetric_partial",
    "C87_sine_rows_refuted"
   ],
   "note": "REFUTED of the faithful model (theorem C87_sine_rows_refuted): the sine rows are integrated over the half range theta <= pi only. Proved: the cosine rows, the exact half-range value of the sine rows, and that it is the full integral for sine columns under stellarator symmetry"
  },
  {
   "property": "C88",
   "status": "proved",
   "theorems": [
    "C88_solution"
   ],
   "note": "LAPACK is a premise: the vector solves the assembled system"
  },
  {
   "property": "C89",
   "status": "proved",
   "theorems": [
    "C89_external_field",
    "C89_defined"
   ],
   "note": "over the reals; grid point off the filament; the unused ABSCAB branch is not modelled"
  },
  {
   "property": "C90",
   "status": "proved",
   "theorems": [
    "C90_vacuum_field",
    "C90_with_external",
    "C90_net"
   ],
   "note": "over the reals; normal of the boundary not zero; every solution vector of the linear solver"
  },
  {
   "property": "C91",
   "status": "partial",
   "theorems": [
    "C91_edge_refuted",
    "C91_uniform_partial",
    "C91_error_partial"
   ],
   "note": "REFUTED of the faithful model (theorem C91_edge_refuted): with aphi giving the flux s^2 the last entry of phi is phiedge*(ns-2)/(ns-1). Proved: exact for the uniform profile, and an error bound of first order in 1/(ns-1) for every profile"
  },
  {
   "property": "C92",
   "status": "partial",
   "theorems": [
    "C92_sign_refuted",
    "C92_up_to_sign_partial",
    "C92_ratio_partial",
    "C92_edge_refuted"
   ],
   "note": "REFUTED of the faithful model (theorem C92_sign_refuted): chi is not multiplied by the sign of the Jacobian while chipf and phi are, so chipf is minus the derivative of chi for the sign -1 the program uses. Proved: equality up to that sign, the ratio of the increments, and for a straight-line derivative that the edge value of chipf is the one half a step outside (theorem C92_edge_refuted)"
  },
  {
   "property": "C93",
   "status": "proved",
   "theorems": [
    "C93_collected",
    "C93_restored"
   ],
   "note": "for any arithmetic; a read outside the arrays of a thread is a distinct outcome of the model and excluded by the theorem. C93_restored is over the reals"
  },
  {
   "property": "C94",
   "status": "proved",
   "theorems": [
    "C94_bsubv",
    "C94_unique",
    "C94_average"
   ],
   "note": "exact arithmetic"
  },
  {
   "property": "C95",
   "status": "proved",
   "theorems": [
    "C95_projection",
    "C95_exact",
    "C95_average"
   ],
   "note": "exact arithmetic, both values of lasym"
  },
  {
   "property": "C96",
   "status": "partial",
   "theorems": [
    "C96_angular_partial",
    "C96_radial_partial",
    "C96_angular_refuted",
    "C96_radial_refuted"
   ],
   "note": "REFUTED of the faithful model for asymmetric runs (theorems C96_angular_refuted, C96_radial_refuted): the filter stores derivatives in the layout of the reduced poloidal grid and the current density reads them in that of the full grid; the radial component is also decomposed with mixed layouts. Proved for symmetric runs, and for the radial component of asymmetric runs with one toroidal plane"
  },
  {
   "property": "C97",
   "status": "proved",
   "theorems": [
    "C97_ampere",
    "C97_enclosed",
    "C97_poloidal"
   ],
   "note": "exact arithmetic, both values of lasym"
  },
  {
   "property": "C98",
   "status": "proved",
   "theorems": [
    "C98_cauchy_schwarz",
    "C98_bdotb",
    "C98_jperp2"
   ],
   "note": "exact arithmetic"
  },
  {
   "property": "C99",
   "status": "partial",
   "theorems": [
    "C99_jperp2_partial",
    "C99_jperp2_value",
    "C99_jperp2_refuted",
    "C99_j_perp"
   ],
   "note": "REFUTED of the faithful model (theorem C99_jperp2_refuted): the toroidal component of J_perp lacks a minus sign, so that the cross term of the metric has the wrong sign. Proved where that term vanishes; C99_jperp2_value gives the column in general, for states in which the two neighbouring half-grid surfaces carry the same field"
  }
 ]
}