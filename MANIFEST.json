{
 "claims": [
  {
   "property": "C01",
   "status": "proved",
   "theorems": [
    "C01_malformed_refuted",
    "C01_parse_layout",
    "C01_read_file"
   ],
   "note": "Every well-formed layout parses to its assignments; effect on the data base. Malformed text (a==b) is shown to run past the buffer. File size limit of the 1001000 byte buffer is a hypothesis."
  },
  {
   "property": "C02",
   "status": "proved",
   "theorems": [
    "C02_refines_map",
    "C02_self_assignment_refuted",
    "C02_start_irrelevant"
   ],
   "note": "Refinement of all API histories to an abstract map; Sets with its own value string as argument is undefined (refuted separately)."
  },
  {
   "property": "C03",
   "status": "partial",
   "theorems": [
    "C03_getv_exact",
    "C03_getv_partial",
    "C03_getv_refuted"
   ],
   "note": "Refuted as stated (\"xfoo foo\", query foo). Soundness, completeness when no other word ends in the query, and the exact characterisation are proved."
  },
  {
   "property": "C04",
   "status": "partial",
   "theorems": [
    "C04_interleaved_refuted",
    "C04_leading_blank_refuted",
    "C04_next_entry"
   ],
   "note": "Proved for every list with non-empty first word; refuted for a leading blank and for lists switched during an enumeration."
  },
  {
   "property": "C05",
   "status": "proved",
   "theorems": [
    "C05_addvar_succeeds_iff",
    "C05_long_name_refuted",
    "C05_registry",
    "C05_restart_idempotent",
    "C05_restart_refuted"
   ],
   "note": "For full names of at most 99 characters and one program run (no restart): the truncation to 99 characters and the re-registration on a restart break it, shown by the two _refuted theorems."
  },
  {
   "property": "C06",
   "status": "partial",
   "theorems": [
    "C06_addconstant_partial",
    "C06_restart_refuted",
    "C06_setconstant"
   ],
   "note": "Proved for the first run; on a restart AddVar skips registration and AddConstantVar flags other variables (C06_restart_refuted)."
  },
  {
   "property": "C07",
   "status": "proved",
   "theorems": [
    "C07_addduplicate",
    "C07_addduplicate_refuted",
    "C07_drop_component_refuted",
    "C07_pushvl_self_refuted",
    "C07_varlists"
   ],
   "note": "For distinct list objects. vlpushvl(v,v), vldrop of a component that is not the first of its variable, and AddDuplicate of a list holding part of a tensor are refuted separately."
  },
  {
   "property": "C08",
   "status": "partial",
   "theorems": [
    "C08_documented_spelling_refuted",
    "C08_sign_refuted",
    "C08_tensors_partial",
    "C08_unknown_string"
   ],
   "note": "Proved for every index string the code accepts except (ab)(ij), whose signs are wrong (C08_sign_refuted). One documented spelling is rejected (C08_documented_spelling_refuted)."
  },
  {
   "property": "C09",
   "status": "proved",
   "theorems": [
    "C09_bins"
   ],
   "note": "Hooks are modelled as not calling AddFun while RunFun runs."
  },
  {
   "property": "C10",
   "status": "proved",
   "theorems": [
    "C10_shifted_alias_refuted",
    "C10_varadd",
    "C10_varcopy",
    "C10_vladd",
    "C10_vladdto",
    "C10_vlaverage",
    "C10_vlcopy",
    "C10_vlsetconstant",
    "C10_vlsubtract",
    "C10_vlswap"
   ],
   "note": "Exact real arithmetic. vladd, vladdto, vlcopy, vlsubtract, vlaverage, vlsetconstant, vlswap, varadd, varcopy. Inputs may alias the output at the same or an earlier position; shifted overlap is shown to be wrong (C10_shifted_alias_refuted)."
  },
  {
   "property": "C11",
   "status": "proved",
   "theorems": [
    "C11_no_leak",
    "C11_samevars_mismatch",
    "C11_storage"
   ],
   "note": "All histories of the storage calls refine a partial map; explicit heap, no leak, no double free."
  },
  {
   "property": "C12",
   "status": "proved",
   "theorems": [
    "C12_bfaces",
    "C12_other_index_stale_refuted",
    "C12_remove_order"
   ],
   "note": "All histories of the box-face calls. The index that other boxes store (ofi) is not updated by a removal (C12_other_index_stale_refuted)."
  },
  {
   "property": "C13",
   "status": "proved",
   "theorems": [
    "C13_droplist_self_refuted",
    "C13_lists",
    "C13_pushlist_self_refuted",
    "C13_union_nodup"
   ],
   "note": "For two different list objects in pushlist and droplist; the self-aliased calls are refuted separately."
  },
  {
   "property": "C14",
   "status": "partial",
   "theorems": [
    "C14_duplicate_partial",
    "C14_duplicate_refuted",
    "C14_pointlist"
   ],
   "note": "History of adding and dropping is proved. Duplicating is correct only if at most two boxes ever got points; with more it always overruns the new blist (C14_duplicate_refuted)."
  },
  {
   "property": "C15",
   "status": "proved",
   "theorems": [
    "C15_active_boxes"
   ],
   "note": ""
  },
  {
   "property": "C16",
   "status": "proved",
   "theorems": [
    "C16_forallijk",
    "C16_forinnerijk",
    "C16_injective",
    "C16_inverse",
    "C16_onto"
   ],
   "note": "C int arithmetic without overflow."
  },
  {
   "property": "C17",
   "status": "proved",
   "theorems": [
    "C17_forinnerplaneN",
    "C17_forplane1",
    "C17_forplane1_nojump",
    "C17_forplane2",
    "C17_forplane2_nojump",
    "C17_forplane3",
    "C17_forplane3_nojump",
    "C17_forplaneN"
   ],
   "note": "C int arithmetic without overflow."
  },
  {
   "property": "C18",
   "status": "proved",
   "theorems": [
    "C18_blocks",
    "C18_subboxes_tile"
   ],
   "note": "Loop over blocks for every history of (de)activations; subbox ranges tile the box for any positive numbers of subboxes."
  },
  {
   "property": "C19",
   "status": "proved",
   "theorems": [
    "C19_doubles_round_trip",
    "C19_image_injective",
    "C19_read_portable",
    "C19_write_portable"
   ],
   "note": "Any element size; both byte orders for writer and reader; short files return the number of complete elements."
  },
  {
   "property": "C20",
   "status": "partial",
   "theorems": [
    "C20_newline_refuted",
    "C20_round_trip_partial"
   ],
   "note": "C20_round_trip_partial: for all parameter data bases, variable lists, box sizes and bit patterns of the data, reading the bytes that were written restores parameters and point values bit for bit and changes nothing else, if parameter values contain no newline (and fit the reader's buffers); the grid's time is restored as far as the %g text keeps it. C20_newline_refuted: a value with a newline is not restored. Rebuilding boxes from parameters is not modelled."
  },
  {
   "property": "C21",
   "status": "partial",
   "theorems": [
    "C21_crash_partial",
    "C21_full_disk_refuted"
   ],
   "note": "C21_crash_partial: for every crash point, with the last write cut anywhere, the file holds the old or the complete new checkpoint (writes followed by another call assumed complete). C21_full_disk_refuted: a failed write is not noticed and the incomplete file replaces the good one."
  },
  {
   "property": "C22",
   "status": "partial",
   "theorems": [
    "C22_copy_partial",
    "C22_copy_refuted",
    "C22_default_partial",
    "C22_keep_refuted",
    "C22_refuses",
    "C22_restart",
    "C22_restart_progress"
   ],
   "note": "C22_default_partial: with default options, over all histories of runs and crash points the checkpoint completed last is in outdir or outdir_previous; C22_refuses: a start that would have to guess changes nothing. C22_copy_refuted: with checkpoint_previous=yes a kill during the copy loses the only complete checkpoint at the next start. C22_restart, C22_restart_progress: the next start resumes from the checkpoint completed last and a completed run moves on. C22_copy_partial: with checkpoint_previous=yes the promise holds as long as no kill happens during a copy. C22_keep_refuted: with --keep_previous a second restart uses the older directory and removes the newer one."
  },
  {
   "property": "C23",
   "status": "proved",
   "theorems": [
    "C23_lowered",
    "C23_timing",
    "C23_while"
   ],
   "note": "Hooks are arbitrary in C23_while and C23_lowered; quiet in C23_timing. Real arithmetic."
  },
  {
   "property": "C24",
   "status": "proved",
   "theorems": [
    "C24_iterations",
    "C24_only_output_times",
    "C24_times"
   ],
   "note": "Real arithmetic, iteration n at time n*dt. Output every di iterations, and every dt with time step not larger than dt: each output time is met by exactly one, closest, iteration."
  },
  {
   "property": "C25",
   "status": "proved",
   "theorems": [
    "C25_names",
    "C25_order",
    "C25_step",
    "C25_step_conditions",
    "C25_traditional"
   ],
   "note": "C25_order: every table satisfies all order conditions (all rooted trees up to the nominal order) and not the next order; C25_step, C25_step_conditions: for every right-hand side (also time dependent) the driver performs the explicit Runge-Kutta step of its table, every stage at t+dt*row sum, ends at t+dt; C25_names: names select methods of the order they name. Coefficients are exact fractions, arithmetic is real. C25_traditional: euler, midpoint and rk4 are the textbook formulas."
  },
  {
   "property": "C26",
   "status": "partial",
   "theorems": [
    "C26_conditions_refuted",
    "C26_no_conditions",
    "C26_partial"
   ],
   "note": "C26_no_conditions: equal for every right-hand side if no algebraic conditions are registered; C26_partial: also if the state satisfies them; C26_conditions_refuted: otherwise the two differ."
  },
  {
   "property": "C27",
   "status": "partial",
   "theorems": [
    "C27_add",
    "C27_component",
    "C27_component_refuted",
    "C27_left_race_refuted",
    "C27_lines",
    "C27_lines_parallel",
    "C27_transposed",
    "C27_transposed_parallel_partial",
    "C27_transposed_race_refuted"
   ],
   "note": "C27_lines, C27_transposed: the sequential products over R are the matrix products (repeated entries add up). C27_lines_parallel: SparseMatrixLines_times_vector gives the sequential result in any arithmetic for every interleaving. C27_transposed_parallel_partial: same for the transposed products if no two lines share a column. C27_transposed_race_refuted, C27_left_race_refuted: otherwise, built with LEVEL4_Pragmas, a schedule loses an update. C27_component(_refuted): GetSparseVectorComponent agrees with the products only without repeated entries. C27_add: AddToSparseVector."
  },
  {
   "property": "C28",
   "status": "partial",
   "theorems": [
    "C28_columns",
    "C28_lines",
    "C28_lines_R",
    "C28_lines_negative_drop_refuted",
    "C28_matrix_market"
   ],
   "note": "C28_columns: conversion from columns never overruns and gives exactly the kept entries in storage order, increasing if the columns are. C28_lines, C28_lines_R: conversion from lines gives exactly the elements above dropbelow>=0 in increasing order without overrun. C28_lines_negative_drop_refuted: dropbelow<0 overruns the arrays. C28_matrix_market: the Matrix Market writer."
  },
  {
   "property": "C29",
   "status": "partial",
   "theorems": [
    "C29_numbering",
    "C29_onevar",
    "C29_parallel",
    "C29_serial_partial",
    "C29_serial_refuted",
    "C29_sorted"
   ],
   "note": "C29_parallel (LEVEL6 build, any distribution over threads and any order of stores), C29_sorted, C29_onevar, C29_numbering: the matrix represents the operator up to dropped elements, with error bound. C29_serial_partial: same for the build without LEVEL6_Pragmas if vlx is zero on entry. C29_serial_refuted: otherwise the copy used for probing still holds the old vlx and the matrix is wrong."
  },
  {
   "property": "C30",
   "status": "proved",
   "theorems": [
    "C30_by_point",
    "C30_outer_vars",
    "C30_sorted_vars",
    "C30_subbox"
   ],
   "note": "All three layouts, both directions and both round trips; subbox copies. The LEVEL3 variants stop with errorexit and are not modelled."
  },
  {
   "property": "C31",
   "status": "partial",
   "theorems": [
    "C31_bicgstab_partial",
    "C31_exact_precon_refuted",
    "C31_exhausted_refuted",
    "C31_finite"
   ],
   "note": "The reported norm is always that of b-Ax for the returned x. The return value is not the truth: running out of iterations returns itmax+1 (C31_exhausted_refuted), and a solution found in the first half step returns -11, always so with an exact preconditioner (C31_exact_precon_refuted). Proved: 0..itmax means converged; itmax+1 and -10 mean not converged; -11 may be both. Exact arithmetic; divisions by zero excluded. C31_finite: with a fixed linear preconditioner and itmax >= number of unknowns n, a run without division by zero ends within n iterations (it never runs out), so 0..n means converged."
  },
  {
   "property": "C32",
   "status": "proved",
   "theorems": [
    "C32_contraction",
    "C32_converges",
    "C32_fixed_points",
    "C32_repeated_entries_refuted",
    "C32_report",
    "C32_sweep",
    "C32_zero_diagonal"
   ],
   "note": "Exact arithmetic, matrices without repeated entries. Beyond the claim: contraction and convergence for strictly diagonally dominant matrices. For repeated entries the claim fails (C32_repeated_entries_refuted)."
  },
  {
   "property": "C33",
   "status": "proved",
   "theorems": [
    "C33_affine",
    "C33_failed_solver",
    "C33_no_quit",
    "C33_quit",
    "C33_report",
    "C33_step"
   ],
   "note": "For arbitrary F (which may set boundary values in u), linear solvers, hooks, random steps and line search. C33_quit, C33_no_quit: the return value when a user hook asks to quit."
  },
  {
   "property": "C34",
   "status": "proved",
   "theorems": [
    "C34_extrema_coeffs",
    "C34_extrema_values",
    "C34_getcoeff_exact",
    "C34_getcoeff_interpolates",
    "C34_interpolates_extrema",
    "C34_interpolates_zeros",
    "C34_onExtrema_points",
    "C34_onZeros_points",
    "C34_zeros_coeffs",
    "C34_zeros_values"
   ],
   "note": "extrema and zeros transforms are mutually inverse; plus interpolation at the points"
  },
  {
   "property": "C35",
   "status": "proved",
   "theorems": [
    "C35_T_cos",
    "C35_T_ends",
    "C35_basis",
    "C35_basis_fromsum",
    "C35_basis_near_end_refuted",
    "C35_eval",
    "C35_eval_basis"
   ],
   "note": "cheb_basisfunc deviates from T_k within 1e-10 of the ends (C35_basis_near_end_refuted)"
  },
  {
   "property": "C36",
   "status": "proved",
   "theorems": [
    "C36_deriv",
    "C36_filter",
    "C36_int",
    "C36_int_full_refuted",
    "C36_int_order0"
   ],
   "note": "cheb_int needs the highest coefficient to be zero (C36_int_full_refuted); order 0 reads out of bounds (C36_int_order0)"
  },
  {
   "property": "C37",
   "status": "proved",
   "theorems": [
    "C37_alt_partial",
    "C37_alt_refuted",
    "C37_coeffs",
    "C37_eval_samples",
    "C37_values"
   ],
   "note": "main pair; the alternative pair loses the highest mode for even N (C37_alt_refuted)"
  },
  {
   "property": "C38",
   "status": "proved",
   "theorems": [
    "C38_at_grid",
    "C38_everywhere",
    "C38_integral",
    "C38_samples"
   ],
   "note": "derivative and integral of trigonometric polynomials, at grid points and everywhere"
  },
  {
   "property": "C39",
   "status": "partial",
   "theorems": [
    "C39_cheb",
    "C39_four_basis",
    "C39_four_partial",
    "C39_four_shifted_refuted",
    "C39_grid_values_partial",
    "C39_interpolate",
    "C39_null"
   ],
   "note": "spec_interpolate is the triple sum of coefficients times basis values; at grid points it returns the grid values for boxes whose basis functions are faithful (C39_faithful_example). Fails for Fourier boxes whose left end is not a multiple of the width and for Chebyshev points within 1e-10 of an end."
  },
  {
   "property": "C40",
   "status": "proved",
   "theorems": [
    "C40_basis_box",
    "C40_basis_nobox",
    "C40_coeffs",
    "C40_nonuniform",
    "C40_nonuniform_linear",
    "C40_onesided",
    "C40_onesided2",
    "C40_periodic",
    "C40_short_refuted"
   ],
   "note": "Stencils on uniform and non-uniform grids are exact on the polynomials stated; lines shorter than the closure stencil read outside the array (C40_short_refuted), so the theorems carry the minimal line length."
  },
  {
   "property": "C41",
   "status": "proved",
   "theorems": [
    "C41_basis_weights",
    "C41_coeff_eval",
    "C41_filter",
    "C41_initdiffmatrix",
    "C41_initdiffmatrix2",
    "C41_linear",
    "C41_nofilter",
    "C41_products"
   ],
   "note": "For every linear 1d transform; C41_linear shows that all transforms in the code that are used with matrices are linear maps of the line. FFT variants are not modelled."
  },
  {
   "property": "C42",
   "status": "partial",
   "theorems": [
    "C42_allDerivs",
    "C42_deriv1",
    "C42_deriv2",
    "C42_exact",
    "C42_fft_order",
    "C42_in_place_refuted",
    "C42_locality",
    "C42_mixed",
    "C42_orders"
   ],
   "note": "Proved for all boxes, orders of lines, schedules and kernels: first, second, mixed derivatives and locality. Refuted only for calling the matrix branch in direction 1 with the same array as input and output (C42_in_place_refuted)."
  },
  {
   "property": "C43",
   "status": "proved",
   "theorems": [
    "C43_2dIntegral",
    "C43_3dIntegral",
    "C43_Integral1",
    "C43_refused",
    "C43_spec_unique",
    "C43_volume",
    "C43_weights_unique"
   ],
   "note": "Exact integral of the interpolating function on every line, for every size, basis, schedule and aliasing; iterated integrals in 2d and 3d; other bases are refused."
  },
  {
   "property": "C44",
   "status": "partial",
   "theorems": [
    "C44_exact_partial",
    "C44_refuted",
    "C44_sphere_partial"
   ],
   "note": "Exact unless the number of theta points is 1 mod 4 (C44_exact_partial); then the code misses the highest mode (C44_sphere_partial gives the exact error, C44_refuted a 5-point witness)."
  },
  {
   "property": "C45",
   "status": "proved",
   "theorems": [
    "C45_code_singular",
    "C45_factors",
    "C45_return",
    "C45_solve"
   ],
   "note": "factorisation, solution, return codes for all sizes and all invertible matrices, exact arithmetic"
  },
  {
   "property": "C46",
   "status": "partial",
   "theorems": [
    "C46_newton_partial",
    "C46_newton_refuted",
    "C46_rt_brak",
    "C46_rt_brak_missed",
    "C46_rtbisect",
    "C46_rtbisect_converges"
   ],
   "note": "bisection and bracket search proved; Newton proved except for the accuracy goal, which is refuted when the last step was a Newton step"
  },
  {
   "property": "C47",
   "status": "proved",
   "theorems": [
    "C47_finit",
    "C47_finit_double"
   ],
   "note": "Bit patterns of doubles; agreement with the IEEE-754 classification of Flocq."
  },
  {
   "property": "C48",
   "status": "partial",
   "theorems": [
    "C48_closest",
    "C48_descending_refuted",
    "C48_three_directions"
   ],
   "note": "Proved for every non-decreasing line in the three directions (real arithmetic); refuted for descending lines."
  },
  {
   "property": "C49",
   "status": "proved",
   "theorems": [
    "C49_each_process",
    "C49_empty_file_refuted",
    "C49_every_line_once",
    "C49_single_run"
   ],
   "note": "Every file with at least one command; the file without commands is refuted (process 0 then runs with --argsfile as parameter file). Lines must fit the 5000 character buffers."
  },
  {
   "property": "C50",
   "status": "proved",
   "theorems": [
    "C50_analysis",
    "C50_built",
    "C50_commute",
    "C50_inverse",
    "C50_synthesis"
   ],
   "note": "Line-wise analysis and synthesis are inverse, commute between directions, for all box sizes and any order of lines."
  },
  {
   "property": "C51",
   "status": "proved",
   "theorems": [
    "C51_attributes",
    "C51_neighbours",
    "C51_neighbours_of_neighbours",
    "C51_sublist"
   ],
   "note": ""
  },
  {
   "property": "C52",
   "status": "partial",
   "theorems": [
    "C52_forPointList_partial",
    "C52_forPointList_refuted"
   ],
   "note": "Refuted: the loop dereferences NULL if an active box never got a point. Proved when every active box has a point."
  },
  {
   "property": "C53",
   "status": "proved",
   "theorems": [
    "C53_collect",
    "C53_effect",
    "C53_malformed_refuted",
    "C53_modify_par",
    "C53_parfile"
   ],
   "note": "Well-formed options; a --modify-par without = swallows the next option (C53_malformed_refuted). Option strings of 1000 characters overflow (UB in the model)."
  },
  {
   "property": "C54",
   "status": "partial",
   "theorems": [
    "C54_euler",
    "C54_icn_order",
    "C54_icn_partial",
    "C54_icn_time_refuted"
   ],
   "note": "C54_icn_partial, C54_icn_order, C54_euler: for right-hand sides that do not depend on time ICN is an explicit method of order exactly 2. C54_icn_time_refuted: a time-dependent right-hand side is evaluated at the old time in all three iterations."
  },
  {
   "property": "C55",
   "status": "proved",
   "theorems": [
    "C55_WTiterator",
    "C55_direction"
   ],
   "note": "Exact arithmetic; sequential products."
  },
  {
   "property": "C56",
   "status": "partial",
   "theorems": [
    "C56_coordinates",
    "C56_ends",
    "C56_fd2_functions",
    "C56_fd2_refuted",
    "C56_fourier_even_refuted",
    "C56_matrices",
    "C56_one_point_refuted"
   ],
   "note": "Proved for ChebExtrema, ChebZeros and Fourier with at least two points (C56_matrices, C56_coordinates, C56_ends). False for the fd2_* bases (NULL integration function is called, C56_fd2_refuted), for one point in a Chebyshev direction (C56_one_point_refuted) and for the second derivative of the highest cosine on an even number of Fourier points (C56_fourier_even_refuted). FFT variants are not modelled."
  },
  {
   "property": "C57",
   "status": "proved",
   "theorems": [
    "C57_filter1",
    "C57_filter3d",
    "C57_filter3d_identity"
   ],
   "note": "All sizes, cutoffs >= 0 and data."
  },
  {
   "property": "C58",
   "status": "partial",
   "theorems": [
    "C58_det",
    "C58_det_never_zero",
    "C58_det_refuted"
   ],
   "note": "proved for every invertible matrix; refuted for singular ones: a zero pivot is replaced by 1e-300, so the value is never zero"
  },
  {
   "property": "C59",
   "status": "proved",
   "theorems": [
    "C59_rtbrent"
   ],
   "note": ""
  },
  {
   "property": "C60",
   "status": "proved",
   "theorems": [
    "C60_min_brak",
    "C60_minbrent"
   ],
   "note": "holds for every value of the variable d that the code reads uninitialised"
  },
  {
   "property": "C61",
   "status": "partial",
   "theorems": [
    "C61_abort_refuted",
    "C61_affine",
    "C61_check_refuted",
    "C61_jacobian",
    "C61_jacobian_affine",
    "C61_linesearch",
    "C61_newton"
   ],
   "note": "Termination, energy decrease and the exact list of outcomes are proved when the difference-quotient matrices on the way are invertible; one-step convergence is proved for affine systems. Refuted in general: return value 1 with *check=0 at a non-solution (C61_check_refuted), and abort() when lu_decomp reports a zero row or column (C61_abort_refuted)."
  },
  {
   "property": "C62",
   "status": "proved",
   "theorems": [
    "C62_derivative",
    "C62_derivative_inverted",
    "C62_half",
    "C62_monotone",
    "C62_q0_jump",
    "C62_range",
    "C62_step01",
    "C62_step01_monotone",
    "C62_step01_p0",
    "C62_step01_slope"
   ],
   "note": "C62_range, C62_monotone, C62_derivative (+ _inverted), C62_half, C62_step01*. C62_q0_jump and C62_step01_p0 record what happens outside the hypotheses (q = 0: a jump; p = 0: division by zero). Real arithmetic, tanh/tan are the real functions."
  },
  {
   "property": "C63",
   "status": "partial",
   "theorems": [
    "C63_compactSphericalDF",
    "C63_polar",
    "C63_polarCE_partial",
    "C63_polarCE_refuted",
    "C63_spherical",
    "C63_spherical2",
    "C63_spherical3",
    "C63_sphericalDF",
    "C63_tan_stretch"
   ],
   "note": "First derivatives proved for seven of the eight systems, second derivatives for the six that have them. Refuted for PolarCE: its rho row uses drho_dx/drho_dy, which take cos and sin of Y instead of phi (C63_polarCE_refuted); the Y and Z rows are proved (C63_polarCE_partial). Spherical3 decimal constants are taken as exact multiples of pi; Cot(x)=1/tan(x) taken as cos/sin; its second derivatives need cos phi <> 0 because of tan(phi)."
  },
  {
   "property": "C64",
   "status": "proved",
   "theorems": [
    "C64_cart_partials",
    "C64_cartesian_xyz",
    "C64_coordinates_stored",
    "C64_gradient",
    "C64_layout"
   ],
   "note": "stored coordinates, chain rule, true gradient"
  },
  {
   "property": "C65",
   "status": "proved",
   "theorems": [
    "C65_cart_partial_all",
    "C65_hessian",
    "C65_no_second"
   ],
   "note": "formula, refusal, true Hessian"
  },
  {
   "property": "C66",
   "status": "proved",
   "theorems": [
    "C66_all",
    "C66_first",
    "C66_first_and_second",
    "C66_selected"
   ],
   "note": "all tensor wrappers, both settings"
  },
  {
   "property": "C67",
   "status": "proved",
   "theorems": [
    "C67_check",
    "C67_composed",
    "C67_det",
    "C67_inverse",
    "C67_second_of_inverse",
    "C67_singular"
   ],
   "note": "inverse, determinant, derivatives of inverse and composed maps, self-check"
  },
  {
   "property": "C68",
   "status": "proved",
   "theorems": [
    "C68_abstanh",
    "C68_arg",
    "C68_arg_first",
    "C68_arg_second",
    "C68_argtanh",
    "C68_base_angle",
    "C68_tanh"
   ],
   "note": "angles, derivatives off the cut, tanh, sech and derivative tables"
  },
  {
   "property": "C69",
   "status": "proved",
   "theorems": [
    "C69_average",
    "C69_copy",
    "C69_copy_odd",
    "C69_function",
    "C69_grid",
    "C69_odd",
    "C69_same_place",
    "C69_twice"
   ],
   "note": "n2 and n3 even; the test for SphericalDF is a parameter."
  },
  {
   "property": "C70",
   "status": "proved",
   "theorems": [
    "C70_find",
    "C70_recover"
   ],
   "note": ""
  },
  {
   "property": "C71",
   "status": "proved",
   "theorems": [
    "C71_place",
    "C71_sigma",
    "C71_surfaces",
    "C71_unset"
   ],
   "note": "Types, domains and the look-up of the surfaces; interpolation of a surface variable is an arbitrary function."
  },
  {
   "property": "C72",
   "status": "proved",
   "theorems": [
    "C72_back",
    "C72_status",
    "C72_there"
   ],
   "note": "Points in the pyramid of the domain."
  },
  {
   "property": "C73",
   "status": "proved",
   "theorems": [
    "C73_derivatives",
    "C73_function"
   ],
   "note": "The derivatives of the surfaces the code looks up are hypotheses, shown for surface functions in C73_function and for constants in C76_derivatives."
  },
  {
   "property": "C74",
   "status": "proved",
   "theorems": [
    "C74_cover",
    "C74_fill",
    "C74_into",
    "C74_match",
    "C74_once"
   ],
   "note": "Covering, containment, disjointness and matching."
  },
  {
   "property": "C75",
   "status": "proved",
   "theorems": [
    "C75_angle_derivs",
    "C75_angles",
    "C75_r_lam",
    "C75_radius"
   ],
   "note": "At the pole the derivatives do not exist and nothing is claimed."
  },
  {
   "property": "C76",
   "status": "proved",
   "theorems": [
    "C76_derivatives",
    "C76_refused",
    "C76_stretch",
    "C76_there"
   ],
   "note": "Derivatives for constant surfaces only, the others are refused."
  },
  {
   "property": "C77",
   "status": "proved",
   "theorems": [
    "C77_box",
    "C77_boxes",
    "C77_faces",
    "C77_inner",
    "C77_off_face",
    "C77_plane",
    "C77_plane_refused"
   ],
   "note": "Coordinate arrays are looked up by name in the code and are given here."
  },
  {
   "property": "C78",
   "status": "proved",
   "theorems": [
    "C78_boxes",
    "C78_boxlist",
    "C78_cubes",
    "C78_single"
   ],
   "note": "The Newton iteration and the recovery on a singularity are arbitrary functions in this theorem (C61 treats the former); C78_cubes excludes the planes through the centre where the code divides by zero."
  },
  {
   "property": "C79",
   "status": "proved",
   "theorems": [
    "C79_alloc",
    "C79_legendre",
    "C79_refused",
    "C79_slowly",
    "C79_table",
    "C79_unique",
    "C79_ylm"
   ],
   "note": "Doubles are reals. The division by zero the code makes at m=l when it prepares an unused factor is not modelled as an error."
  },
  {
   "property": "C80",
   "status": "partial",
   "theorems": [
    "C80_dphi",
    "C80_dtheta_partial",
    "C80_dtheta_refuted"
   ],
   "note": "dphi is proved. The theta derivative is refuted: the degree lmax+1 part is dropped and L+1 pairs beyond degree lmax are read (C80_dtheta_refuted); it is exact when those and the degree lmax coefficients vanish (C80_dtheta_partial)."
  },
  {
   "property": "C81",
   "status": "partial",
   "theorems": [
    "C81_derivs_partial",
    "C81_derivs_refuted",
    "C81_refused",
    "C81_value"
   ],
   "note": "The value is proved. The derivatives are refuted (C81_derivs_refuted, surface Y_1^0 with lmax=1) and proved when the coefficients of degree lmax and the pairs read beyond them vanish and (A,B) is not (0,0), also across the cut in Phi."
  },
  {
   "property": "C82",
   "status": "proved",
   "theorems": [
    "C82_cube",
    "C82_few",
    "C82_two_cubes",
    "C82_two_spheres"
   ],
   "note": "C82_cube, C82_two_cubes, C82_two_spheres; C82_few: with too few boxes the number returned is that of the boxes."
  },
  {
   "property": "C83",
   "status": "proved",
   "theorems": [
    "C83_constraints"
   ],
   "note": "C83_constraints; hypotheses met by C84_ex"
  },
  {
   "property": "C84",
   "status": "proved",
   "theorems": [
    "C84_isotropic",
    "C84_setting"
   ],
   "note": "derivatives exact and constraints zero for both settings"
  },
  {
   "property": "C85",
   "status": "partial",
   "theorems": [
    "C85_diagonal",
    "C85_normalised_partial",
    "C85_normalised_refuted",
    "C85_terms"
   ],
   "note": "C85_normalised_partial (ADMvars_ConstraintNorm not TermByTerm), C85_normalised_refuted (TermByTerm can give 9/2), C85_terms says exactly what TermByTerm divides by, C85_diagonal gives the bound for TermByTerm and the Hamiltonian constraint if the metric is diagonal at the point"
  },
  {
   "property": "C86",
   "status": "proved",
   "theorems": [
    "C86_connection",
    "C86_round_trip",
    "C86_round_trip2",
    "C86_to_bssn",
    "C86_utility"
   ],
   "note": "C86_to_bssn, C86_round_trip, C86_round_trip2, C86_connection, C86_utility"
  },
  {
   "property": "C87",
   "status": "proved",
   "theorems": [
    "C87_enforce",
    "C87_idempotent",
    "C87_unchanged"
   ],
   "note": "C87_enforce, C87_unchanged, C87_idempotent"
  },
  {
   "property": "C88",
   "status": "proved",
   "theorems": [
    "C88_evolution"
   ],
   "note": "BSSN_rhs.c modelled expression by expression (generated from the C text); vacuum, exact derivatives at the point"
  },
  {
   "property": "C89",
   "status": "partial",
   "theorems": [
    "C89_constraints",
    "C89_density",
    "C89_gzz_partial",
    "C89_gzz_refuted",
    "C89_step"
   ],
   "note": "the recomputation of g_zz (BSSN_rhs.c:3088-3094) does not give determinant 1: refuted by a state whose new determinant is 4; the theorem C89_gzz_partial says what the determinant becomes; the rest is proved in full"
  },
  {
   "property": "C90",
   "status": "proved",
   "theorems": [
    "C90_algebraic",
    "C90_connection"
   ],
   "note": "C90_connection and C90_algebraic; the smooth fields are the ones the code samples, spatial derivatives are exact; C90_case shows concrete fields meeting the hypotheses."
  },
  {
   "property": "C91",
   "status": "proved",
   "theorems": [
    "C91_lapse",
    "C91_shift"
   ],
   "note": "C91_lapse, C91_shift; GentlePhiRHS and densitizedLapse off; C91_case shows concrete data meeting the hypotheses"
  },
  {
   "property": "C92",
   "status": "partial",
   "theorems": [
    "C92_constant_growth",
    "C92_constant_partial",
    "C92_constant_refuted",
    "C92_excision_growth",
    "C92_excision_partial"
   ],
   "note": "Holds for evolve_euler and evolve_icn, which call the right-hand side with the step size. Refuted for Runge-Kutta (C92_constant_refuted): there the condition is applied to a rate, and every step multiplies the value by 1+dt (C92_constant_growth)."
  },
  {
   "property": "C93",
   "status": "proved",
   "theorems": [
    "C93_analytic",
    "C93_consistent",
    "C93_only",
    "C93_outgoing",
    "C93_radconstant",
    "C93_stored"
   ],
   "note": "Spatial derivatives are taken as exact; the grid derivatives are the subject of C28-C40 and C69. uinitial of the analytic version is taken as given."
  },
  {
   "property": "C94",
   "status": "partial",
   "theorems": [
    "C94_count",
    "C94_list",
    "C94_safe_partial",
    "C94_safe_refuted",
    "C94_stop"
   ],
   "note": "The count and the stop are proved; safety is refuted (C94_safe_refuted: the message about the end of a run indexes the arrays of the next box) and proved if the boxes with storage do not get smaller."
  },
  {
   "property": "C95",
   "status": "partial",
   "theorems": [
    "C95_again",
    "C95_boxes",
    "C95_ds_min",
    "C95_ds_min_refuted",
    "C95_dt",
    "C95_required"
   ],
   "note": "Refuted only for ds_min (C95_ds_min_refuted): it ends as the spacing of the last box. Values longer than 900 characters are excluded in C95_again, int overflow is not modelled."
  },
  {
   "property": "C96",
   "status": "proved",
   "theorems": [
    "C96_again",
    "C96_boxes",
    "C96_equator_axis",
    "C96_rotation",
    "C96_spherical",
    "C96_sphericalDF"
   ],
   "note": "for the Fourier basis in direction 3; centre of the grid (division 0/0) excluded by hypothesis in C96_spherical"
  },
  {
   "property": "C97",
   "status": "partial",
   "theorems": [
    "C97_constant_partial",
    "C97_constant_refuted",
    "C97_inX",
    "C97_inXYZ",
    "C97_minus1",
    "C97_minus1_rotation",
    "C97_rotation_refuted"
   ],
   "note": "index sets proved in full; constants only with at least 3 points (refuted for 2: C97_constant_refuted); rotations only for the minus1 version (refuted for the others: C97_rotation_refuted)"
  },
  {
   "property": "C98",
   "status": "partial",
   "theorems": [
    "C98_cheb_extrema_coeffs",
    "C98_cheb_extrema_eval",
    "C98_cheb_zeros_coeffs",
    "C98_cheb_zeros_eval",
    "C98_four_coeffs",
    "C98_four_eval",
    "C98_four_int",
    "C98_one_point_refuted",
    "C98_power_of_two",
    "C98_round_trip",
    "C98_three_points_differ",
    "C98_two_extrema_refuted"
   ],
   "note": "proved for 2^p points with p >= 1 (Chebyshev extrema: 2^p + 1); refuted for one point (reads outside) and for two Chebyshev extrema (c[0] doubled), which is_power_of_two accepts. Real arithmetic."
  },
  {
   "property": "C99",
   "status": "partial",
   "theorems": [
    "C99_choice",
    "C99_fftw_extrema_coeffs",
    "C99_fftw_extrema_eval",
    "C99_fftw_four_coeffs",
    "C99_fftw_four_eval",
    "C99_fftw_zeros_coeffs",
    "C99_fftw_zeros_eval",
    "C99_functions_agree",
    "C99_same_lines",
    "C99_same_matrices",
    "C99_without_fftw3"
   ],
   "note": "proved for at least two points (three for Chebyshev extrema); the two excluded cases are the refuted ones of C98. What fftw_execute computes is taken from the FFTW manual. Real arithmetic."
  },
  {
   "property": "C100",
   "status": "partial",
   "theorems": [
    "C100_flags",
    "C100_offset_refuted",
    "C100_outer",
    "C100_pairs",
    "C100_subset_refuted",
    "C100_whole_faces"
   ],
   "note": "Pairs are correct, mutual and cover whole faces when all boxes start at 0 and faces have equally many separated points. Refuted in general: wrong index of npoints for b0>0, and subset faces are paired."
  },
  {
   "property": "C101",
   "status": "partial",
   "theorems": [
    "C101_copy",
    "C101_interface",
    "C101_interp2",
    "C101_interp3",
    "C101_linear",
    "C101_no_derivative_without_touch",
    "C101_normal",
    "C101_normal_cartesian",
    "C101_onface",
    "C101_only_face_points",
    "C101_outdir",
    "C101_outdir_normal",
    "C101_outer_faces",
    "C101_same_coords",
    "C101_two_common_coordinates"
   ],
   "note": "Proved for copying and for 2D and 3D interpolation. The case of two common coordinates (1D interpolation) always exits: C101_two_common_coordinates."
  },
  {
   "property": "C102",
   "status": "partial",
   "theorems": [
    "C102_poisson2",
    "C102_poisson2_linear",
    "C102_poisson2_solution",
    "C102_poisson3_linear",
    "C102_poisson3_partial",
    "C102_poisson3_refuted"
   ],
   "note": "Poisson2: exact, with the meaning of the residuals. Poisson3: linear; the derivative for Chi everywhere and for Psi where (Chi-1)*lChi*Psizz = 0. Refuted for Psi elsewhere: J_Poisson3 lacks a factor Chi (C102_poisson3_refuted)."
  },
  {
   "property": "C103",
   "status": "partial",
   "theorems": [
    "C103_grid_simpson",
    "C103_grid_simpson_few",
    "C103_grid_simpson_old_partial",
    "C103_grid_simpson_old_refuted",
    "C103_grid_simpson_three_refuted",
    "C103_grid_trapez",
    "C103_integral3D",
    "C103_polint",
    "C103_polint_equal",
    "C103_romberg",
    "C103_romberg_exact",
    "C103_romberg_few",
    "C103_trapezoid"
   ],
   "note": "Proved for integral, polint, rombintegral with max >= 5, the trapezoidal sum, Simpson's rule with at least four points and integral3D. Refuted: rombintegral with max < 5 returns a variable that was never set (C103_romberg_few); integrate_simpson_1Dgrid uses the trapezoidal sum for three points; integrate_simpson_old_1Dgrid reads past its array for two points."
  },
  {
   "property": "C104",
   "status": "partial",
   "theorems": [
    "C104_kcount_refuted",
    "C104_negative_kmax_refuted",
    "C104_odeintegrate",
    "C104_path_between",
    "C104_rkck",
    "C104_rkqs",
    "C104_rkqs_ends"
   ],
   "note": "Proved for kmax >= 0. Refuted: with status -1 or -2 odeintegrate and odeintegrateP leave *kcount unchanged although points were recorded (C104_kcount_refuted); with kmax < 0 the end point is written outside of the arrays (C104_negative_kmax_refuted). The order is the statement of Butcher's order conditions over rooted trees."
  },
  {
   "property": "C105",
   "status": "partial",
   "theorems": [
    "C105_constraints",
    "C105_curvature",
    "C105_metric",
    "C105_psi_partial",
    "C105_psi_spin_refuted",
    "C105_setting"
   ],
   "note": "Refuted in part: with the conformal factor switched on and a spin that is not zero, the derivatives of psi that the code sets are not those of psi (C105_psi_spin_refuted: it uses x/r for the derivative of the Kerr radius). Metric, lapse, shift and extrinsic curvature are proved for every spin and both choices; the constraints and the derivatives of psi are proved for every spin without the conformal factor, and with it for a hole without spin (C105_psi_partial, C105_constraints). Numbers are reals; the numerical derivatives of g, K and alpha are taken as exact."
  },
  {
   "property": "C106",
   "status": "partial",
   "theorems": [
    "C106_driver",
    "C106_gauge_constraints",
    "C106_gauge_default_refuted",
    "C106_gauge_dtrK",
    "C106_gauge_flat",
    "C106_gauge_setting",
    "C106_gauge_slice",
    "C106_linear",
    "C106_linear_node",
    "C106_linear_slice",
    "C106_noise"
   ],
   "note": "Proved for a box of length L not 0 where 1+a>0. With the default amplitude TestID_amplitude=1 the gauge wave is degenerate where the sine is -1 (C106_gauge_default_refuted): the metric has no inverse and K divides by zero. C106_linear_node shows that the bound of second order is reached."
  },
  {
   "property": "C107",
   "status": "proved",
   "theorems": [
    "C107_convtest",
    "C107_energy",
    "C107_faces",
    "C107_ingoing",
    "C107_rho_pos",
    "C107_spherical",
    "C107_step",
    "C107_testwave"
   ],
   "note": "For points with r>0 (the code divides by r). Derivatives are exact. Dissipation, filters and boundary conditions called afterwards are other claims. For the energy, that time and space derivatives commute is a hypothesis."
  },
  {
   "property": "C108",
   "status": "proved",
   "theorems": [
    "C108_conj",
    "C108_eth",
    "C108_ethbar",
    "C108_north",
    "C108_orthonormal",
    "C108_wigner",
    "C108_wigner_PG"
   ],
   "note": "Doubles are real numbers; pow with integer exponents is exact."
  },
  {
   "property": "C109",
   "status": "proved",
   "theorems": [
    "C109_file",
    "C109_modes",
    "C109_octant_refuted",
    "C109_read",
    "C109_times"
   ],
   "note": "C109_modes, C109_read, C109_file, C109_times; C109_octant_refuted shows that the bound nphi > n3/4 for octant files is needed. Exact real arithmetic; text parsing of the files is not modelled."
  },
  {
   "property": "C110",
   "status": "partial",
   "theorems": [
    "C110_constant_refuted",
    "C110_empty",
    "C110_errors",
    "C110_idempotent_partial",
    "C110_keeps_partial",
    "C110_legendre",
    "C110_projects_partial",
    "C110_weights"
   ],
   "note": "Proved with the two decimal literals of s2kit (PI with 15 digits, 0.707106781186547) taken as exact (C110_projects_partial, C110_keeps_partial, C110_idempotent_partial). C110_constant_refuted: with the literals of the code a constant is multiplied by 2*0.707106781186547^2 when only l=0 is kept. Weights, errors, frame and the empty range of l need no such hypothesis."
  },
  {
   "property": "C111",
   "status": "partial",
   "theorems": [
    "C111_direction_partial",
    "C111_gradient",
    "C111_search_partial",
    "C111_shim_refuted",
    "C111_unique"
   ],
   "note": "Termination and meaning of the search need invertible difference-quotient matrices (otherwise newton_linesearch may stop early, see C61); even numbers of Fourier points are excluded where the derivative is meant (the lone cosine is dropped); the line search is proved for a sign change of the derivative; with the shim for NumericUtils the line search is undefined (C111_shim_refuted)."
  },
  {
   "property": "C112",
   "status": "partial",
   "theorems": [
    "C112_cartesian",
    "C112_checkerboard_refuted",
    "C112_dissipation",
    "C112_laplacian",
    "C112_off",
    "C112_rhs"
   ],
   "note": "C112_dissipation, C112_off, C112_rhs, C112_laplacian and C112_cartesian prove the statement for the code, with exact spectral derivatives of the function and of its gradient; in a Fourier direction with an even number of points the lone highest cosine is the exception: C112_checkerboard_refuted shows that data alternating in sign from point to point are not damped at all, for every even number of points."
  },
  {
   "property": "C113",
   "status": "partial",
   "theorems": [
    "C113_late_refuted",
    "C113_nothing",
    "C113_step",
    "C113_storage",
    "C113_switch_refuted"
   ],
   "note": "C113_step, C113_storage and C113_nothing prove it if the first call is made in iteration 0 and the method keeps its number of auxiliary lists. C113_late_refuted: a first call in a later iteration uses lists that do not exist. C113_switch_refuted: so does a change of evolution_method_rk to a method with more stages during a run."
  },
  {
   "property": "C114",
   "status": "partial",
   "theorems": [
    "C114_brent",
    "C114_golden",
    "C114_golden_ends",
    "C114_golden_refuted",
    "C114_linmin",
    "C114_mnbrak",
    "C114_mnbrak_refuted",
    "C114_powell"
   ],
   "note": "Proved over the reals for every function: mnbrak (C114_mnbrak), brent including that the uninitialized d is never read (C114_brent), golden (C114_golden, C114_golden_ends), linmin (C114_linmin), powell (C114_powell). Refuted: mnbrak need not return (C114_mnbrak_refuted, a function without a minimum), and golden never returns in exact arithmetic for a minimum at zero (C114_golden_refuted). Missing: that brent ends within its 100 passes and that powell ends within 200; both exit with nrerror otherwise."
  },
  {
   "property": "C115",
   "status": "proved",
   "theorems": [
    "C115_black_hole",
    "C115_conformally_flat",
    "C115_energy",
    "C115_finite_radius",
    "C115_integrand",
    "C115_limit"
   ],
   "note": "The stored derivatives are taken to be the exact ones of the fields (C07/C08 give when the spectral derivative is exact).  The flux carries det h, not its square root (finding 83); C115_energy and C115_finite_radius say what this does for a black hole."
  },
  {
   "property": "C116",
   "status": "proved",
   "theorems": [
    "C116_christoffel",
    "C116_metric",
    "C116_trace",
    "C116_wave"
   ],
   "note": ""
  },
  {
   "property": "C117",
   "status": "proved",
   "theorems": [
    "C117_curvature",
    "C117_lapse_shift",
    "C117_slice",
    "C117_spacetime"
   ],
   "note": "exact reals; Kerr3d.c as an expression at one point; the loops over boxes and points and the variable list are not modelled"
  },
  {
   "property": "C118",
   "status": "proved",
   "theorems": [
    "C118_accuracy_refuted",
    "C118_converges",
    "C118_result",
    "C118_root"
   ],
   "note": "exact reals, with infinities and NaN as values of the caller and of the function; that the tolerance alone does not bound the error is C118_accuracy_refuted"
  },
  {
   "property": "C119",
   "status": "proved",
   "theorems": [
    "C119_affine",
    "C119_error",
    "C119_quotients",
    "C119_quotients_par"
   ],
   "note": "exact reals; vecfunc is a function of its arguments"
  },
  {
   "property": "C120",
   "status": "proved",
   "theorems": [
    "C120_constraint",
    "C120_new",
    "C120_solution",
    "C120_symmetric"
   ],
   "note": "The tables are those of C116 and C117. Derivatives, source, filters and boundary conditions are inputs of the model."
  },
  {
   "property": "C121",
   "status": "partial",
   "theorems": [
    "C121_scheel_partial",
    "C121_scheel_refuted",
    "C121_second_order"
   ],
   "note": "True for Pi = psidot. Refuted for ScalarOnKerr_Pi_def = ScheelsPi: six mixed derivatives are read that nothing has set when the evolution is second order in space, and the rate of Pi depends on them (C121_scheel_refuted). Partial: if they held the mixed derivatives the rates would be those of C120."
  },
  {
   "property": "C122",
   "status": "proved",
   "theorems": [
    "C122_agree",
    "C122_frame",
    "C122_join"
   ],
   "note": "For n1 of at least 2 in every shell, the same n2 and n3, and points of equal position and metric. The penalty terms in if(0) are not modelled."
  },
  {
   "property": "C123",
   "status": "partial",
   "theorems": [
    "C123_constraint",
    "C123_frame",
    "C123_psi_partial",
    "C123_psi_refuted",
    "C123_radiative",
    "C123_step_refuted"
   ],
   "note": "The modes are right without a time step (C123_radiative, C123_constraint, C123_frame). Refuted: the rate of psi reads shift and phi at the flat index i instead of the point, so it is right only at the first point of the plane (C123_psi_refuted, C123_psi_partial); with a time step, as icn passes, values are taken for rates (C123_step_refuted)."
  },
  {
   "property": "C124",
   "status": "proved",
   "theorems": [
    "C124_Y22",
    "C124_kepler",
    "C124_rigid",
    "C124_rotation",
    "C124_shift"
   ],
   "note": "one line of points in the Fourier direction; exact reals; the sources of DV_CircSchwSource are not modelled"
  },
  {
   "property": "C125",
   "status": "proved",
   "theorems": [
    "C125_outgoing",
    "C125_schwarzschild",
    "C125_speed"
   ],
   "note": "one point; exact reals; derivatives of Pi given"
  },
  {
   "property": "C126",
   "status": "partial",
   "theorems": [
    "C126_accepts_partial",
    "C126_every_hole_refuted",
    "C126_near"
   ],
   "note": "Proved for mass 1 without spin: every right table is accepted (C126_accepts_partial) and everything accepted is right to 1e-13 (C126_near). False for other holes: with BHmass = 2 the start-up ends with an error (C126_every_hole_refuted); the source says 'works only for Schwarzschild' but also fixes M = 1."
  },
  {
   "property": "C127",
   "status": "proved",
   "theorems": [
    "C127_cut",
    "C127_cut_order",
    "C127_exchange",
    "C127_exchange_r",
    "C127_kepler",
    "C127_norms",
    "C127_phase",
    "C127_spinless",
    "C127_tanh_order",
    "C127_total",
    "C127_unit"
   ],
   "note": "Exact reals. C127_norms, C127_unit, C127_total, C127_exchange, C127_exchange_r, C127_phase, C127_cut, C127_cut_order and C127_tanh_order (the change by a cut-off is of higher order), C127_spinless, C127_kepler (radius without spins; its spin terms are checked by the exchange of the bodies only)."
  }
 ]
}