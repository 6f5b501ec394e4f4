{"id": "C01", "title": "Parameter files mean what they say", "statement": "Reading a parameter file assigns to the parameters named in it exactly the word lists written after the '=' signs, in file order (the last assignment to a name wins), no matter how the text is laid out: any amount and kind of white space or quotes between tokens and around '=', and '#' comments running to the end of a line, change nothing.", "quantifier": "all sequences of (name, list of words) and all layouts of them with white space, quotes and comments", "why_tests_cant": "the layouts and file contents are unbounded; a test fixes one layout", "anchors": ["src/main/main/parameters.c:parse_parameter_file"]}
{"id": "C02", "title": "The parameter data base behaves like a map", "statement": "After any history of creating, setting, appending to and looking up parameters and of moving the search start with Set_pdb_iStart_AtPar, Gets(name) returns the value most recently stored for that name, no call changes the value of another parameter, creating a parameter that already exists keeps its value, and looking up an unknown name with a fatal getter is an error.", "quantifier": "all operation histories, names, values and search-start positions", "why_tests_cant": "depends on the whole history and on the hidden search-start index", "anchors": ["src/main/main/parameters.c:findparameterindex,makeparameter,setparameter,AddOrModifyPar,Appends,Gets,GetsLax,Set_pdb_iStart_AtPar"]}
{"id": "C03", "title": "Getv answers word membership", "statement": "Getv(name,word) returns 1 exactly if word is one of the space separated words of the parameter's value.", "quantifier": "all values and all words", "why_tests_cant": "depends on where substrings overlap in arbitrary strings", "anchors": ["src/main/main/parameters.c:GetvFlag,Getv,GetvLax"]}
{"id": "C04", "title": "NextEntry enumerates a list", "statement": "Repeated calls of NextEntry(list) return the words of a single-space separated list in order, then 0, after which the enumeration can be restarted.", "quantifier": "all lists of words and any number of complete enumerations", "why_tests_cant": "lists are unbounded and the iterator keeps hidden static state between calls", "anchors": ["src/main/main/parameters.c:NextEntry"]}
{"id": "C05", "title": "Variable registry is consistent", "statement": "After any history of AddVar calls of one program run (no restart) with full component names of at most 99 characters that did not abort, Ind(fullname) returns the index under which that full name was registered, independent of the search-start index; the components of one AddVar call occupy consecutive indices; IndComponent0 maps every component to the first of its group and VarNComponents gives the group size.", "quantifier": "all histories of AddVar with all names and index lists, all search-start positions", "why_tests_cant": "depends on the whole registration history", "anchors": ["src/main/main/variables.c:AddVar,Ind,IndLax,IndComponent0,VarNComponents,VarName"]}
{"id": "C06", "title": "AddConstantVar marks the variable it names", "statement": "After AddConstantVar(name,...) the constant flag of every component of that variable is set and the flags of all other variables are unchanged.", "quantifier": "all registries, including re-registration after a restart", "why_tests_cant": "depends on the registry state left by earlier runs", "anchors": ["src/main/main/variables.c:AddConstantVar,AddVar,VarNameSetConstantFlag"]}
{"id": "C07", "title": "Variable-list operations obey list algebra", "statement": "vlpush, vlpushone, vlpushvl, vldrop, vldropone, vldropn and vlduplicate transform the sequence of variables in a list exactly as documented: pushing appends (all components of the variable), dropping removes one occurrence keeping the order of the others, duplicating gives an equal independent list. AddDuplicate(list, postfix) returns, in the same order, the variables named with the postfix: existing ones are used, missing ones are created once as copies, and no existing variable changes.", "quantifier": "all lists, variables and sequences of operations", "why_tests_cant": "all lengths and all histories of operations", "anchors": ["src/main/main/variables.c:vlpushone,vlpush,vlpushvl,vldropone,vldrop,vldropn,vlduplicate,AddDuplicate"]}
{"id": "C08", "title": "Tensor components carry the right reflection signs", "statement": "For every tensor index string tensorindexlist understands, the list of components has the length that the symmetries demand without repetition, and the sign stored for a component and a reflection of direction d is (-1)^(number of indices of that component equal to d).", "quantifier": "all index strings of the documented table, all components, all three directions", "why_tests_cant": "finite but large table; a test compares only a few tensors", "anchors": ["src/main/main/tensors.c:tensorindexlist"]}
{"id": "C09", "title": "Hook functions run in registration order", "statement": "RunFun(bin) calls every function added to that bin by AddFun exactly once and in the order in which they were added, and functions of other bins are not called; after a restart AddFun adds nothing twice.", "quantifier": "all histories of AddFun/remove_all_Funs over all bins", "why_tests_cant": "depends on the history of registrations", "anchors": ["src/main/main/skeleton.c:AddFun,RunFun,remove_all_Funs"]}
{"id": "C10", "title": "Linear combinations of variable lists are pointwise and alias safe", "statement": "vladd(r,ca,a,cb,b) leaves in r, at every grid point of every active box, ca*a+cb*b, and combines the times in the same way, also when r is the same list as a or b and for the special coefficient 0; vlcopy, vlsubtract, vladdto, vlaverage and vlswap behave as the corresponding special cases; variables outside r and inactive boxes do not change.", "quantifier": "all grids, coefficient values, list lengths and aliasing patterns", "why_tests_cant": "all grid sizes, coefficients and aliasing combinations", "anchors": ["src/main/main/variables.c:vladd,vladdto,vlcopy,vlsubtract,vlaverage,vlswap"]}
{"id": "C11", "title": "Variable storage bookkeeping", "statement": "After any sequence of enabling and disabling variables on a grid, a variable has storage in every box exactly if it was enabled last, no storage is allocated twice or freed twice, enabling an already enabled variable keeps its data, and the enabled counter equals the number of variables that own storage.", "quantifier": "all sequences of enable/disable operations on grids of any size", "why_tests_cant": "depends on the history of operations", "anchors": ["src/main/MemoryMan/storage.c:enablevarcomp_inbox,disablevarcomp_inbox,enablevarlist,disablevarlist"]}
{"id": "C12", "title": "Box-face lists stay consistent", "statement": "After any sequence of adding and removing box faces of a box, the faces are numbered 0..nbfaces-1 and every face stores its own position; removing a face keeps the others in order.", "quantifier": "all sequences of add/remove operations", "why_tests_cant": "depends on the history of operations", "anchors": ["src/main/MemoryMan/storage.c:add_empty_bface,remove_bface"]}
{"id": "C13", "title": "Integer-list templates implement lists", "statement": "push, pushlist, unionpush, dropindex, drop, droplastn, droplist, duplicate, in, index of the list templates implement the corresponding operations on finite sequences, and unionpush never creates duplicates.", "quantifier": "all lists and all operation histories", "why_tests_cant": "all lengths and histories", "anchors": ["src/main/MemoryMan/list_templates.c"]}
{"id": "C14", "title": "Point lists record exactly the added points", "statement": "After any history of AddToPointList and DropFromPointList the list of a box holds the points that were added and not dropped, boxes that never got a point hold none, and duplicating a point list gives an equal list without touching memory outside the new one.", "quantifier": "all histories, all boxes and point indices", "why_tests_cant": "depends on the history; the memory error shows only for enough boxes", "anchors": ["src/main/MemoryMan/points.c:AddToPointList,DropFromPointList,DuplicatePointList_for_grid"]}
{"id": "C15", "title": "Active-box bookkeeping", "statement": "After any sequence of activating and deactivating boxes grid->ninactive is the number of inactive boxes, and IndexOf_ith_ActiveBox(grid,i) is the index of the i-th active box in increasing order, or -1 if there is none.", "quantifier": "all sequences of activations on any number of boxes", "why_tests_cant": "depends on the history and on the number of boxes", "anchors": ["src/main/MemoryMan/grid.c:set_ninactive,activate_box,deactivate_box,IndexOf_ith_ActiveBox"]}
{"id": "C16", "title": "Index macros are a bijection between triples and points", "statement": "Index(i,j,k) maps {0..n1-1}x{0..n2-1}x{0..n3-1} one-to-one onto {0..n1*n2*n3-1}, and iOfInd, jOfInd and kOfInd invert it.", "quantifier": "all box sizes and all indices", "why_tests_cant": "all sizes", "anchors": ["src/main/main/sgrid_main.h:Index,Ind_n1n2,iOfInd,jOfInd,kOfInd"]}
{"id": "C17", "title": "Plane loops visit each point of the plane once", "statement": "forplane1/2/3, forplaneN and forinnerplaneN visit every (interior) point of the chosen plane exactly once and nothing else, and the _nojump variants do so moving to a neighbouring point in every step.", "quantifier": "all box sizes, planes and positions", "why_tests_cant": "all sizes", "anchors": ["src/main/MemoryMan/sgrid_MemoryMan_loops.h"]}
{"id": "C18", "title": "Subbox blocks tile the grid", "statement": "The parallel loop over variables, active boxes and subboxes visits each (variable, active box, subbox) combination exactly once, and the index ranges of the subboxes of a box tile the box: every point lies in exactly one subbox, for any numbers of subboxes.", "quantifier": "all numbers of variables, boxes, subboxes and points", "why_tests_cant": "all sizes, including numbers of points not divisible by the numbers of subboxes", "anchors": ["src/utility/GridIterators/sgrid_GridIterators.h:forallVarsBoxesAndSubboxes_defIndices,IndexRangesInSubbox"]}
{"id": "C19", "title": "Binary doubles are portable", "statement": "Doubles written with fwrite_double_little on a host of either byte order and read with fread_double_little on a host of either byte order come back bit for bit, and the bytes in the file do not depend on the writing host.", "quantifier": "all bit patterns, all counts, both byte orders", "why_tests_cant": "tests run on one host with a few values; NaN payloads, signed zeros and subnormals are covered too", "anchors": ["src/main/main/endianIO.c:fwrite_double_little,fread_double_little,swapbytes_fwrite,swapbytes_fread"]}
{"id": "C20", "title": "Checkpoint files round-trip", "statement": "A checkpoint that was written completely and is then read on a grid with the same boxes restores the value of every parameter (except those on the no-read list and those unknown to the reader) and every point value of every stored variable bit for bit; nothing else changes.", "quantifier": "all parameter data bases, variable lists, boxes and bit patterns of data (including bytes that look like header text)", "why_tests_cant": "the data are arbitrary bytes that can look like the text the reader searches for", "anchors": ["src/utility/checkpoint/checkpoint_write.c:checkpoint_write_local", "src/utility/checkpoint/checkpoint_read.c", "src/utility/checkpoint/wolfio.c"]}
{"id": "C21", "title": "A crash never destroys the last good checkpoint of the directory", "statement": "At whatever point a process writing a checkpoint stops, the checkpoint file of the output directory holds either the complete previous or the complete new checkpoint.", "quantifier": "all crash points and all write failures during a checkpoint write", "why_tests_cant": "crash points cannot be enumerated by tests", "anchors": ["src/utility/checkpoint/checkpoint_write.c:checkpoint_write"]}
{"id": "C22", "title": "Restart rotation keeps a usable checkpoint", "statement": "Over any history of runs, each starting by rotating outdir to outdir_previous and copying the checkpoint back and each killed at an arbitrary point, once a complete checkpoint exists some directory that the next start uses still holds a complete checkpoint.", "quantifier": "all histories of runs and crash points", "why_tests_cant": "depends on sequences of crashes at particular points", "anchors": ["src/main/main/main.c:make_output_directory", "src/utility/checkpoint/checkpoint.c:checkpoint,checkpoint_copy_output"]}
{"id": "C23", "title": "Evolution loop timing", "statement": "An evolution that is not stopped early does exactly the requested number of iterations, grid->time equals iteration*dt after each of them, hook bins run in the documented order in every iteration, and lowering finaltime or iterations during the run is honoured at the next step.", "quantifier": "all initial iterations, dt, final times and hook behaviours", "why_tests_cant": "all numbers of steps and all behaviours of user hooks", "anchors": ["src/main/main/main.c:evolve_grid"]}
{"id": "C24", "title": "Output schedule", "statement": "With an output interval dt not smaller than the time step, each output time k*dt is output exactly once, at the step closest to it, with output number k+1; with an iteration interval di exactly the multiples of di are output with number iteration/di+1.", "quantifier": "all time steps, output intervals and iteration counts", "why_tests_cant": "all step/interval ratios over all of an infinite run", "anchors": ["src/utility/output/output.c:timeforoutput_di_dt"]}
{"id": "C25", "title": "Runge-Kutta tables have their order", "statement": "Each Runge-Kutta method selectable by evolution_method_rk satisfies all order conditions up to its nominal order, its weights sum to one, and a step ends at time t+dt with every stage evaluated at t + dt times its row sum.", "quantifier": "all right-hand sides, states and step sizes", "why_tests_cant": "order is a property of all right-hand sides", "anchors": ["src/utility/evolve/rk.c"]}
{"id": "C26", "title": "The low-storage RK4 equals the table-driven RK4", "statement": "evolve_rk_rk4 computes the same new state as the generic Runge-Kutta driver with the rk4 table, for every right-hand side.", "quantifier": "all right-hand sides, states, step sizes", "why_tests_cant": "all right-hand sides", "anchors": ["src/utility/evolve/rk.c:evolve_rk_rk4,evolve_rk_generic"]}
{"id": "C27", "title": "Sparse matrix-vector products", "statement": "SparseMatrixLines_times_vector computes sum_j A_ij x_j, the transposed and left versions sum_i x_i A_ij, and the row-parallel product does not depend on the order or interleaving of the rows.", "quantifier": "all matrices, vectors and schedules", "why_tests_cant": "all sizes and all schedules", "anchors": ["src/utility/LinAlg/SparseVector_utils.c"]}
{"id": "C28", "title": "Conversion to compressed columns", "statement": "The compressed-column arrays handed to UMFPACK describe exactly the entries with |A_ij| > dropbelow, with row indices strictly increasing within each column, and never overrun the arrays allocated for them.", "quantifier": "all matrices, sizes and drop tolerances", "why_tests_cant": "all sizes and sparsity patterns", "anchors": ["src/utility/LinAlg/umfpack_di_interface.c:set_umfpack_di_matrix_from_lines,set_umfpack_di_matrix_from_columns"]}
{"id": "C29", "title": "Matrix built by probing equals the linear operator", "statement": "For a linear operator Fx, the sparse matrix built by SetMatrixLines_slowly / SetMatrixColumns_slowly multiplied with the flattened vector gives the flattened Fx of that vector, and the probing leaves the probe variables zero.", "quantifier": "all linear operators, grids and variable lists", "why_tests_cant": "all operators and sizes", "anchors": ["src/utility/LinAlg/ReadMatrixFrom_Fx.c"]}
{"id": "C30", "title": "Flattening grid functions is a bijection", "statement": "copy_varlist_into_array followed by copy_array_into_varlist (and the sorted, outer-list and subbox variants) restores the variables, the array has the documented layout, and different (variable, box, point) triples occupy different array slots that fill the array without gaps.", "quantifier": "all grids, lists and data", "why_tests_cant": "all sizes", "anchors": ["src/utility/GridIterators/utility.c:copy_varlist_into_array,copy_array_into_varlist,copy_varlistCompInSubbox_into_array"]}
{"id": "C31", "title": "bicgstab reports the truth", "statement": "On return from bicgstab *normres is the norm of b-Ax for the returned x, and the return value is non-negative exactly if that norm is within the tolerance.", "quantifier": "all linear operators, preconditioners, right-hand sides and iteration limits", "why_tests_cant": "all operators and iteration histories", "anchors": ["src/utility/GridIterators/bicgstab.c:bicgstab"]}
{"id": "C32", "title": "SOR fixed points are solutions", "statement": "A SOR sweep leaves x unchanged exactly if A x = b, reads each off-diagonal entry with the newest values, and matrix_SOR reports the residual norm of the x it returns.", "quantifier": "all matrices without repeated entries and nonzero diagonal, all vectors and relaxation factors", "why_tests_cant": "all sizes and matrices", "anchors": ["src/utility/GridIterators/SOR.c"]}
{"id": "C33", "title": "Newton reports the residual of what it returns", "statement": "On return from Newton the reported residual is the norm of F(u) at the returned u, and a return value below itmax implies that it is within the tolerance.", "quantifier": "all nonlinear functions, linear solvers, step hooks and iteration limits", "why_tests_cant": "all functions and hook behaviours", "anchors": ["src/utility/GridIterators/Newton.c:Newton"]}
{"id": "C34", "title": "Chebyshev transforms invert each other", "statement": "Evaluating the coefficients computed from grid values returns these values (and vice versa), for the extrema and for the zeros grid.", "quantifier": "all numbers of points and all real grid values", "why_tests_cant": "identity of trigonometric sums for every N", "anchors": ["src/utility/Spectral/explicit_Cheb_trafos.c:cheb_coeffs_fromExtrema,cheb_eval_onExtrema,cheb_coeffs_fromZeros,cheb_eval_onZeros"]}
{"id": "C35", "title": "Chebyshev evaluation is the Chebyshev sum", "statement": "cheb_eval(a,b,c,n,X) equals c0/2 + sum_k c_k T_k(y(X)), agrees with the values used on the grid, and T_k(cos t)=cos(k t).", "quantifier": "all coefficients, intervals and points", "why_tests_cant": "all orders", "anchors": ["src/utility/Spectral/explicit_Cheb_trafos.c:cheb_eval,cheb_basisfunc"]}
{"id": "C36", "title": "Chebyshev derivative and integral coefficients are exact", "statement": "cheb_deriv returns the coefficients of the exact derivative of the represented function; cheb_int returns those of the antiderivative that vanishes at X=b (reduced coordinate -1), provided the highest coefficient is zero.", "quantifier": "all coefficient vectors, orders and intervals", "why_tests_cant": "all orders and polynomials", "anchors": ["src/utility/Spectral/explicit_Cheb_trafos.c:cheb_deriv,cheb_int"]}
{"id": "C37", "title": "Fourier transforms invert each other", "statement": "four_eval of four_coeffs returns the original values, for even and odd numbers of points, and four_coeffs of four_eval returns the coefficients.", "quantifier": "all numbers of points and all values", "why_tests_cant": "identity of trigonometric sums for every N", "anchors": ["src/utility/Spectral/explicit_Four_trafos.c:four_coeffs,four_eval"]}
{"id": "C38", "title": "Fourier derivative is the exact derivative of the interpolant", "statement": "For data that are samples of a trigonometric polynomial below the Nyquist frequency, evaluating four_deriv of the coefficients gives the samples of the exact derivative.", "quantifier": "all numbers of points and band-limited functions, all interval lengths", "why_tests_cant": "all N and functions", "anchors": ["src/utility/Spectral/explicit_Four_trafos.c:four_deriv"]}
{"id": "C39", "title": "Spectral interpolation reproduces grid values", "statement": "Summing coefficients times basis functions at a grid point returns the value at that grid point, wherever the box is located.", "quantifier": "all boxes, grid points and data", "why_tests_cant": "depends on the location of the box", "anchors": ["src/utility/Spectral/explicit_Four_trafos.c:four_basisfunc", "src/utility/Spectral/explicit_Cheb_trafos.c:cheb_basisfunc", "src/utility/Spectral/interpolate.c:spec_interpolate"]}
{"id": "C40", "title": "Finite-difference stencils have second order everywhere", "statement": "The centred stencils with one-sided boundary closures differentiate every quadratic exactly at all points including the boundaries (second derivative: every cubic), the periodic versions wrap correctly, and no stencil reads outside the line.", "quantifier": "all grid sizes, spacings and polynomials of that degree", "why_tests_cant": "all sizes and polynomials", "anchors": ["src/utility/Spectral/finite_differences.c"]}
{"id": "C41", "title": "Differentiation matrices equal the transform pipeline", "statement": "Multiplying with the matrix built by initdiffmatrix gives the same derivative as transforming, differentiating the coefficients and transforming back, for every line of data.", "quantifier": "all linear transforms, sizes and data", "why_tests_cant": "all sizes", "anchors": ["src/utility/Spectral/diffmatrices.c:initdiffmatrix,initdiffmatrix2", "src/utility/Spectral/matrices.c:matrix_times_vector"]}
{"id": "C42", "title": "Derivatives act along one coordinate line", "statement": "spec_Deriv1 in direction d at a point depends only on the values on the coordinate line through that point in direction d, and equals the 1d operation on this line; lines are processed independently so the order (or parallel schedule) does not matter; spec_allDerivs gives the same mixed derivatives for every order of directions.", "quantifier": "all box sizes, directions, points, data and schedules", "why_tests_cant": "all sizes and schedules", "anchors": ["src/utility/Spectral/derivs.c:spec_Deriv1,spec_Deriv2,spec_allDerivs,get_memline,put_memline"]}
{"id": "C43", "title": "Spectral definite integrals are exact", "statement": "The Chebyshev and Fourier integrals returned by spec_Integral1 equal the exact integral over the box of the function represented by the coefficients.", "quantifier": "all numbers of points, intervals and data", "why_tests_cant": "all N", "anchors": ["src/utility/Spectral/integrals.c:spec_Integral1"]}
{"id": "C44", "title": "Double-Fourier sphere integrals", "statement": "spec_sphericalDF2dIntegral integrates the represented function over the sphere exactly.", "quantifier": "all numbers of points and data", "why_tests_cant": "wrong only for particular numbers of points", "anchors": ["src/utility/Spectral/integrals.c:spec_sphericalDF2dIntegral"]}
{"id": "C45", "title": "LU solve solves", "statement": "If lu_decomp returns 0 and met no zero pivot, lu_solve overwrites b with x such that A x = b for the original A; nonsingular matrices never meet a zero pivot.", "quantifier": "all sizes, matrices and right-hand sides (exact arithmetic)", "why_tests_cant": "all sizes and pivoting patterns", "anchors": ["src/utility/numerics/lu.c:lu_decomp,lu_solve"]}
{"id": "C46", "title": "Bracketing root finders keep the bracket", "statement": "rtbisect and newton1d_brak only return points inside the initial bracket; if they return a number of iterations not exceeding maxits for a continuous function, a root lies within the accuracy goal of the returned point; rt_brak returns success only with a sign-changing bracket containing the initial interval.", "quantifier": "all functions, brackets, guesses, tolerances and iteration limits (exact arithmetic)", "why_tests_cant": "all functions", "anchors": ["src/utility/numerics/newton1d_brak.c:rtbisect,newton1d_brak", "src/utility/numerics/rt_brak.c:rt_brak"]}
{"id": "C47", "title": "finit detects all non-finite doubles", "statement": "finit(x) is 0 exactly for infinities and NaNs.", "quantifier": "all 2^64 bit patterns", "why_tests_cant": "2^64 cases", "anchors": ["src/main/main/utilities.c:finit"]}
{"id": "C48", "title": "Closest-index search", "statement": "find_ind_closest_to_X0 returns an index whose coordinate is closest to X0, for every strictly increasing coordinate line.", "quantifier": "all coordinate lines and targets", "why_tests_cant": "all sizes and positions", "anchors": ["src/utility/output/output.c:find_ind_closest_to_X0"]}
{"id": "C49", "title": "Argument-file lines are distributed over processes", "statement": "When a file with argument lines is run by several processes, every line is run by exactly one process, each process runs its lines in file order.", "quantifier": "all numbers of lines and processes", "why_tests_cant": "all numbers of processes", "anchors": ["src/main/main/main.c:main,get_next_argument_line"]}
{"id": "C50", "title": "Three-dimensional spectral transforms factorise", "statement": "spec_Eval inverts spec_Coeffs on 3d boxes whenever the three 1d transforms are inverted by their evaluations, and the transforms along different directions commute.", "quantifier": "all box sizes, 1d linear transforms and data", "why_tests_cant": "all sizes", "anchors": ["src/utility/Spectral/interpolate.c:spec_Coeffs,spec_Eval", "src/utility/Spectral/spec_coeffs.c:spec_analysis1,spec_synthesis1"]}
{"id": "C51", "title": "Box lists", "statement": "bladd_neighbors appends the neighbours of a box that are not yet in the list, each once; bladd_neighbors_of_neighbors appends exactly the boxes that are neighbours of a neighbour but neither neighbours nor the box itself, each once; the attribute functions append the active boxes (or the boxes of a list) with or without an attribute value, in order.", "quantifier": "all grids, all neighbour relations, all lists", "why_tests_cant": "depends on the whole neighbour graph", "anchors": ["src/main/MemoryMan/boxlists.c:bladd_neighbors,bladd_neighbors_of_neighbors,bladd_ifAttrib,bl2_ifAttrib"]}
{"id": "C52", "title": "Loops over point lists visit the points", "statement": "forPointList visits exactly the points of the list in the active boxes, in order, without touching memory outside the list.", "quantifier": "all point lists and all sets of active boxes", "why_tests_cant": "the macro reads the first entry of every box before testing whether there is one", "anchors": ["src/main/MemoryMan/sgrid_MemoryMan_loops.h:forPointList,forPointList_inbox"]}
{"id": "C53", "title": "Command line options modify parameters", "statement": "Every command line option --modify-par:P=v sets the parameter P to v after the parameter file was read; options are applied in the order given, the last value wins, all other parameters keep their value; the parameter file name gets .par appended unless it has it, and the output directory is that name without .par.", "quantifier": "all numbers, orders and texts of options and arguments", "why_tests_cant": "names and values are arbitrary strings that can look like option syntax", "anchors": ["src/main/main/main.c:read_command_line", "src/main/main/main.c:parse_command_line_options"]}
{"id": "C54", "title": "Iterative Crank-Nicholson is second order; Euler is Euler", "statement": "evolve_icn is an explicit method of order exactly two, evaluating the right-hand side in the middle of the step, and evolve_euler adds dt times the right-hand side at the old state.", "quantifier": "all right-hand sides, states and step sizes", "why_tests_cant": "order is a property of all right-hand sides", "anchors": ["src/utility/evolve/icn.c:evolve_icn,evolve_euler"]}
{"id": "C55", "title": "WTiterator never increases the residual", "statement": "WTiterator always ends (exact arithmetic), moves x along the negative gradient of |Ax-b|^2, never increases the residual, reports the residual of the x it returns, and returns at most itmax exactly if this is within the tolerance.", "quantifier": "all square sparse matrices, right-hand sides, initial guesses, tolerances and iteration limits", "why_tests_cant": "all matrices and step histories", "anchors": ["src/utility/GridIterators/WTsolver.c:WTiterator"]}
{"id": "C56", "title": "Box coordinates and matrices belong together", "statement": "After set-up of a box direction with a spectral basis, the coordinates increase strictly inside the bounding box, and for all data on a line: the coefficient matrix gives coefficients of a function that interpolates the data at exactly these coordinates, the evaluation matrix inverts it, D and DD give the first and second derivative of this function at the coordinates, the filter matrix removes exactly the requested number of highest coefficients, and the integration matrix gives an antiderivative. Every basis that can be chosen can be set up.", "quantifier": "all numbers of points, bounding boxes, filter amounts and data", "why_tests_cant": "needs agreement of three independently coded formulas for every size", "anchors": ["src/main/MemoryMan/grid.c:set_BoxStructures_fromPars", "src/utility/Spectral/diffmatrices.c:initdiffmatrix", "src/utility/Spectral/diffmatrices.c:initIntegrationMatrix", "src/utility/Spectral/filters.c:initfiltermatrix", "src/utility/Spectral/spec_coeffs.c:get_spec_functionpointers"]}
{"id": "C57", "title": "Filters remove exactly the chosen coefficients", "statement": "spec_filter1 replaces every line by the function without its filt highest coefficients; spec_filter3d_inbox with non-negative cutoffs keeps the coefficients with every index below its cutoff, sets all others to zero, and returns the values of the function with these coefficients; cutoffs not smaller than the numbers of points change nothing.", "quantifier": "all box sizes, spectral bases, cutoffs >= 0, data, schedules", "why_tests_cant": "all sizes and cutoffs; the three clearing loops must cover exactly the complement", "anchors": ["src/utility/Spectral/filters.c:spec_filter1,spec_filter3d_inbox"]}
{"id": "C58", "title": "LU determinant", "statement": "lu_det applied to the result of lu_decomp returns the determinant of the matrix.", "quantifier": "all sizes and matrices (exact arithmetic)", "why_tests_cant": "all sizes, pivoting patterns and singular matrices", "anchors": ["src/utility/numerics/lu.c:lu_det,lu_decomp"]}
{"id": "C59", "title": "Brent's root finder", "statement": "rtbrent_brak refuses ends of equal sign with an error code and leaves *x0 alone; otherwise it returns a point of the bracket, and unless it ran out of iterations a root of a continuous function lies within xacc + 4e-14|*x0| of it.", "quantifier": "all functions, brackets, tolerances, iteration limits (exact arithmetic)", "why_tests_cant": "all functions", "anchors": ["src/utility/numerics/rtbrent_brak.c:rtbrent_brak"]}
{"id": "C60", "title": "Bracketing and finding a minimum", "statement": "min_brak returns three ordered points with their values, the middle one lowest if it did not run out of iterations; minbrent_brak stays inside the bracket, never returns a value larger than at its start, and on convergence a local minimum of a continuous function lies within 2(tol|xmin|+1e-10).", "quantifier": "all functions, starting points, tolerances, iteration limits, and all values of the uninitialised variable d (exact arithmetic)", "why_tests_cant": "all functions; the code reads an uninitialised variable", "anchors": ["src/utility/numerics/minbrent_brak.c:minbrent_brak,min_brak"]}
{"id": "C61", "title": "Newton iteration with line search", "statement": "newton_linesearch terminates for every system: it returns 0 if the start is already a solution; otherwise the energy |F|^2/2 at the returned x is not above the initial one, a return value in 1..itmax with *check=0 means a solution to tolf, *check=1 means a spurious minimum of the energy, and a negative value means itmax was exceeded. Affine systems with an invertible matrix are solved in one step if the solution is not further away than the largest step. The program is never aborted.", "quantifier": "all functions F, dimensions, starting points, itmax, tolerances and contents of the malloc'd work arrays (exact arithmetic)", "why_tests_cant": "the line search loop has no iteration bound in the source; all functions F; the claim about *check and abort() fails only for singular matrices, which tests rarely meet", "anchors": ["src/utility/numerics/newton_linesearch.c:newton_linesearch,fd_jacobianP,f_to_minimize_in_linesrchP,linesrchP"]}
{"id": "C62", "title": "Attenuation functions are smooth steps with the stated ends, slope and derivative", "statement": "Att_0to1_x_x0_w_q_s is 0 up to x0, 1 from x0+w on, between 0 and 1 inside and never decreasing; Att_1to0 is exactly its complement; the dAtt functions are the true derivatives at every point, the two ends included; Attenuation01 passes 1/2 at p with slope s.", "quantifier": "all reals x, x0, w>0, s>0, q not 0 (and 0<p<1)", "why_tests_cant": "A derivative is a limit and the joins at the ends are points where finite differences of sampled values cannot tell a smooth from a kinked function.", "anchors": ["src/utility/NumericUtils/attenuation.c:Attenuation01", "src/utility/NumericUtils/attenuation.c:Att_0to1_x_x0_w_q_s", "src/utility/NumericUtils/attenuation.c:dAtt_0to1_x_x0_w_q_s", "src/utility/NumericUtils/attenuation.c:Att_1to0_x_x0_w_q_s"]}
{"id": "C63", "title": "Coordinate derivative tables belong to the coordinate map", "statement": "For each curvilinear coordinate system a box can use (Polar, PolarCE, SphericalDF, compactSphericalDF, Spherical, Spherical2, Spherical3, tan_stretch), the functions a box stores for dX_i/dx_k are, at every regular point, the inverse of the Jacobian matrix of the stored coordinate map x(X),y(X),z(X), and the functions stored for d^2X_i/dx_m dx_n (where set) are the Cartesian derivatives of the dX_i/dx_m.", "quantifier": "all points off the coordinate singularities, all parameter values and numbers of points", "why_tests_cant": "There are more than a hundred generated formulas over continuous domains; a numeric spot check at some points cannot show that a formula is the derivative everywhere, nor pick up a table entry that is only wrong where two angles differ.", "anchors": ["src/utility/Coordinates/Coordinates.c:init_CoordTransform_And_Derivs", "src/utility/Coordinates/Coordinates.c:dYPolarCE_dx", "src/utility/Coordinates/Coordinates.c:ddU_Spherical3_dxdx"]}
{"id": "C64", "title": "Cartesian first derivatives by the chain rule", "statement": "After the coordinate set-up of a box, the stored x, y, z and the stored coordinate-derivative variables at every grid point are the values of the coordinate transformation and its derivative tables at that point, and asking for the Cartesian derivatives of a grid function leaves in the three result variables exactly sum_i dX_i/dx_m * D_i u at every point (D_m u itself when the box has no transformation), with no other variable changed; if the D_i are exact at a point and the tables are the inverse Jacobian, that is the true Cartesian gradient there.", "quantifier": "all boxes, numbers of points, variable layouts with distinct indices, coordinate systems, grid functions and linear or non-linear derivative operators", "why_tests_cant": "One routine writes into the variables another reads; a test on one coordinate system and one layout cannot show absence of aliasing or index slips for all.", "anchors": ["src/utility/Coordinates/cartesianDerivs.c:cart_partials", "src/utility/Coordinates/Coordinates.c:compute_xyz_dXYZdxyz_ddXYZddxyz"]}
{"id": "C65", "title": "Cartesian second derivatives", "statement": "Asking for all first and second Cartesian derivatives leaves in the six second-derivative variables sum_ij X_i,m X_j,n D_ij u + sum_i X_i,mn D_i u at every point, and the gradient in the three first-derivative variables; it stops with an error for coordinates that have no second-derivative tables; if the D_i, D_ij are exact and the tables consistent with the transformation near the point, the values are the true Hessian.", "quantifier": "all boxes, layouts, coordinates with second derivatives, grid functions", "why_tests_cant": "Second derivatives of the coordinates enter with symmetric index pairs; a test of one function in one coordinate system leaves index-pair slips undetected.", "anchors": ["src/utility/Coordinates/cartesianDerivs.c:cart_partial_all"]}
{"id": "C66", "title": "Derivatives of tensors", "statement": "For a scalar, vector or symmetric tensor stored in consecutive variables, the first-derivative routine leaves the gradient of component k in the three variables dS+3k.., the second-derivative routines leave the six second derivatives in ddS+6k.., computed as repeated first derivatives when Coordinates_useDD is no and by the second-derivative operators otherwise, and change nothing else.", "quantifier": "all component counts, boxes, layouts with disjoint ranges, coordinate systems", "why_tests_cant": "Each tensor component writes three or nine variables; the repeated-derivative version overwrites mixed derivatives, and only a proof over all components shows which value survives.", "anchors": ["src/utility/Coordinates/cartesianDerivs.c:FirstDerivsOf_Sab", "src/utility/Coordinates/cartesianDerivs.c:FirstAndSecondDerivsOf_Sab", "src/utility/Coordinates/cartesianDerivs.c:allDerivsOf_Sab", "src/utility/Coordinates/cartesianDerivs.c:D_and_DD_of_S"]}
{"id": "C67", "title": "3x3 inverses and second derivatives of coordinate maps", "statement": "The 3x3 inverse is the unique two-sided inverse whenever the determinant is not zero (for a zero determinant the routine silently returns a matrix that annihilates its argument); determinants multiply; the routine for d2X/dxdx returns the Cartesian derivatives of the inverse Jacobian for any twice differentiable map, from the upper triangle of second derivatives only; the routines for composed maps return the first and second derivatives of the composition; the self-check returns 0 exactly when the stored tables are inverse to each other.", "quantifier": "all real matrices and tensors, all twice differentiable coordinate maps and points", "why_tests_cant": "Index gymnastics over 243 terms and symmetric storage; numeric examples do not show that the formula is a derivative.", "anchors": ["src/utility/Coordinates/transfDerivs.c:dXdx_from_dxdX", "src/utility/Coordinates/transfDerivs.c:ddXdxdx_from_dXdx_ddxdXdX", "src/utility/Coordinates/transfDerivs.c:ddxdXdX_from_dxdU_dUdX_ddxdUdU_ddUdXdX", "src/utility/Coordinates/transfDerivs.c:check_box_dx_dX"]}
{"id": "C68", "title": "Angles and complex tanh", "statement": "BaseAngle returns the unique representative of an angle modulo the period in [p0,p0+period); Arg and Arg_plus return the unique polar angle of (x,y) in (-pi,pi] and [0,2pi); the dArg functions are its derivatives everywhere off the cut; Retanh, Imtanh, Abstanh, Argtanh, Abssech and Argsech are real part, imaginary part, modulus and argument of tanh z and 1/cosh z, and the ten derivative functions of Argtanh and Abstanh are their true first and second derivatives away from zeros and poles.", "quantifier": "all real x, y, periods>0, and all points except the stated exceptions", "why_tests_cant": "Derivatives and uniqueness over the plane, including the branch cut and the axes where the code switches formula.", "anchors": ["src/utility/Coordinates/ComplexFunctions.c:BaseAngle", "src/utility/Coordinates/ComplexFunctions.c:Arg", "src/utility/Coordinates/ComplexFunctions.c:Arg_plus", "src/utility/Coordinates/ComplexFunctions.c:ddAbstanhdydy"]}
{"id": "C69", "title": "Twice covered points of SphericalDF boxes are averaged consistently", "statement": "reset_doubleCoveredPoints replaces, in exactly the boxes with SphericalDF coordinates, each listed variable at each grid point by the mean of its values at the two grid points that lie at the same place in space; the two points of a pair do coincide in x, y, z; doing it twice changes nothing more, values sampled from a function of position are not changed, and odd point numbers are refused. copy_to_doubleCoveredPoints_SphericalDF keeps the half 0<theta<pi and copies it to the other half, whatever the order of its parallel loops.", "quantifier": "all box sizes, variable lists (with repetitions), contents, loop orders and functions of position", "why_tests_cant": "in-place averaging over index pairs is right only if no pair is visited with half updated values, for every size; tests see single sizes", "anchors": ["src/utility/Coordinates/doubleCovering.c:reset_doubleCoveredPoints_SphericalDF", "src/utility/Coordinates/doubleCovering.c:copy_to_doubleCoveredPoints_SphericalDF"]}
{"id": "C70", "title": "Coordinate plane lookup", "statement": "find_i_Of_X, find_j_Of_Y and find_k_Of_Z return the first plane whose coordinate is within 1e-10 of the given value, -1 if there is none; on a tensor grid with planes more than 2e-10 apart the indices of a point are recovered from its coordinates, even if these are only known to 1e-10.", "quantifier": "all boxes, coordinate arrays and values", "why_tests_cant": "depends on the strides used for each direction and on the tolerance, for all grids", "anchors": ["src/utility/Coordinates/find_ijk.c:find_i_Of_X", "src/utility/Coordinates/find_ijk.c:find_j_Of_Y", "src/utility/Coordinates/find_ijk.c:find_k_Of_Z"]}
{"id": "C71", "title": "Sphered cube: the map from (lam,A,B) to (x,y,z)", "statement": "xyz_of_lamAB_CubSph returns the point on the ray of direction (A,B) from the centre of the domain's pyramid, linearly between the inner surface (lam=0) and the outer surface (lam=1); curved surfaces lie at distance sigma(A,B) from the centre and flat ones in the plane at the stored distance, and sigma comes from the constant, the surface variable at the grid point, the surface function or the interpolation, in the documented order; an unset type is refused.", "quantifier": "for all boxes of the four types and six domains, all lam, A, B, all surfaces", "why_tests_cant": "continuous coordinates and surfaces: tests see finitely many points of finitely many surfaces", "anchors": ["src/utility/Coordinates/coordtrans_CubedSphere.c:xyz_of_lamAB_CubSph", "src/utility/Coordinates/coordtrans_CubedSphere.c:CubedSphere_sigma"]}
{"id": "C72", "title": "Sphered cube: the inverse map", "statement": "lamAB_of_xyz_CubSph undoes xyz_of_lamAB_CubSph and the other way round, with status 0, for directions inside the box; when A or B lies outside, it is moved to the border when it is within the comparison accuracy, and otherwise kept and reported with -1, or with -2 if a curved surface is looked up without a grid point.", "quantifier": "for all boxes, points and surfaces with different heights", "why_tests_cant": "round trips over all real points and surfaces cannot be enumerated", "anchors": ["src/utility/Coordinates/coordtrans_CubedSphere.c:lamAB_of_xyz_CubSph"]}
{"id": "C73", "title": "Sphered cube: derivatives of the inverse map", "statement": "The table returned by dlamAB_dxyz_CubSph is the inverse of the Jacobian matrix of the map (lam,A,B) to (x,y,z), for every type and domain, including the dependence of the surfaces on A and B, and it returns the same point.", "quantifier": "for all boxes, all differentiable surfaces, all points off the centre", "why_tests_cant": "a derivative formula tested at some points may be wrong elsewhere", "anchors": ["src/utility/Coordinates/coordtrans_CubedSphere.c:dlamAB_dxyz_CubSph", "src/utility/Coordinates/coordtrans_CubedSphere.c:CubedSphere_dsigma_dA", "src/utility/Coordinates/coordtrans_CubedSphere.c:CubedSphere_dsigma_dB"]}
{"id": "C74", "title": "Six sphered-cube domains fill space and fit together", "statement": "Six boxes around one centre with common surfaces cover every point between the surfaces: in some box the inverse returns status 0 and 0<=lam<=1 and the forward map brings the point back; conversely the boxes contain only points between the surfaces; the interiors do not overlap, and on common faces both boxes give the same point for the same lam.", "quantifier": "for all points, all surfaces given by a radius per direction or by a cube", "why_tests_cant": "coverage of a continuum of points by six maps", "anchors": ["src/utility/Coordinates/coordtrans_CubedSphere.c:xyz_of_lamAB_CubSph", "src/utility/Coordinates/coordtrans_CubedSphere.c:lamAB_of_xyz_CubSph"]}
{"id": "C75", "title": "Sphered cube: radius and spherical angles", "statement": "r_dr_dlam_of_lamAB_CubSph returns the distance from the centre and its derivative in lam; ThetaPhi_of_AB_CubSph returns the spherical angles of the direction (A,B) with Theta in [0,PI] and Phi in [0,2PI); ThetaPhi_dThetaPhidAB_of_AB_CubSph returns the same angles and their derivatives away from the pole (dPhi/dA off the cut of Phi).", "quantifier": "for all boxes, all A, B, lam", "why_tests_cant": "angles and derivatives over a continuum with branch cuts", "anchors": ["src/utility/Coordinates/coordtrans_CubedSphere.c:r_dr_dlam_of_lamAB_CubSph", "src/utility/Coordinates/coordtrans_CubedSphere.c:ThetaPhi_of_AB_CubSph", "src/utility/Coordinates/coordtrans_CubedSphere.c:ThetaPhi_dThetaPhidAB_of_AB_CubSph", "src/utility/Coordinates/ComplexFunctions.c:Arg_plus"]}
{"id": "C76", "title": "Stretched sphered shells", "statement": "In the stretched coordinates 1/r is linear in rho between the two surfaces; rho and lam are inverse to each other with equal ends and the stated derivative; xyz_of_rhoAB_CubSph and rhoAB_of_xyz_CubSph are inverse to each other, the table of drhoAB_dxyz_CubSph is the inverse Jacobian for constant surfaces; boxes that are no shells, and derivatives with varying surfaces, are refused.", "quantifier": "for all positive surfaces, all rho, A, B", "why_tests_cant": "continuous coordinates", "anchors": ["src/utility/Coordinates/coordtrans_CubedSphere.c:xyz_of_rhoAB_CubSph", "src/utility/Coordinates/coordtrans_CubedSphere.c:rhoAB_of_xyz_CubSph", "src/utility/Coordinates/coordtrans_CubedSphere.c:drhoAB_dxyz_CubSph"]}
{"id": "C77", "title": "Nearest grid point", "statement": "nearestXYZ_of_xyz, nearestinnerXYZ_of_xyz, nearestXYZ_of_xyz_inplane and nearest_b_XYZ_of_xyz return a grid point at the least Euclidean distance from (x,y,z) among all points, the points off the boundary, the points of the plane, or the points of all boxes, with its index, its box coordinates and the distance, and -1 without touching the outputs when there are no such points; XYZ_on_face and moveXYZ_off_face find the faces within the comparison accuracy and move the point inwards.", "quantifier": "for all boxes of any size, all coordinate arrays, all points", "why_tests_cant": "a minimum over arrays of any size and values", "anchors": ["src/utility/Coordinates/findXYZ_of_xyz.c:nearestXYZ_of_xyz", "src/utility/Coordinates/findXYZ_of_xyz.c:nearestinnerXYZ_of_xyz", "src/utility/Coordinates/findXYZ_of_xyz.c:nearestXYZ_of_xyz_inplane", "src/utility/Coordinates/findXYZ_of_xyz.c:nearest_b_XYZ_of_xyz", "src/utility/Coordinates/findXYZ_of_xyz.c:XYZ_on_face", "src/utility/Coordinates/findXYZ_of_xyz.c:moveXYZ_off_face"]}
{"id": "C78", "title": "Locating a point on the grid", "statement": "XYZ_of_xyz returns a value >= 0 only if the point was solved for (own inverse, reported convergence, or a relative error of at most 100 times the tolerance); b_XYZ_of_xyz returns the first active box whose solver succeeds with coordinates inside its bbox up to the accuracy, with the coordinates put inside, and otherwise a negative number and the unchanged guess; on the six boxes of a sphered cube every point between the surfaces, off the accuracy zone of the pyramid faces, is found and the returned coordinates map exactly to it.", "quantifier": "for all grids, all solvers, all points", "why_tests_cant": "search over boxes with real-valued acceptance tests", "anchors": ["src/utility/Coordinates/findXYZ_of_xyz.c:XYZ_of_xyz", "src/utility/Coordinates/findXYZ_of_xyz.c:check_xyz_error", "src/utility/Coordinates/findXYZ_of_xyz.c:b_XYZ_of_xyz", "src/utility/Coordinates/findXYZ_of_xyz.c:b_XYZ_of_xyz_inboxlist", "src/utility/Coordinates/coordtrans_CubedSphere.c:lamAB_of_xyz_CubSph"]}
{"id": "C79", "title": "Legendre functions and spherical harmonics", "statement": "PLegendre returns P_l^m(x) as defined by the Rodrigues formula with the Condon-Shortley phase and refuses m<0, m>l or |x|>1; set_PlmTab fills exactly the entries of its table, in the order of increasing l and m, with these values and touches nothing else; alloc_Plm_Tab allocates as many entries as needed; set_YlmTabs with Ylm_from_Tabs, and Ylm_slowly, return the normalised spherical harmonic Y_l^m(theta,phi) for both signs of m.", "quantifier": "for all degrees, orders, arguments and angles", "why_tests_cant": "recurrences in l and m of unbounded depth compared with an l+m-fold derivative", "anchors": ["src/utility/Spectral/SphericalHarmonics.c:PLegendre", "src/utility/Spectral/SphericalHarmonics.c:set_PlmTab", "src/utility/Spectral/SphericalHarmonics.c:alloc_Plm_Tab", "src/utility/Spectral/SphericalHarmonics.c:set_YlmTabs", "src/utility/Spectral/SphericalHarmonics.c:Ylm_from_Tabs"]}
{"id": "C80", "title": "Derivatives of a sum of spherical harmonics", "statement": "For the coefficients c_l^m of a real function, SphHarm_dphi_forRealFunc returns the coefficients of its phi derivative and SphHarm_sin_theta_dtheta_forRealFunc those of sin(theta) times its theta derivative.", "quantifier": "for all coefficient arrays, all lmax, all angles", "why_tests_cant": "identities between sums over l and m of any length, for all real angles", "anchors": ["src/utility/Spectral/SphericalHarmonics.c:SphHarm_dphi_forRealFunc", "src/utility/Spectral/SphericalHarmonics.c:SphHarm_sin_theta_dtheta_forRealFunc"]}
{"id": "C81", "title": "Surfaces given by spherical harmonics", "statement": "FSurf_CubSph_sigma01_func returns the value of the real series of spherical harmonics, with the coefficients of the wanted side of the box, at the direction (A,B), whatever angles describe that direction, and stops when lmax is too large for the box; FSurf_CubSph_sigma01_derivs returns the derivatives of this function with respect to A and B.", "quantifier": "for all boxes, coefficients, lmax and directions", "why_tests_cant": "a sum of any length compared with a function of two real variables and its derivatives", "anchors": ["src/utility/Coordinates/FSurf_CubedSpheres.c:FSurf_CubSph_sigma01_func", "src/utility/Coordinates/FSurf_CubedSpheres.c:FSurf_CubSph_sigma01_derivs"]}
{"id": "C82", "title": "Arrangements of cubes and sphered cubes fill their region without overlap", "statement": "The functions that turn boxes of a grid into cubes and sphered cubes leave all other boxes alone, return the number of the next free box, and the boxes they set fill exactly the region promised: 12 boxes the space between two cubes, 13 a full cube, 26 two touching cubes, 32 those cubes inside a ball, 38 that ball inside a larger one. No point in the interior of one of the boxes belongs to another.", "quantifier": "for all grids with enough boxes on which no surface is set, all centres, all sizes with sqrt 3*din < dmid < dout and sqrt 6*dc < r0 < r1", "why_tests_cant": "The statement is about every point of space and all sizes; a test samples points of one grid.", "anchors": ["src/utility/Coordinates/setup_CubedSpheres.c:convert_6boxes_to_CubedSphere", "src/utility/Coordinates/setup_CubedSpheres.c:arrange_1box12CubSph_into_full_cube", "src/utility/Coordinates/setup_CubedSpheres.c:two_full_cubes_touching_at_x0", "src/utility/Coordinates/setup_CubedSpheres.c:two_spheres_around_two_full_cubes"]}
{"id": "C83", "title": "Constraints of general relativity", "statement": "Given psi with its derivatives, g_ij, K_ij, the lapse and their exact partial derivatives at a point, the constraint routine returns the textbook Hamiltonian constraint R + K^2 - K_ij K^ij - 16 pi rho, the momentum constraint D^j K_ij - D_i K - 8 pi j_i, the trace of K, and the time derivative of the trace, all for the physical metric psi^4 g, with the Ricci tensor formed from true partial derivatives of the Christoffel symbols.", "quantifier": "all smooth metrics, extrinsic curvatures, lapses, conformal factors with invertible metric, all points, with or without matter", "why_tests_cant": "The routine is two thousand lines of generated component formulas; a test on a few metrics cannot show that every one of the hundreds of terms has the right indices and sign.", "anchors": ["src/physics/ADMvars/ADMconstraints.c:ADMconstraints"]}
{"id": "C84", "title": "Isotropic black hole solves the constraints", "statement": "The initial data routine for a black hole in isotropic coordinates, with or without conformal factor, sets psi, dpsi/psi, ddpsi/psi which are the exact derivatives of psi = 1 + M/(2r); together with the constraint routine all constraints vanish, the trace of K is zero, and the lapse it sets makes the time derivative of the trace vanish.", "quantifier": "all masses M >= 0, all points off the origin, both settings of the conformal factor switch", "why_tests_cant": "Numerical tests only see residuals at the truncation error of the derivatives; they cannot show that the data are an exact solution everywhere.", "anchors": ["src/physics/SingleBH/SingleBHisotropic.c:SingleBHisotropic", "src/physics/ADMvars/ADMconstraints.c:ADMconstraints"]}
{"id": "C85", "title": "Normalised constraints lie between -1 and 1", "statement": "When normalised constraints are requested, the normalised Hamiltonian constraint lies between -1 and 1 and the sizes of the three normalised momentum constraints add up to at most 1, with either normalisation (sum of terms, or term by term).", "quantifier": "all values of metric, extrinsic curvature, lapse, matter and their derivatives at a point", "why_tests_cant": "real inequality over a 60-dimensional space of inputs; a test evaluates a few points", "anchors": ["src/physics/ADMvars/ADMconstraints.c:ADMconstraints"]}
{"id": "C86", "title": "Converting between ADM and BSSN variables loses nothing", "statement": "Converting ADM data (conformal metric g, extrinsic curvature K, conformal factor psi) to BSSN variables gives a metric of determinant 1 in the same conformal class, a trace-free tensor A, the trace of K with respect to the physical metric, and the conformal exponent; converting back returns g and K exactly, and BSSN data that satisfy the algebraic constraints also come back. The connection functions are minus the divergence of the inverse metric, and equal the contracted Christoffel symbols.", "quantifier": "all metrics with positive determinant, all K, psi, phi", "why_tests_cant": "an identity over a 14-dimensional continuum that involves logarithms and cube roots", "anchors": ["src/physics/BSSN/BSSN_init.c:BSSN_init", "src/physics/BSSN/BSSN.c:BSSNtoADM", "src/physics/BSSN/BSSN.c:ADMtoBSSN", "src/physics/ADMvars/utility.c:set_K_initial"]}
{"id": "C87", "title": "Enforcing the algebraic constraints", "statement": "Enforcing the algebraic constraints rescales the conformal metric to determinant 1 and removes the trace of A, if asked to; the conformal class is kept, A changes by a multiple of the metric only, data that satisfy the constraints are not changed, and doing it twice is the same as doing it once.", "quantifier": "all metrics with positive determinant, all A, all settings of the two parameters", "why_tests_cant": "an identity over a continuum", "anchors": ["src/physics/BSSN/BSSN_AlgConstr.c:BSSN_AlgConstr", "src/physics/BSSN/BSSN.c:BSSN_enforce_AlgConstr"]}
{"id": "C88", "title": "BSSN evolution is the ADM evolution", "statement": "The BSSN right hand side, applied to the conformal variables, changes the physical 3-metric h_ij = psi^4 e^(4 phi) g_ij and the extrinsic curvature K_ij exactly as the vacuum ADM equations say (with Lie derivatives along the shift, covariant second derivatives of the lapse and the Ricci tensor of h), up to a multiple of the Hamiltonian constraint set by RtoRminusHfactor.", "quantifier": "all smooth fields psi, phi, g, A, K, G, lapse and shift near a point with A trace free and G the contracted Christoffel symbol, all parameters with GentlePhiRHS off and K evolved", "why_tests_cant": "an identity between differential expressions with thousands of terms over a continuum of fields; a test samples a few points and tolerates errors as large as the truncation error", "anchors": ["src/physics/BSSN/BSSN_rhs.c:BSSN_rhs"]}
{"id": "C89", "title": "One BSSN time step", "statement": "With dt nonzero each evolved variable becomes its previous value plus dt times the right hand side; if the metric normalisation is requested the new conformal metric has determinant 1 and is conformal to the unnormalised one, if trace subtraction (or recomputation of A_zz) is requested the new A is trace free, if recomputation of g_zz is requested the new conformal metric has determinant 1, and with a densitised lapse the new lapse is the density times the power of the new physical volume element and moves as the plain lapse would.", "quantifier": "all states, previous states, derivatives, dt and settings", "why_tests_cant": "an identity over a continuum, for each combination of many switches", "anchors": ["src/physics/BSSN/BSSN_rhs.c:BSSN_rhs"]}
{"id": "C90", "title": "BSSN evolution preserves the auxiliary relations between its variables", "statement": "If the conformal metric has unit determinant, A is trace-free and the evolved connection function equals the contracted Christoffel symbols, then one right-hand-side evaluation gives rates under which the determinant stays one, the trace of A changes only by lapse times RtoRminusHfactor times the Hamiltonian constraint, and the connection function stays the contracted Christoffel symbol up to the momentum constraint (removed exactly as the code's own addition of it does).", "quantifier": "all smooth fields near a grid point, all lapses, shifts and parameter values with dt=0", "why_tests_cant": "the preservation holds only through cancellations between hundreds of generated terms; a test on sampled data sees truncation error of the same size as a wrong coefficient", "anchors": ["src/physics/BSSN/BSSN_rhs.c:BSSN_rhs"]}
{"id": "C91", "title": "Gauge conditions conserve what they should", "statement": "With a 1+log lapse whose equation includes the shift, the lapse minus f times the log of the volume element does not change in time; with the modified 1+log lapse and the harmonic lapse the corresponding functions (9/8 alpha - 3/16 alpha^2 - log of the volume element, alpha over the volume element) do not change either; an unevolved lapse or shift has zero rate; with the Gamma driver B minus the connection function changes only by the damping term.", "quantifier": "all fields, shifts, coefficients and flags meeting the named choice, dt=0", "why_tests_cant": "the invariants are exact identities between two evolved variables; a run only shows them up to time-stepping error", "anchors": ["src/physics/BSSN/BSSN_rhs.c:BSSN_rhs"]}
{"id": "C92", "title": "Constant and excision boundary values", "statement": "Values at the points of a constant boundary stay what they were through every time step of every integrator; with simple excision the value at an excision point changes by as much as the next point's value.", "quantifier": "all fields, equations, step sizes, point lists, integrators", "why_tests_cant": "a boundary value that drifts by a factor 1+dt per step looks like physics; only the combination of integrator and condition decides it", "anchors": ["src/utility/boundary/boundary.c:set_boundary", "src/utility/boundary/boundary.c:set_boundary_constant", "src/utility/boundary/excision.c:set_boundary_simpleExcision", "src/utility/evolve/rk.c:evolve_rk", "src/utility/evolve/icn.c:evolve_icn"]}
{"id": "C93", "title": "Radiative boundary condition", "statement": "The radiative boundary condition sets the rate of a variable at the boundary points to the exact time derivative of any spherical wave far + w(r-vt)/r, lets no other first-order radial behaviour pass, changes only the listed points, keeps variables with speed 0 constant, and gives the same evolution with all integrators.", "quantifier": "all profiles, speeds, far values, points with r>0, step sizes, point lists with duplicates", "why_tests_cant": "a test compares a run to one wave up to truncation error", "anchors": ["src/utility/boundary/radiative.c:set_boundary_radiative", "src/utility/boundary/radiative.c:set_boundary_radiative_analytic", "src/utility/boundary/boundary.c:set_boundary"]}
{"id": "C94", "title": "Detection of values that are not finite", "statement": "The check of a variable returns the number of values that are not finite or too large in all boxes with storage, never reads outside an array, and as a post-evolve hook it ends the evolution after the iteration in which it finds something.", "quantifier": "all grids, box sizes, storage states, values, hooks", "why_tests_cant": "the out-of-range read needs a run of bad values that ends exactly at a box boundary before a smaller box", "anchors": ["src/utility/NumberChecker/NumberChecker.c:NumberChecker_CheckIfFinite", "src/utility/NumberChecker/NumberChecker.c:NumberChecker_ExitIfNAN", "src/utility/NumberChecker/NumberChecker.c:NumberChecker_CheckIfFinite_VarList", "src/main/main/main.c:evolve_grid"]}
{"id": "C95", "title": "Parameters and time step set automatically", "statement": "Each parameter of a box that names the global parameter gets its value and keeps naming it, so that setting the parameters again uses the value of that time; all other parameters stay. The time step is the smallest one the boxes ask for; if a required time is given, the largest step time/N below all of them, and the evolution then takes exactly N iterations; ds_min is the smallest grid spacing.", "quantifier": "all parameter data bases, numbers of boxes, point numbers, factors, times", "why_tests_cant": "depends on word matching, formatting and truncation together for every box number", "anchors": ["src/utility/ParManipulator/ParManipulator.c:ParManipulator_setPars", "src/main/main/parameters.c:GetvFlag", "src/main/main/main.c:evolve_grid"]}
{"id": "C96", "title": "Azimuthal filters near the axis", "statement": "On spherical grids the coordinate dependent filter keeps, on each circle of polar angle theta, exactly the Fourier modes with wave number at most (n3/2) sin(theta), sines and cosines together: it changes no other variable, filtering twice is filtering once, it commutes with rotations about the axis, leaves the equator alone and replaces values on the axis by their mean. Boxes with other coordinates are not changed.", "quantifier": "all numbers of points, values, variable lists, orders of the parallel loops", "why_tests_cant": "depends on truncation of a product of an integer and a sine for every circle and resolution", "anchors": ["src/utility/Coordinates/coordFilters.c:coordinateDependentFilter", "src/utility/Coordinates/coordFilters.c:coordinateDependentFilter_SphericalDF", "src/utility/Coordinates/coordFilters.c:coordinateDependentFilter_Spherical"]}
{"id": "C97", "title": "2/3-rule filters", "statement": "The 2/3-rule filters remove exactly the coefficients from index 2(n/3) on (in X, or in each of X, Y, Z), resp. from 2(n/3)-1 on, and nothing else; constants are kept, and in periodic directions the result does not depend on where the grid starts.", "quantifier": "all numbers of points, bases, values, variable lists, orders of the parallel loops", "why_tests_cant": "the off-by-one limits of the three nested clearings only show for particular coefficients; the refuted parts need 2 points or a Fourier direction", "anchors": ["src/physics/BSSN/BSSN.c:filter_with2o3rule_inX", "src/physics/BSSN/BSSN.c:filter_with2o3rule_inXYZ", "src/physics/BSSN/BSSN.c:filter_with2o3rule_minus1_inX"]}
{"id": "C98", "title": "Built-in fast transforms", "statement": "For every power of two of at least two points (three for Chebyshev extrema) the built-in FFT versions of analysis, synthesis and integration give exactly what the defining sums give, touching nothing else; the test for powers of two accepts exactly the powers of two; coefficients and values round-trip.", "quantifier": "all sizes 2^p, all values, all buffers of sufficient length", "why_tests_cant": "the butterfly recursion runs over all levels; a test fixes one size and tolerates rounding, so a wrong twiddle or a missing endpoint weight of higher levels goes unseen", "anchors": ["src/utility/Spectral/FFTs_for_sgrid.c:numrec_four1", "src/utility/Spectral/FFTs_for_sgrid.c:numrec_realft", "src/utility/Spectral/FFTs_for_sgrid.c:numrec_cosft1", "src/utility/Spectral/FFTs_for_sgrid.c:numrec_cosft2", "src/utility/Spectral/FFTs_for_sgrid.c:four_coeffs_numrecFFT", "src/utility/Spectral/FFTs_for_sgrid.c:cheb_coeffs_fromExtrema_numrecFFT", "src/utility/Spectral/FFTs_for_sgrid.c:cheb_eval_onZeros_numrecFFT"]}
{"id": "C99", "title": "Choice of transform does not matter", "statement": "Whatever value the transform type parameter has (matrix multiplication, built-in FFT, FFTW3, any threshold), a direction gets the same matrices, and analysis and synthesis of every line give the same numbers; the FFT is used exactly when asked for, when the number of points reaches the threshold and has the required form. A program without FFTW3 asked for FFTW3 stops.", "quantifier": "all bases, intervals, point numbers, thresholds, filters, lines of values and contents of the scratch memory", "why_tests_cant": "needs every combination of type, basis, parity and size, and equality of sums rather than agreement of a few digits", "anchors": ["src/utility/Spectral/spec_coeffs.c:set_TransformType_flags_inbox", "src/utility/Spectral/spec_coeffs.c:get_spec_functionpointers_from_pars", "src/utility/Spectral/spec_coeffs.c:spec_analysis1", "src/utility/Spectral/spec_coeffs.c:spec_synthesis1", "src/utility/Spectral/FFTs_for_sgrid.c:four_coeffs_FFTW3", "src/utility/Spectral/FFTs_for_sgrid.c:four_eval_FFTW3", "src/utility/Spectral/FFTs_for_sgrid.c:cheb_eval_onExtrema_FFTW3"]}
{"id": "C100", "title": "Automatic pairing of touching faces", "statement": "After the pairing of faces with the same points, two faces are partners only if they belong to different boxes and every point of the one lies (within the tolerance) at a point of the other; a face that finds no partner keeps all its points; pairing is mutual, and when the faces have equally many separated points the two point lists together name every point of both faces once.", "quantifier": "All grids, all numbers of boxes and points, all coordinates", "why_tests_cant": "The pairing depends on distances between all points of all faces of all boxes; a test fixes one grid, and shows neither that no two faces are ever paired wrongly nor that no point is lost.", "anchors": ["src/utility/Coordinates/Coordinates_set_bfaces.c:set_touching_bfaces_of_boxes_with_same_facepoints", "src/utility/Coordinates/Coordinates_set_bfaces.c:set_all_bfaces_with_ob_minus1_to_outerbound"]}
{"id": "C101", "title": "Boundary conditions between boxes", "statement": "For every boundary face with a neighbouring box the conditions function replaces the residual at exactly the points of that face by the difference between the field (or, if the face is so marked, its derivative along the outward unit normal) and the same quantity of the neighbour, taken at the same point or interpolated there; it leaves all else unchanged, is linear in the fields, and skips faces without a neighbour.", "quantifier": "All grids, faces, point lists, fields, derivative variables, linear interpolators", "why_tests_cant": "Which branch is taken and which index is read depends on flags, point lists and coordinate maps of two boxes; a test covers one grid and cannot show that no other residual is touched.", "anchors": ["src/utility/boundary/BCs_from_bfaces.c:set_interbox_BCs_for_bface", "src/utility/boundary/BCs_from_bfaces.c:FPsi_copy_for_bface", "src/utility/boundary/BCs_from_bfaces.c:FPsi_2Dinterp_for_bface", "src/utility/boundary/BCs_from_bfaces.c:FPsi_3Dinterp_for_bface", "src/utility/boundary/BCs_from_bfaces.c:set_interbox_BC_onface"]}
{"id": "C102", "title": "Linearised equations of the two-field Poisson examples", "statement": "For the two-field examples the function given to the Newton solver as linearisation is the derivative of the residual function: at every point of every box, boundary points included, the derivative of the residual along a direction of both fields equals what the linearisation returns for that direction; it is linear in the direction; and a zero residual means exactly that the equation or the boundary condition of that point holds.", "quantifier": "All grids, faces, flags, linear derivative operators and interpolators, all fields and directions", "why_tests_cant": "A Newton solver converges, only more slowly, with a wrong linearisation, so a run of the example does not reveal the error.", "anchors": ["src/physics/Poisson2/Poisson2.c:F_Poisson2", "src/physics/Poisson2/Poisson2.c:J_Poisson2", "src/physics/Poisson2/Poisson2.c:Poisson2_set_BCs", "src/physics/Poisson3/Poisson3.c:F_Poisson3", "src/physics/Poisson3/Poisson3.c:J_Poisson3", "src/physics/Poisson3/Poisson3_BCs.c:Poisson3_set_BCs"]}
{"id": "C103", "title": "Numerical integration returns the quadrature values it is meant to return", "statement": "integral() returns the trapezoidal value with 2^(J-1) intervals, J being the first step whose relative change is below the tolerance or the largest allowed step. polint() returns, at x, the polynomial of lowest degree through its points, never reads outside its arrays, and always reports equal abscissae. rombintegral() returns the extrapolation to zero step of its last five trapezoidal values, whatever its work arrays contained, and so is exact for polynomials of degree at most 9. integrate_trapez_1Dgrid() is exact for linear functions and integrate_simpson_1Dgrid() for cubic ones, and both read only the points between the limits. integral3D() returns the iterated integral in spite of its static variables.", "quantifier": "all functions, limits, tolerances, numbers of steps, points, grids and initial contents of the work arrays", "why_tests_cant": "The exactness holds for every polynomial and every interval, and the absence of stray reads for every position of x; tests only sample a few integrands.", "anchors": ["src/utility/NumericUtils/integral.c:trapezit,integral,polint,rombintegral", "src/utility/NumericUtils/integrals_1Dgrid.c:integrate_trapez_1Dgrid,integrate_simpson_1Dgrid,integrate_simpson_old_1Dgrid", "src/utility/NumericUtils/integral3D.c:integral3D"]}
{"id": "C104", "title": "The adaptive integrator for ordinary differential equations takes controlled steps and reports them correctly", "statement": "rkck() is a Runge-Kutta step of order 5 whose error estimate is the difference to a step of order 4. rkqs() takes the step tried or a shorter one in the same direction, accepts it only if the error estimate of every component is within the tolerance, suggests a next step of 0.9 to 5 times the length, and ends for every right hand side that is bounded near the starting point. odeintegrate(), odeintegrateP() and odeintegrate_HR() visit a sequence of accepted steps that never leaves the interval; with status 0 they return x2 and the values at x2, otherwise the point reached and status -1 or -2; nok+nbad is the number of steps; the recorded points are visited points, at most kmax, further apart than dxsav except for the end point, and kcount is their number.", "quantifier": "all right hand sides, intervals in both directions, tolerances, first steps, numbers of variables and recording parameters", "why_tests_cant": "The order of a method is a statement about all smooth right hand sides; the step control has to hold for every sequence of accepted and rejected steps.", "anchors": ["src/utility/NumericUtils/rkck.c:rkck,rkckP", "src/utility/NumericUtils/rkqs.c:rkqs,rkqsP,rkqs_HR", "src/utility/NumericUtils/odeintegrate.c:odeintegrate,odeintegrateP,odeintegrate_HR"]}
{"id": "C105", "title": "The black hole in Kerr-Schild coordinates is a Kerr black hole", "statement": "Off the disc of radius |a|, the metric psi^4 g, the lapse and the shift that the code sets are those of the space-time metric eta + 2 H l l, with the unique positive Kerr radius r, H = M r^3/(r^4 + (a.x)^2) and the unit vector l = (r^2 x - r a cross x + (a.x) a)/(r (r^2 + a^2)), for any mass and any spin vector. The extrinsic curvature is that of the slice: it equals the Lie derivative of the metric along the shift divided by twice the lapse, with true derivatives. With these values the Hamiltonian constraint, the momentum constraint and the time derivative of trace K that the code computes are zero. The derivatives of psi that the code sets are the derivatives of psi.", "quantifier": "all masses M >= 0, all spin vectors, all points off the disc, both choices of the conformal factor", "why_tests_cant": "tests compare numbers at a few points, with truncation errors; that the formulas solve Einstein's constraint equations for every spin direction at every point is an identity between rational functions of seven variables and square roots", "anchors": ["src/physics/SingleBH/SingleBHKS.c:SingleBHKS", "src/physics/ADMvars/ADMconstraints.c:ADMconstraints"]}
{"id": "C106", "title": "Test data of TestID: gauge wave, linear wave, random noise", "statement": "With TestID_type 1dGaugeWave and 1+A sin(2 pi x/L)>0, the data are the slice t=0 of the metric -(1+a)dt^2+(1+a)dx^2+dy^2+dz^2 with a=A sin(2 pi (x-t)/L), which is flat spacetime; K is -1/2 of the time derivative of the metric over the lapse; the constraint code finds ham=0 and mom=0, and its dtrKdt is the time derivative of tr K of the exact solution. With 1dLinearWave and |A|<=1/2 the constraints are violated at second order in A only. With RandomNoise every variable differs from flat space by at most 2.5e-7/n1^2 and the metric is positive definite. Afterwards K_initial is the trace of K, lapse and shift are replaced exactly if the parameters say so.", "quantifier": "all amplitudes, box lengths, points, random sequences and parameter choices", "why_tests_cant": "a test evaluates the data at some points with finite-difference errors; that the data solve Einstein's equations everywhere and to which order is a statement about exact derivatives", "anchors": ["src/physics/TestID/TestID_1dGaugeWave.c:TestID_1dGaugeWave", "src/physics/TestID/TestID_1dLinearWave.c:TestID_1dLinearWave", "src/physics/TestID/TestID_RandomNoise.c:TestID_RandomNoise", "src/physics/TestID/TestID.c:TestID", "src/physics/SingleBH/SingleBH.c:SingleBH"]}
{"id": "C107", "title": "Scalar wave modules: energy, initial data, exact solutions and boundary zeros", "statement": "If psi and psidot move as the right hand sides of ScalarWave say, with exact derivatives, then the energy density ScalarWave_rho satisfies d rho/dt = div(psidot grad psi) for every nonlinearity; rho is not negative if the nonlinearity is not, and zero only in the vacuum. The spherical initial data are the slice t=0 of the ingoing wave f(r+t)/r, which solves the linear equation for all t; both waveforms satisfy d(r psi)/dt=d(r psi)/dr at t=0. The data of testwave are the slice t=0 of a Gaussian that moves to the right and solves what testwave evolves. The function that ConvTest subtracts solves at all times the equation that ConvTest evolves. The loops set to zero exactly the faces i=0,n1-1 (ScalarWave), all six faces (testwave), i=n1-1 (ConvTest), and nothing else.", "quantifier": "all smooth fields, points with r>0, times, parameters, box sizes", "why_tests_cant": "a run shows approximate conservation at one resolution; the identities hold for exact derivatives and all fields", "anchors": ["src/physics/ScalarWave/ScalarWave.c:ScalarWave_evolve", "src/physics/ScalarWave/ScalarWave.c:ScalarWave_startup", "src/physics/ScalarWave/ScalarWave.c:ScalarWave_analyze", "src/physics/testwave/testwave.c:testwave_evo", "src/physics/testwave/testwave.c:testwave_startup", "src/physics/ConvTest/ConvTest.c:ConvTest_evo", "src/physics/ConvTest/ConvTest.c:ConvTest_analyze"]}
{"id": "C108", "title": "Spin-weighted spherical harmonics are the standard orthonormal ones", "statement": "For all l, m, s with |m| <= l and |s| <= l: both Wigner functions return Wigner's sum over all terms whose factorials have nonnegative arguments (the square-root variant for 0 <= theta <= pi), with d(0) the unit matrix; eth and eth-bar applied to the functions returned by Re_sYlm/Im_sYlm give sqrt((l-s)(l+s+1)) and -sqrt((l+s)(l-s+1)) times the ones of spin weight s+1 and s-1; functions of equal spin weight are orthonormal on the unit sphere; conj(sYlm) = (-1)^(m+s) (-s)Y(l,-m).", "quantifier": "for all l, m, s (no bound on l), all angles", "why_tests_cant": "Infinitely many (l,m,s) and a continuum of angles; orthonormality and the ladder relations are statements about integrals and derivatives, which sampled values cannot establish.", "anchors": ["src/physics/ModeComputer/SpinWeightedSphericalHarmonics.c:Wigner_d_function_WT", "src/physics/ModeComputer/SpinWeightedSphericalHarmonics.c:Wigner_d_function_PG", "src/physics/ModeComputer/SpinWeightedSphericalHarmonics.c:Re_sYlm", "src/physics/ModeComputer/SpinWeightedSphericalHarmonics.c:Im_sYlm"]}
{"id": "C109", "title": "The mode computer returns exactly the coefficients of the field it reads", "statement": "If the data files hold the values of a complex field that is a finite sum of spin-weighted spherical harmonics of the chosen spin weight with l <= L, then the numbers written for mode (l,m), for every l <= lmax and |m| <= l, are exactly the real and imaginary part of the field's coefficient of that harmonic, provided the grid has more than 2(lmax+L) points in theta and more than lmax+L in phi; modes with l < |s| are written as 0. This holds for all five grid types (full, bitant, rotant, quadrant, octant) when the field has the matching symmetries and the points in the file with their images cover the sphere. Modes are written for exactly those times that are in both files, in order, and from the two time levels with that time. For an octant file with n3/4 points in phi the value at phi=pi/2 is not set from the file.", "quantifier": "all fields, spin weights, lmax, box sizes, schedules of the parallel loops, and files with increasing times", "why_tests_cant": "A test checks a few modes on a few grids to a tolerance; exactness for every band-limited field needs the discrete orthogonality of the modes, the aliasing bounds in both angles and the parity of the double covered points.", "anchors": ["src/physics/ModeComputer/ModeComputer.c:ModeComputer_set_sYlm_inbox", "src/physics/ModeComputer/ModeComputer.c:ModeComputer_read_spheredata", "src/physics/ModeComputer/ModeComputer.c:ModeComputer"]}
{"id": "C110", "title": "The spherical filter is the orthogonal projection onto spherical harmonics up to l_max", "statement": "Naive_YlmFilter_lmshift applied to a list of variables replaces each of them, on every sphere of every box, by a polynomial of degree at most lmax = n2/4-1+lmshift in the components of the unit vector (a combination of the spherical harmonics with l <= lmax), at all points including the doubly covered ones with theta > pi. If 2 lmax < n3 the difference to the input is orthogonal to all these polynomials under the quadrature of the grid, fields that are such polynomials are not changed, and filtering twice is filtering once. Other variables and boxes are not touched. The weights integrate every polynomial of degree < n2/2 in cos theta exactly, the Legendre tables are orthonormal. Wrong numbers of points and lmshift > 0 end the program.", "quantifier": "all grids, box sizes, lmshift, variable lists, fields, orders of parallel loops and contents of work arrays", "why_tests_cant": "a test filters a few harmonics at one resolution; the orthogonality of all rows of all Legendre tables and the exactness of the weights for every bandwidth need a proof", "anchors": ["src/utility/s2kit/YlmFilter.c:Naive_YlmFilter_lmshift", "src/utility/s2kit/s2kit_makeweights.c:makeweights", "src/utility/s2kit/s2kit_pmls.c:PmlTableGen", "src/utility/s2kit/s2kit_primitive.c", "src/utility/s2kit/s2kit_naive_synthesis.c:Naive_AnalysisX,Naive_SynthesizeX"]}
{"id": "C111", "title": "Extrema of a field are zeros of the gradient of its interpolant", "statement": "The function through the data of a box (in each coordinate an expansion in the basis of that direction, equal to the field at the grid points) exists and is unique; box_extremum_of_F searches a zero of its gradient: the point returned is in the box and is the nearest point of the box to where the search ended, a negative status names the sides on which the search left the box, otherwise the status is the number of steps, and Fextr is the function at the point returned.  box_extremum_of_F_in_dir returns a point of the line in the box within about 1e-10 of a stationary point on that line, if the derivative changes its sign between the ends.", "quantifier": "all boxes with spectral bases in three directions, all resolutions, all fields, all starting points, all orders of the parallel loops, all contents of work arrays", "why_tests_cant": "A test sees single fields and cannot show that the interpolated coefficients of the numerical derivative are the derivative of the interpolant for all fields, or what undefined return values do.", "anchors": ["src/utility/Coordinates/find_extrema.c: box_extremum_of_F, box_extremum_of_F_in_dir, f3vec_from_c1c2c3_VectorFuncP", "src/utility/numerics/NumericUtils_shims.c: zbrac_P, zbrent_itsP", "src/utility/NumericUtils/zbrent.c: zbrent_itsP"]}
{"id": "C112", "title": "Numerical dissipation adds the Laplacian of the current data", "statement": "If evolve_DissipationFactor is positive, addDissipation(u_n, u_p, dt, u_c) adds dt * factor * grid->dt^order times the Laplacian of each variable of u_c to the corresponding variable of u_n at every point of every box, and the same without the factor dt if dt is 0; so a right-hand side routine for F becomes one for F + factor dt^order Laplacian in both calling conventions. The Laplacian is f_xx+f_yy+f_zz of the function through the data, in Cartesian and in curved coordinates. No variable other than the targets and the nine work variables changes. A factor that is not positive switches it off.", "quantifier": "all grids, boxes, coordinates, numbers of points, variable lists, data, step sizes and factors", "why_tests_cant": "The claim is about every field, every coordinate system and every resolution; a test compares one run with another.", "anchors": ["src/utility/evolve/addDissipation.c:addDissipation", "src/utility/Coordinates/cartesianDerivs.c:cart_partials"]}
{"id": "C113", "title": "One call of evolve is one step of the chosen method", "statement": "If a right-hand side and variables are registered, evolve() makes one step of the method in evolution_method (icn before euler before rk) from the old data at the time of the grid, whatever the auxiliary lists contain, so keeping or freeing their storage between steps makes no difference; the variables NAME_change asked for in evolve_compute_change then hold new minus old data and the others are as before. Without a right-hand side nothing happens; without variables the program stops.", "quantifier": "all right-hand sides, states, times, step sizes, methods, parameter values and previous contents of the auxiliary lists", "why_tests_cant": "It quantifies over all right-hand sides and over all previous contents of memory, which a test run cannot vary.", "anchors": ["src/utility/evolve/evolve.c:evolve", "src/utility/evolve/rk.c:evolve_rk", "src/utility/evolve/icn.c:evolve_icn", "src/utility/evolve/icn.c:evolve_euler"]}
{"id": "C114", "title": "The minimization routines bracket, keep and never lose a minimum", "statement": "mnbrak, when it returns, gives three points with the middle one strictly between the others, the values of the function at them, the middle one lowest, and no higher than at the two starting points. golden and brent, given such a bracket, return a point inside of it with the value of the function there, no higher than at the middle; if the function is continuous a local minimum is within the stated tolerance. golden always ends when zero is outside of the bracket. linmin moves the point along the direction, returns in the direction the way moved, and never ends higher than it began or than at point plus direction. powell never ends higher than it began and never writes outside of its matrix of directions.", "quantifier": "for all functions, brackets, tolerances, points, directions and dimensions, and every number of passes", "why_tests_cant": "the functions to minimize are arbitrary, and which branch a pass takes depends on the values found; tests see only a few functions", "anchors": ["src/utility/NumericUtils/golden.c:golden", "src/utility/NumericUtils/mnbrak.c:mnbrak", "src/utility/NumericUtils/brent.c:brent", "src/utility/NumericUtils/linmin.c:linmin", "src/utility/NumericUtils/powell.c:powell"]}
{"id": "C115", "title": "E_ADM is the ADM surface integral, and gives the mass of a black hole at large radii", "statement": "At a point away from the centre, the integrand of E_ADM computed from the conformal metric g, psi, dpsi/psi and the derivatives of g is det(h) h^ij h^kl (d_l h_jk - d_j h_kl) nu_i / 16 pi for the physical metric h = psi^4 g and the radial direction nu.  For psi^4 times the flat metric it is - psi^7 (nu . grad psi)/2 pi.  On a grid of spheres, for a black hole of mass M in isotropic coordinates, E_ADM holds M (1 + M/2r)^7 at every point of the sphere of radius r; this tends to M as r grows and is larger than M at every finite radius.", "quantifier": "all metrics, conformal factors and points with non-singular metric; all M, all boxes, all schedules of the integration loops", "why_tests_cant": "The formula has hundreds of terms and agrees with simpler wrong ones for diagonal metrics; the limit cannot be reached on a grid", "anchors": ["src/physics/ADMvars/ADMenergy_spheric_intergrand.c:ADMenergy_spheric_intergrand", "src/physics/ADMvars/ADMvars.c:computeADMconstraints"]}
{"id": "C116", "title": "The background tables of the scalar field on Kerr are the Kerr metric, its inverse and its Christoffel symbols", "statement": "For every mass, spin and point off the disc of radius a, the ten metric variables hold the Kerr-Schild metric eta + 2 H L L of mass BHmass and spin per mass BHs/BHmass, the ten inverse metric variables hold its inverse, the forty Christoffel variables hold Gamma^m_np of this metric with its exact derivatives, and the four trace variables hold g^np Gamma^m_np, which is minus the divergence of the inverse metric; so the wave operator made from the tables is the divergence d_m (g^mn d_n u).", "quantifier": "all masses (also zero or negative), spins and points outside the disc; all index combinations", "why_tests_cant": "1400 generated lines with square roots and sixth powers; a comparison at some points with the non-spinning formulas (KerrChecker) cannot see the spin terms", "anchors": ["src/physics/ScalarOnKerr/Kerr.c:Kerr"]}
{"id": "C117", "title": "The 3+1 tables of a Kerr black hole are those of a slice of the Kerr metric", "statement": "The lapse, shift, spatial metric, inverse metric, extrinsic curvature, trace of the curvature, Christoffel symbols with their trace, and derivatives of lapse and shift that the scalar field code tabulates for a black hole of given mass and spin are those of the slices of constant time of the Kerr metric in Kerr-Schild coordinates, with exact derivatives, and they are the 3+1 split of the space-time metric tables computed by the same module.", "quantifier": "for every mass >= 0 and spin vector and every point off the ring's disc", "why_tests_cant": "The formulas are long sums over symbols; a test at a few points cannot exclude an error in a term that vanishes or is small there, and it compares with finite differences.", "anchors": ["src/physics/ScalarOnKerr/Kerr3d.c:Kerr3d", "src/physics/ScalarOnKerr/Kerr.c:Kerr"]}
{"id": "C118", "title": "Newton's method inside a bracket keeps the bracket, converges and says when it did not", "statement": "rtsafe_itsP returns a negative code and leaves the number alone exactly if an end of the bracket is not finite, the ends have no opposite signs, or the function is not finite at a point tried. Otherwise the number it returns is in the bracket, and it is a root, or the middle of a bracket with opposite signs shorter than twice the tolerance, or at the end of a Newton step shorter than the tolerance from an end of such a bracket, or the code is MAXIT+1. If the bracket is shorter than 2^K tolerances then 2K^2+2K iterations are enough. The tolerance bounds the last step, not the error: the error is below tolerance*(1+M/m) if the derivative is at most M and the function grows at least like m times the distance from the root.", "quantifier": "for every function, derivative (right or wrong), bracket, guess, tolerance and MAXIT >= 0", "why_tests_cant": "The mix of Newton and bisection steps depends on the function; tests of some functions show neither the bound on iterations nor what the tolerance means for all of them.", "anchors": ["src/utility/NumericUtils/rtsafe_itsP.c:rtsafe_itsP"]}
{"id": "C119", "title": "The finite difference Jacobian restores its argument and is exact for affine functions", "statement": "fd_jacobian and fd_jacobianP leave x as it was and write nothing outside the n by n matrix; every entry is a difference quotient with step max(1e-7|x_j|,1e-10), for fd_jacobianP times a power of ten up to 10^7; a column of zeros from fd_jacobianP means that none of the eight steps changed anything; for affine functions the matrix is exact; in general the error is at most the step times the bound on the curvature.", "quantifier": "for every n, x, function and matrix", "why_tests_cant": "Tests compare with derivatives of a few functions within a tolerance; that x is restored for all n and which steps are used in all cases is not settled by them.", "anchors": ["src/utility/NumericUtils/fd_jacobian.c:fd_jacobian", "src/utility/NumericUtils/fd_jacobian.c:fd_jacobianP"]}
{"id": "C120", "title": "The scalar field evolves by the wave equation on Kerr", "statement": "For a function of time and space around a Kerr black hole (mass not negative, any spin, any point off the ring disc), with Pi minus its derivative along the normal of the slice and phi its gradient, the right hand sides of the first order in space evolution give its time derivative for psi and the gradient of that for phi, and the right hand side of Pi is the time derivative of Pi if and only if the function solves the covariant wave equation with the source. For any fields the constraint phi - grad psi is carried along the shift only, so it stays zero where it is zero. The new values are the rates without a time step and one Euler step with one.", "quantifier": "all masses, spins, points, functions and sources", "why_tests_cant": "Tests compare a run with a known solution on a grid: sign errors that vanish without spin or with a static field stay hidden, and truncation errors mask small ones.", "anchors": ["src/physics/ScalarOnKerr/ScalarOnKerr.c:ScalarOnKerr_evolve_1stO"]}
{"id": "C121", "title": "The second order evolution of the scalar field is the wave equation", "statement": "The second order in space right hand sides give Pi for psi, and for Pi the second time derivative that solves the covariant wave equation on Kerr with the source; with Scheel's Pi they are those of the first order form. They depend on nothing but the fields, the source and the metric.", "quantifier": "all masses, spins, points, fields and sources", "why_tests_cant": "A run with unset variables gives the right answer whenever the memory happens to hold zeros, so no test settles it.", "anchors": ["src/physics/ScalarOnKerr/ScalarOnKerr.c:ScalarOnKerr_evolve"]}
{"id": "C122", "title": "Neighbouring shells of the scalar field agree at their interface", "statement": "After the exchange of characteristic fields, where one shell ends and the next begins both hold the same psi, Pi and phi: the outgoing field is that of the inner shell, the ingoing field, the tangential part of phi and psi are those of the outer shell. If they agreed before, nothing changes, and nothing else changes anywhere.", "quantifier": "all numbers of shells and points, all fields and metrics with a positive radial component", "why_tests_cant": "A test has one grid and one field; that no later pass spoils an earlier interface depends on all index combinations.", "anchors": ["src/physics/ScalarOnKerr/ScalarOnKerr.c:set_Up_Um_U0_onBoundary", "src/physics/ScalarOnKerr/ScalarOnKerr.c:compute_unew_from_Up_Um_U0_onBoundary"]}
{"id": "C123", "title": "The outer boundary condition of the scalar field lets waves out and keeps the constraint", "statement": "At the outer boundary the outgoing field keeps the rate found inside. By default the ingoing field gets the rate -Pi/r, the tangential part of phi follows the gradient of psi, and psi keeps the rate beta.phi - alpha Pi; with constraintPreserving psi gets the rate -c.phi - psi/r and phi its gradient. With a time step the new values are the previous ones plus the step times these rates.", "quantifier": "all boxes, fields, metrics and derivative operators", "why_tests_cant": "Spherically symmetric test data have the same beta.phi on the whole boundary and Runge-Kutta runs never pass a time step.", "anchors": ["src/physics/ScalarOnKerr/ScalarOnKerr.c:set_psi_Pi_phi_boundary", "src/physics/ScalarOnKerr/ScalarOnKerr.c:set_psi_Pi_phi_boundary_CP"]}
{"id": "C124", "title": "The source of the scalar field rotates rigidly", "statement": "The source that the evolution uses at time t is the trigonometric interpolant of the source at time 0 turned by the angle Omega t, for every number of points, even or odd, including the highest mode of an even number of points: if the source has moved by m grid points, the values at time 0 are found m points further; if the source at time 0 is a trigonometric polynomial f(phi) that the grid resolves, the source is f(phi - Omega t); and for the l = m = 2 test source, with at least four points around the axis, it is what ScalarOnKerr_Source itself returns at time t.", "quantifier": "all numbers of points, masses, times and values of the source", "why_tests_cant": "A test compares one source at a few times; the identity concerns all modes and times, and the even case holds only at the grid points.", "anchors": ["src/physics/ScalarOnKerr/ScalarOnKerr.c:ScalarOnKerr_rho_from_rho0_four3modes", "src/physics/ScalarOnKerr/ScalarOnKerr.c:ScalarOnKerr_init_rho0_four3modes", "src/physics/ScalarOnKerr/ScalarOnKerr.c:ScalarOnKerr_Source"]}
{"id": "C125", "title": "The outer boundary condition in second order form lets waves out at the speed of light", "statement": "Where the radial direction is space-like, the rate that set_psi_Pi_boundary gives Pi moves it outwards along the normal with the one positive speed for which the front is light-like in the Kerr metric, and damps it in proportion to its value. Around a hole without spin, outside r = 2M, it is d Pi/dt = -(r-2M)/(r+2M) d Pi/dr - (r-M)/(r(r+2M)) Pi. Without a hole it is the exact time derivative of every outgoing spherical wave w(r-t)/r.", "quantifier": "all masses, spins, points, field values and wave profiles", "why_tests_cant": "A run shows small reflections; it does not separate a wrong speed or falloff from other errors.", "anchors": ["src/physics/ScalarOnKerr/ScalarOnKerr.c:set_psi_Pi_boundary", "src/physics/ScalarOnKerr/Kerr.c:Kerr"]}
{"id": "C126", "title": "The start-up check of the Kerr tables", "statement": "The check of the 3+1 Kerr tables made at every start accepts the exact tables of the black hole set by the parameters at every point but its centre, and whatever it accepts agrees with the exact lapse, shift, inverse metric, their derivatives, trace of K and contracted Christoffel symbols to within 1e-13.", "quantifier": "all tables, all lists of points, all masses and spins", "why_tests_cant": "A run checks one grid and one hole; that the closed expressions in the check are those of the Schwarzschild hole everywhere, and that they are wrong for other holes, needs algebra.", "anchors": ["src/physics/ScalarOnKerr/ScalarOnKerr.c:KerrChecker", "src/physics/ScalarOnKerr/ScalarOnKerr.c:ScalarOnKerr_startup"]}
{"id": "C127", "title": "The post-Newtonian orbit equations conserve what they should and treat both bodies alike", "statement": "Along every solution of the equations that PN_CircOrbit_derivs hands to the integrator the lengths of both spins and of the orbital direction are constant. The rates of the spins and of the Newtonian orbital angular momentum add up to zero. Numbering the bodies the other way round only renumbers the result, for all eight frequency equations and the radius. The phase is the one of a body that moves with the orbital angular velocity, counted from the node in the zx-plane. A cut-off stops the growth of the frequency where v reaches it, and changes the equation only beyond its order. Without spins the three full expansions agree to 1e-13. The radius without spins obeys Kepler's third law with its first and second post-Newtonian correction up to higher order in m/r.", "quantifier": "all masses, spins, directions, frequencies, flags and curves that solve the equations", "why_tests_cant": "The formulas have hundreds of coefficients; a run shows one orbit, and drift of a conserved length is hidden by the error of the integrator and by the renormalization.", "anchors": ["src/physics/PN_CircularOrbit_GWs/PN_CircOrbit.c:PN_CircOrbit_derivs", "src/physics/PN_CircularOrbit_GWs/PN_CircOrbit.c:PN_CircOrbit_compute_constants", "src/physics/PN_CircularOrbit_GWs/PN_CircOrbit.c:PN_CircOrbit_compute_r"]}
