# Formal model of sgrid in Rocq: design

## 1. Approach

The code in /repo is C. It is read as text and modelled function by function in Gallina
(Coq 8.16.1). Nothing of /repo is compiled or run, so the link between the C text and the model
is by reading only: every definition of the model carries a comment with file and lines.

* `rocq/theories/X_model.v` - the model of one part of the code (total computable functions, no proofs).
* `rocq/theories/X_spec.v` or a `Spec` section at the head of the property file - the small
  independent specification a property is stated with.
* `rocq/theories/X_proofs.v` - lemmas.
* `rocq/theories/X_props.v` - the property theorems (`Cnn_...`), each closed by `exact`,
  followed by `Print Assumptions` and an `Example` showing that a concrete case meets the hypotheses.

Conventions

* Undefined behaviour and `errorexit` are outcomes of their own: results are
  `Ok v | Err (errorexit) | UB` wherever the C code can reach them (`Base.v`, type `res`).
* `int` is `nat`/`Z` without wrap-around, except where a property is about bit patterns.
* `double` arithmetic is modelled by the real numbers `R` (exact arithmetic) in the numerical
  part, or by an arbitrary type of values when only data movement matters.  Rounding errors are
  not modelled.  Bit-level questions (finit, byte order, checkpoint data) use bit patterns.
* Strings are lists of characters without NUL; C string functions are modelled by list functions.
* A property the code violates is kept in properties.jsonl; the model proves `..._refuted` with
  a witness, plus a `..._partial` theorem that says under which condition it does hold.

## 2. Plan per property

| id | model | proof |
|----|-------|-------|
| C01 | character-level passes of parse_parameter_file over lists of characters, index loops kept | layouts are a relation/rendering function; show each pass maps the rendering to a normal form, then the splitting loop returns the pairs |
| C02 | pdb as a list of records, iStart, all API calls as `step` | refinement to a finite map by induction over histories |
| C03 | GetvFlag with strstr loop | refuted (first hit with good end but bad start); partial: sound, and complete when no word ends in a longer word containing the query |
| C04 | NextEntry with its static state | induction over word list; refuted for a leading blank |
| C05 | vdb list, AddVar, Ind | invariant by induction over histories |
| C06 | AddConstantVar | partial + refuted on restart |
| C07 | varlist functions | refinement to list operations |
| C08 | table of tensorindexlist | finite domain, decided by computation over the entire table; refuted for one entry |
| C09 | function bins | induction over histories |
| C10 | grid memory as function box -> var -> point | pointwise reasoning with explicit sequential writes |
| C11 | storage map with allocation states | invariant |
| C12 | array of faces | invariant |
| C13 | list templates | refinement |
| C14 | point lists with capacity | refinement + refuted (overflow) |
| C15 | active flags | invariant |
| C16 | index macros over nat/Z | arithmetic |
| C17 | loops as generated index sequences | permutation/NoDup |
| C18 | block decomposition | arithmetic |
| C19 | bytes of a 64-bit word | algebra on lists |
| C20 | file as byte list, writer and reader scanning functions | scanning lemmas |
| C21 | file-system state machine with crash points and write failures | invariant over all prefixes; refuted for unchecked write errors |
| C22 | state machine of directories over runs | refuted + partial |
| C23 | evolve_grid as fold with hook oracle | induction |
| C24 | timeforoutput over R | floor arithmetic |
| C25 | Butcher tables over Q and generic driver | order conditions by computation, step semantics by proof for every rhs |
| C26 | both drivers over a module (vector space) | algebra for every rhs |
| C27-C30 | sparse vectors as lists of (index,value) | induction |
| C31-C33 | solver loops over an abstract vector space with oracle operators | loop invariants |
| C34-C39, C43 | trigonometric sums over R | orthogonality relations for every N |
| C40 | stencils over R | field |
| C41, C42, C50 | matrices and memory lines | linearity, index algebra |
| C44 | loop of the integral | refuted for N=5, partial for the other N |
| C45 | Crout elimination over R with arrays as functions | loop invariants |
| C46 | bisection/Newton loop over R | invariant + intermediate value theorem |
| C47 | bit patterns, Flocq binary64 | case analysis on exponent field |
| C48 | bisection on index | invariant |
| C49 | loop with rank/size | arithmetic |

Properties C50 to C97 were added as the model grew; their models are listed in section 4.

No listed property is considered inexpressible. What is out of reach of the model: rounding
errors, the operating system (only the contract of rename/mv/cp/rm is modelled), MPI and OpenMP
run-time systems (only sets of possible orders are modelled), formatted printing of doubles
(`printf("%g")` etc., treated as an oracle), external libraries (FFTW, UMFPACK, LAPACK, GSL).


## 3. Trusted base

* Coq's kernel (coqc, rechecked with coqchk). No plugins, no extraction, no `vm`-only trust beyond the kernel's conversion, no axioms of our own, no switched-off checks.
* The standard library axioms that `Print Assumptions` reports. Only these four occur:
  `ClassicalDedekindReals.sig_forall_dec` (F), `ClassicalDedekindReals.sig_not_dec` (N), both used in the
  definition of the real numbers; `FunctionalExtensionality.functional_extensionality_dep` (E); `Classical_Prop.classic` (C).
  Section 5 lists them per theorem.
* The reading of the C code: the model is written by hand (Adm_model.v, Bssn_model.v, Conv_model.v, Bh_model.v and parts of Coord_model.v by
  the scripts in gen/, which translate straight-line C assignments one by one). Nothing relates the model to the C text mechanically.
* The idealisations of section 1: real numbers for doubles, no integer overflow, memory never runs out, and per model file the simplifications stated in its comments.

## 4. What is modelled

Per model file, the head comment of the file (each definition has its own comment with lines and simplifications).

| file | models |
|---|---|
| Adm_model.v | src/physics/ADMvars/ADMconstraints.c: the constraints of general relativity at one grid point. The C code is straight-line code (made with Mathematica) for each point ijk; there is one definition here for each assignment, in the same order, with the same expression, and the lines it comes from. A variable that is assigned again becomes a new definition with a number at the end of its name. Simplifications: the value at one point, as a real number; the derivatives (lines 31-40) are inputs. |
| Adme_model.v | the ADM energy: ADMenergy_spheric_intergrand, src/physics/ADMvars/ADMenergy_spheric_intergrand.c:17-427 at one point, and its use in ADMvars.c:79-118. Real numbers. The derivatives ADMvars_dgxxx, which FirstDerivsOf_Sab computes from gxx, ..., gzz, are given: component 3*c+k is the derivative of component c of the metric in direction k. Symmetric tensors have the components 11, 12, 13, 22, 23, 33. In ADMvars.c the variable list, the switching on of variables and the condition timeforoutput are left out, and a box that is not SphericalDF (the program stops there) is not in the domain of the model. |
| Algebra_model.v | the arithmetic on variable lists, src/main/main/variables.c:561-844. |
| Angle_model.v | src/utility/Coordinates/ComplexFunctions.c: angles, the argument of a complex number, and tanh and sech of complex numbers in real and imaginary parts. doubles are reals; PI and PIh (sgrid_main.h:11-12) are pi and pi/2; floor is exact. Division by zero is not modelled: the theorems exclude it. |
| Args_model.v | the start of a run: src/main/main/main.c:28-113 (main), 120-174 (get_next_argument_line), 178-251 (read_command_line), 330-368 (parse_command_line_options) and of src/main/main/utilities.c:410-426 (construct_argv), src/utility/checkpoint/wolfio.c:181-197 (fscanline). |
| Atten_model.v | src/utility/NumericUtils/attenuation.c: smooth steps from 0 to 1. doubles are reals, Pi is the number pi, and a division by zero is an Err. |
| Bc_model.v | src/utility/boundary/BCs_from_bfaces.c: conditions at the faces between boxes. doubles are reals. box->v[i][p] of box b is [u (i, b, p)]; an index outside 0..nnodes-1 is UB. The variables X, Y, Z, dXdx and oX, oY, oZ, which these functions only read, are not fields: the functions [jac] and [crd] give their values. Interpolation in the other box, spec_Coeffs followed by spec_interpolate (and their versions in a plane), is a function of the values in that box and of the point: [interp3], [interp2]. The exits for values that are not finite do not occur with reals; printing is left out. |
| Bfaces_model.v | the box-face lists, src/main/MemoryMan/storage.c:157-302. |
| Bh_model.v | src/physics/SingleBH/SingleBHisotropic.c: initial data for a single black hole in isotropic coordinates, at one point. The values psi, dpsiopsi, ddpsiopsi are given in the order of the list psiandderivs (sgrid_ADMvars.c:57-60: component 0, 1-3, 4-9), those of g, K, alpha, beta in the order of the list wl of computeADMconstraints (ADMvars.c:40-43: 0-5, 6-11, 12, 13-15). |
| Blocks_model.v | the block decomposition macros, src/utility/GridIterators/sgrid_GridIterators.h:6-28. |
| Bound_model.v | the boundary conditions src/utility/boundary/boundary.c, radiative.c, excision.c, and of their use inside the time integrators src/utility/evolve/rk.c and icn.c. |
| Bssn_model.v | src/physics/BSSN/BSSN_rhs.c: one time step, or the right hand sides, of the BSSN evolution equations at one grid point. One definition for each assignment of the straight-line C code, in the same order, with the same expression and the lines it comes from; a variable that is assigned again becomes a new definition with a number at the end of its name, and after a conditional there is a definition that chooses between the two. Simplifications: the values at one point, as real numbers; the derivatives (BSSN_rhs.c:656-703) are inputs; the literals 0.333..., 0.666...7 and 0.1666...7 with 16 or more digits are 1/3, 2/3, 1/6; pow with a real exponent is Rpower, which agrees with it for a positive base; usepsi is 1 (22), so 2179 is always true; the errorexit at 3366 is bs_error. |
| Cart_model.v | src/utility/Coordinates/cartesianDerivs.c: Cartesian derivatives from spectral derivatives and the coordinate derivatives of a box, and of compute_xyz_dXYZdxyz_ddXYZddxyz of Coordinates.c, which stores the coordinate derivatives. A box has variables box->v[i], each NULL or an array; the functions get their arrays as variable indices instead of pointers (every caller modelled here passes box->v[i]). The spectral derivatives spec_Deriv1 and spec_allDerivs are parameters (D and DD: direction(s) and array to array); the hooks box->Sing_d_dx, which none of the modelled coordinate systems sets, are left out, and the parallel loops over the points are run in order. |
| Cheb_model.v | src/utility/Spectral/explicit_Cheb_trafos.c. double is modelled by R (no rounding); the decimal literal PI (line 9) by the number pi. int arguments that the functions use as array sizes are naturals. Arrays are lists; reading or writing outside of them is UB. The arrays passed to one call are assumed not to overlap, as in all calls in /repo. |
| Ckpt_model.v | the checkpoint files: src/utility/checkpoint/checkpoint_write.c:70-168 (checkpoint_write_local), src/utility/checkpoint/checkpoint_read.c:85-241 and the text reading functions of src/utility/checkpoint/wolfio.c. A file is the list of its bytes (as characters). |
| Conv_model.v | the conversion between the ADM and the BSSN variables at one grid point: src/physics/BSSN/BSSN_init.c, src/physics/BSSN/BSSN_AlgConstr.c, BSSNtoADM and part of ADMtoBSSN in src/physics/BSSN/BSSN.c, src/physics/ADMvars/utility.c. One definition for each assignment of the straight-line C code, in the same order, with the lines it comes from; a variable that is assigned again becomes a new definition with a number at its end. Simplifications: real numbers; values at one point; the derivatives of the conformal metric (BSSN_init.c:271) are inputs; the literals 0.3333333333333333 and 0.33333333333333333333333333333333333333 are 1/3; pow(x,y) with a real exponent is Rpower, which agrees with it for x > 0 only. |
| Coord_model.v | the coordinate transformations of src/utility/Coordinates/Coordinates.c: the Cartesian coordinates as functions of the box coordinates, the tables of first and second derivatives of the box coordinates with respect to x,y,z, and the code that installs them in a box. doubles are reals and PI is the number pi. The macro Cot(x) is 1.0/tan(x); it is modelled as cos x/sin x, which is the same number wherever tan x is finite and non-zero. Division by zero (r=0, sin theta=0 ...) is not modelled: every theorem excludes these points by hypothesis. The functions that read a parameter once into a static variable (r0, s) are modelled as functions of the parameter's value, i.e. for runs in which that parameter is not changed. |
| Cub_model.v | src/utility/Coordinates/coordtrans_CubedSphere.c: sphered cubes ("cubed spheres"), their inverse, the derivatives of the inverse, the stretched version, and the relation of (lam,A,B) to r, Theta, Phi. doubles are reals; results returned through pointers are returned as tuples; a domain is a natural number (0 ... 5 in use). The spectral interpolation in a plane (spec_Coeffs_inplaneN followed by spec_interpolate_inplaneN) is a parameter ip: array, plane index, A, B to value. Division by zero is not modelled: the theorems exclude it. |
| Dcov_model.v | src/utility/Coordinates/doubleCovering.c (points of SphericalDF boxes that are covered twice) and of find_ijk.c (from a coordinate value to the index of the plane). Variables are as in Cart_model; ints are natural numbers. |
| Dir_model.v | one direction of a box: coordinates, function pointers and matrices. src/main/MemoryMan/grid.c:65-256 set_BoxStructures_fromPars, src/utility/Spectral/spec_coeffs.c:636-862. The value of parameter box<b>_basis<dir> is one of five words; other values end the program. This file has TransformType = 0; the other transform types are in Fftw_model.v. |
| Diss_model.v | addDissipation, src/utility/evolve/addDissipation.c:12-78, and of evolve, src/utility/evolve/evolve.c:68-169, around the integrators of Rk_model. The variables of a box, cart_partials and the coordinate tables are those of Cart_model. The nine work variables Ind("ADMvars_dgxxx"), ..., Ind("ADMvars_ddgxxzz") are given by their indices (Ind stops the program if they are not declared; a work variable without storage is NULL, and using it is UB). pow(grid->dt, DissOrder) of the C library is the argument dtO. The printing at iteration 0 is left out. |
| Endian_model.v | src/main/main/endianIO.c. Bytes are integers 0..255. |
| Evdrv_model.v | evolve, src/utility/evolve/evolve.c:66-169, with the allocation of the auxiliary lists in evolve_rk, rk.c:243-282. The integrators are those of Rk_model, with the same memory: one value list for each of u_c, u_p, u_q and u_k[i]. What is kept between calls: whether a right-hand side and a list of variables are registered, whether u_p and u_q exist, and how many u_k exist. A list that does not exist is a null pointer: using it is UB. Storage of the auxiliary lists is switched on before and off after the step (unless evolve_persist); what they contain at the start is arbitrary here. [getm], [getrk] and [listed]: is the word in evolution_method, in evolution_method_rk; is the name of the variable of this value in evolve_compute_change? The variables NAME_change are one value list; the debug output and the messages are left out. |
| Evolve_model.v | evolve_grid, src/main/main/main.c:418-470. |
| Extr_model.v | src/utility/Coordinates/find_extrema.c, of the functions of src/utility/numerics/NumericUtils_shims.c it calls (lines 18-24, 61-73), and of zbrac_P and zbrent_itsP of src/utility/NumericUtils/zbrac.c and zbrent.c, which replace the shims when NumericUtils is compiled in. double is R. The arrays x[1..n] of the search start at 0 here, as in Lsrch_model. Messages are dropped. |
| Faces_model.v | the search for pairs of touching box faces, src/utility/Coordinates/Coordinates_set_bfaces.c:1658-1840 (set_touching_bfaces_of_boxes_with_same_facepoints, set_all_bfaces_with_ob_minus1_to_outerbound), and of the flags that say on which of two faces the values and on which the normal derivatives are matched (lines 1396-1411 and 1550-1632). doubles are reals. Each box has the six bfaces made in lines 1672-1673; [st b f] is bface[f] of box b. A point list fpts is only ever given points of its own box. xyz b ind are the Cartesian coordinates of a point: the C code computes them with x_of_X for one box and takes them from the variables x,y,z for the other; both are the same (see Cart_model.v). |
| Fd_model.v | src/utility/Spectral/finite_differences.c. double is R. n is the index of the last point, a natural number. Arrays are lists; access outside is UB. The input and output arrays of one call do not overlap, as in all calls in /repo. |
| Fdj_model.v | src/utility/NumericUtils/fd_jacobian.c: the matrix of derivatives from finite differences. Simplified: arithmetic is that of the real numbers, arrays are functions of their index, vecfunc is a function of n and the array x that does not change x. |
| Fft_model.v | the fast transforms of src/utility/Spectral/FFTs_for_sgrid.c:1-374 that do not need FFTW3 (the numrec functions and their callers), and of is_power_of_two (spec_coeffs.c:589-598). double is R, the literals PI and twoPI are pi and 2 pi; unsigned long and int are naturals that do not overflow. Arrays are lists; a numrec function gets the address one before its array, so data[i] is element i-1. Reading or writing outside of an array is UB. Arrays passed to one call do not overlap. |
| Fftw_model.v | the FFTW3 transforms of src/utility/Spectral/FFTs_for_sgrid.c:523-622, of the choice of the transform (src/utility/Spectral/spec_coeffs.c:600-742), and of the use of the chosen functions (spec_coeffs.c:190-363, one line; grid.c:208-224). The FFTW3 library itself is not modelled: fftw_execute_* are given by the sums that the FFTW3 manual documents for FFTW_FORWARD r2c, c2r, REDFT00, REDFT10 and REDFT01 with plans that keep their input (no FFTW_DESTROY_INPUT). double is R. Arrays are lists; reading or writing outside of an array is UB. Arrays passed to one call do not overlap. |
| Filt_model.v | src/utility/Coordinates/coordFilters.c and the 2/3-rule filters of src/physics/BSSN/BSSN.c:421-536. The arrays of one box are a function from variable indices to lists; [t] is the index of temp1. |
| Find_model.v | src/utility/Coordinates/findXYZ_of_xyz.c: from (x,y,z) to the nearest grid point, and to the box and the box coordinates of a point. A box holds its size, its arrays X,Y,Z,x,y,z (looked up by name in the code), its bbox, and what its coordinates provide. doubles are reals. |
| Finite_model.v | finit, src/main/main/utilities.c:186-203. |
| Flatten_model.v | the copies between variable lists and plain arrays, src/utility/GridIterators/utility.c:76-319. |
| Four_model.v | src/utility/Spectral/explicit_Four_trafos.c. double is modelled by R, the literal PI by pi; n >= 0 and N = n+1. Arrays are lists; the arrays passed to one call do not overlap. |
| Fsurf_model.v | the surface functions of cubed spheres, src/utility/Coordinates/FSurf_CubedSpheres.c. [co] is the variable Coordinates_CubedSphere_sigma01_co of the box (nnodes values), [lmax] the global of the file. Doubles are reals. |
| Index_model.v | the index macros (src/main/main/sgrid_main.h), the loops over planes (src/main/MemoryMan/sgrid_MemoryMan_loops.h) and the active boxes (grid.c). C int arithmetic is modelled in Z without overflow; / is division truncated to zero. |
| Kchk_model.v | KerrChecker in src/physics/ScalarOnKerr/ScalarOnKerr.c (202-434), which the start-up of ScalarOnKerr calls for every grid (177-178). Simplified: exact reals; the 3+1 tables at a point are a slice (Sokr_model.v); what is printed is left out; pow with the exponents -1.5 and -2 is Rpower. |
| Ks_model.v | src/physics/SingleBH/SingleBHKS.c: initial data for a single spinning black hole in Kerr-Schild coordinates, at one point (x1, x2, x3). Every variable of the loop body (113-586) is one definition with the expression of the code and its lines. Power(x,n) is pow with a constant whole exponent (8) and pow2(x) is x*x (10): both are x ^ n here. The variables that the code computes but does not use (gup, detgup) are modelled too. cf is the parameter SingleBH_ConformalFactor (25), M is BHmass1 and (Sx, Sy, Sz) are BHsx1, BHsy1, BHsz1 (21-24). Doubles are real numbers; a division by zero gives an unspecified number. |
| Lines_model.v | the three-dimensional spectral operations, which work line by line: src/utility/Spectral/derivs.c:78-135 (get_memline, put_memline), 746-840 (spec_Deriv1), 843-1294 (spec_allDerivs), 1298-1394 (spec_Deriv2), spec_coeffs.c:190-363 (spec_analysis1, spec_synthesis1), interpolate.c:9-130, integrals.c:9-160 and 261-269, filters.c:75-171, OpenMPsave_loops.h:24-49. double is R. A variable on a box is a list of n1*n2*n3 values. |
| Lists_model.v | the list templates, src/main/MemoryMan/list_templates.c (instantiated for int in lists.c), and of box lists, boxlists.c. |
| Lsrch_model.v | src/utility/numerics/newton_linesearch.c:40-360: newton_linesearch and the functions it uses. double is R. vecfuncP is a function from the array x to the array of values (it neither changes x nor keeps a state; par is part of it); the shift of all arrays by vecfuncP_ilow is left out, i.e. vecfuncP_ilow = 0. finit(f) is true for a real number, so line 204 (return of -its-itmax*10) is never taken. malloc never fails. A division whose divisor may be zero is ldiv: UB stands for the inf or NaN of C, which are outside the model. abort() is Err, and nothing else is. Uninitialised arrays are lists of arbitrary content, where it matters. |
| Lu_model.v | src/utility/numerics/lu.c: LU decomposition with implicit scaling and partial pivoting, and its use. double is R. The matrix double A[][n] is the list of its n*n entries, A[i][j] at position n*i+j. malloc succeeds. |
| Mat_model.v | src/utility/Spectral/matrices.c, diffmatrices.c, spec_coeffs.c:20-78 and 865-968, filters.c:9-53, and the part of src/main/MemoryMan/grid.c that builds the matrices of a box. double is R; n x n matrices are row-major lists. Function pointers are functions; those that write an output array take its old contents and return the new ones. |
| Min_model.v | the minimization routines in src/utility/NumericUtils: golden.c:7-39, mnbrak.c:9-60, brent.c:10-67, linmin.c:8-37 with f1dim (linmin.c:52-63), powell.c:6-55. The variants with a pointer to parameters (mnbrak.c:64-119, brent.c:72-139) are the same text with one more argument for the function; a function here is any function of the variable. Real numbers instead of doubles. The loops of golden and mnbrak have no bound: they get a number of passes, and None means that they have not ended after that many. nrerror prints and exits: also None, in brent after 100 passes and in powell after 200. In brent the variable d is not initialized: it is None until it is set, and reading it before is UB. Vectors are lists, index 1 of the code is position 0; the matrix xi is the list of its columns, because powell and linmin use columns only. |
| Modes_model.v | the mode decomposition, src/physics/ModeComputer/ModeComputer.c: the functions on the grid, one time level of the data, its modes. Doubles are real numbers, arrays are lists of the values in one box with Index(i,j,k) = i + n1*(j + n2*k). Not modelled: the text format of the files (a file is the list of its time levels, a time level the table of its numbers), names of output files, and the parameters set in ModeComputer_set_boxsize (ModeComputer.c:28-70) except that n1 >= (lmax+1)^2 is a hypothesis of the theorems. Arrays of different variables are different, so a loop that fills two of them is two loops. |
| Ode_model.v | the adaptive integrator for ordinary differential equations: src/utility/NumericUtils/rkck.c, rkqs.c and odeintegrate.c. The versions with a parameter (rkckP, rkqsP, odeintegrateP) and rkqs_HR are the same code with the extra argument, so they are not repeated. doubles are reals. A vector y[1..n] is a function of the index; loops over 1..n that set y[i] set it at every index (only 1..n exist). The right hand side is a pure function f. vector(), matrix() never fail. |
| Output_model.v | src/utility/output/output.c:16-36, 130-219. |
| Params_model.v | src/main/main/parameters.c: parameter file parser, parameter data base, Getv, NextEntry. |
| Pman_model.v | src/utility/ParManipulator/ParManipulator.c:9-134 ParManipulator_setPars and of src/utility/NumberChecker/NumberChecker.c:11-141. |
| Pnco_model.v | src/physics/PN_CircularOrbit_GWs/PN_CircOrbit.c: PN_CircOrbit_compute_constants (26-107), PN_CircOrbit_derivs (110-493) and PN_CircOrbit_compute_r (497-529). Simplified: exact reals, the literal PI is pi; y[1..11] and dydx[1..11] are functions of the index; the global constants are functions of the masses and the parameters are a record; the global tsdamp, which only the waveform reads, is left out, and so is the integrator (Odeint_model.v). |
| Points_model.v | point lists, src/main/MemoryMan/points.c, and of the loop macros over them. |
| Poisson_model.v | the two example problems with two coupled fields: src/physics/Poisson2/Poisson2.c:256-398 and src/physics/Poisson3/Poisson3.c:330-427, src/physics/Poisson3/Poisson3_BCs.c:17-152: the equations F, their linearisations J and the boundary conditions. doubles are reals. The fields Psi, Chi, their derivatives and the residuals have fixed numbers: VLuAll->index[k] is k (Psi 0, Psix 1-3, Psixx 4-9, Chi 10, Chix 11-13, Chixx 14-19, rh1 20, rh2 21), VLFu is 22, 23; the duplicates with names ending in _l (VLlu, VLluAll, VLJlu) have the numbers plus 24. In the C code these are any numbers, different for different variables. D_and_DD_of_S (see Cart_model.v) is a parameter: [DS b m] maps the values in box b to derivative number m = 0..2 (first) and 3..8 (second). erf is a parameter. |
| Probe_model.v | the construction of a matrix by probing a linear operator with unit vectors (src/utility/LinAlg/ReadMatrixFrom_Fx.c). The grid data are a function from locations (box, variable, point) to real numbers; Fx is an arbitrary transformer of all the data (it may write any variable). Only active boxes are listed, since the macro forallboxes skips the others (src/main/MemoryMan/sgrid_MemoryMan_loops.h:21-23). The stores into the sparse vectors are collected in a list and performed afterwards: Fx does not read them. |
| Quad_model.v | the one-dimensional integration functions src/utility/NumericUtils/integral.c (trapezoidal rule with halved steps, Romberg integration), src/utility/NumericUtils/integrals_1Dgrid.c (integrals of functions given on a uniform grid) and src/utility/NumericUtils/integral3D.c. doubles are reals. The functions to be integrated are pure. The work arrays s and h have the indices 0..max+2 and 0..max+3 and are only used at 0..max+1: they are functions here, with arbitrary initial contents. The array f of the grid functions is a list; reading outside of it is UB. |
| Rho_model.v | the source of the scalar field in src/physics/ScalarOnKerr/ScalarOnKerr.c: the test source of ScalarOnKerr_Source (437-470), ScalarOnKerr_init_rho0_four3modes (490-523) and ScalarOnKerr_rho_from_rho0_four3modes (525-586). Simplified: exact reals, the literal PI is pi; one line of points in direction 3, which is Fourier in these boxes, so that spec_analysis1 and spec_synthesis1 are four_coeffs and four_eval on the line (Four_model.v, and Lines_model.v for the loop over lines); the sources of DV_CircSchwSource are left out. The loop over k runs in parallel, but every pass writes crho only at its own k and reads crho0 only, so the order does not matter. |
| Rk_model.v | the time integrators, src/utility/evolve/rk.c and icn.c. |
| Root_model.v | src/utility/numerics/newton1d_brak.c, rt_brak.c, rtbrent_brak.c, minbrent_brak.c. double is R: finit() is true, every comparison is decided, arithmetic is exact. The user function is a pure total function (its void *par is fixed); a function with derivative is a pair. Results are the value left in *x0 and the return value; printf is dropped. |
| Rotate_model.v | the writing of checkpoint files and of the rotation of output directories as sequences of file system operations that can stop anywhere: src/utility/checkpoint/checkpoint_write.c:22-66 (checkpoint_write), src/main/main/main.c:267-310 (make_output_directory), src/utility/checkpoint/checkpoint.c:20-88 (checkpoint), 201-214 (checkpoint_checkifrestart), 219-245 (checkpoint_copy_output), src/main/main/utilities.c:362-390 (system2, system3: rename and remove_dir). |
| Rts_model.v | src/utility/NumericUtils/rtsafe_itsP.c: Newton's method inside a bracket. Simplified: arithmetic is that of the real numbers, so only the caller's numbers and the values of the function can be infinite or not a number; the function is one that returns the same for the same x. |
| Setup_model.v | src/utility/Coordinates/setup_CubedSpheres.c: arrangements of cubes and sphered cubes. A grid is the list of its boxes. Of a box we keep the parameters that say how it is placed: the coordinates (boxN_Coordinates), the limits (boxN_min1 ... boxN_max3) and box->CI. Numbers written into parameters as text are read back unchanged. set_BoxStructures_fromPars, which builds points and bases from these parameters, and the removal of the face information are left out. The variable Coordinates_CubedSphere_sigma01_def is taken as not enabled, so that the surfaces keep the radii box->CI->s. |
| Skeleton_model.v | the function bins, src/main/main/skeleton.c. |
| Sok3_model.v | src/physics/ScalarOnKerr/Kerr3d.c: lapse, shift, spatial metric, extrinsic curvature and their derivatives for a spinning black hole in Kerr-Schild coordinates, at one point (x1, x2, x3). Every variable of the loop body is one definition with the expression of the code and its lines. Power(x,n) is pow with a constant whole exponent (8) and pow2(x) is x*x (10): both are x ^ n here. M is the parameter BHmass and (Sx, Sy, Sz) are BHsx, BHsy, BHsz (21-24). Doubles are real numbers; a division by zero gives an unspecified number. |
| Sok_model.v | src/physics/ScalarOnKerr/Kerr.c: metric, inverse metric, Christoffel symbols and their trace for a spinning black hole in Kerr-Schild coordinates, at one point (x1, x2, x3). Every variable of the loop body is one definition with the expression of the code and its lines. Power(x,n) is pow with a constant whole exponent (8) and pow2(x) is x*x (10): both are x ^ n here. Variables that are assigned twice without being read in between have only the second assignment (dr0, dH0, l0, dl0k, dlk0). M is the parameter BHmass and (Sx, Sy, Sz) are BHsx, BHsy, BHsz (21-24). x0 is 0 (242-245). Doubles are real numbers; a division by zero gives an unspecified number. |
| Sokb_model.v | the boundary conditions of the scalar field in first order form, src/physics/ScalarOnKerr/ScalarOnKerr.c: set_Up_Um_U0_onBoundary (3008-3189), compute_unew_from_Up_Um_U0_onBoundary (3192-3274), set_psi_Pi_phi_boundary (2504-2652) and set_psi_Pi_phi_boundary_CP (2659-2826). Simplified: exact reals; arrays are functions of the box and the flat index; the penalty terms in if(0) (3094-3144) and the values of Up, Um, U0 in ucur, which only they read, are left out; cart_partials is a parameter. |
| Sokp_model.v | the outer boundary condition of the scalar field in second order form, src/physics/ScalarOnKerr/ScalarOnKerr.c: set_psi_Pi_boundary (864-957) at one point. set_psi_Pi_boundary_New (961-1054), which nothing calls, is the same formula with psi in place of Pi. Simplified: exact reals; the derivatives of Pi and the metric tables at the point are given; the loop is over the outermost plane of the last box only (870-871, 917). |
| Sokr_model.v | the equations in src/physics/ScalarOnKerr/ScalarOnKerr.c at one point: ScalarOnKerr_evolve_1stO (first order in space) and ScalarOnKerr_evolve (second order in space). Simplified: exact reals; the derivatives, the source and the metric tables at the point are given; filters, boundary conditions and the loops over boxes and points are left out. ScalarOnKerr_evolve is registered only if ScalarOnKerr_1stOrder_inSpace is not yes (ScalarOnKerr.c:64-69), so only its branch for firstorder = 0 is modelled. Components are numbered x=0, y=1, z=2 and xx=0, xy=1, xz=2, yy=3, yz=4, zz=5; the derivative of the i-th component in direction j is number 3*i+j. |
| Solvers_model.v | the linear and nonlinear iterative solvers of src/utility/GridIterators: bicgstab.c, SOR.c, WTsolver.c and Newton.c, and of the norms of utility.c. The data of a variable list on the grid are one list of real numbers, in the order variable, box, point of the loops "for j, forallboxes, forallpoints" (this is the order of copy_vl_into_array_outervlloop, see Flatten_model.v). Doubles are real numbers. A division by zero gives inf or NaN in C; here it ends the function with Err. Messages are not modelled, memory never runs out, there is at least one point (GridL2Norm divides by the number of points). |
| Sparse_model.v | the sparse vectors and of the products of a sparse matrix with a vector (src/utility/LinAlg/SparseVector_utils.c) and of the conversion to the compressed columns of UMFPACK (src/utility/LinAlg/umfpack_di_interface.c). A sparse vector is the list of its (position, value) pairs in storage order; memory never runs out and positions are non-negative. The arithmetic is arbitrary (F, zero, add, mul). |
| Sphere_model.v | the integral over spheres covered twice in theta (double Fourier), src/utility/Spectral/integrals.c:337-412. |
| Storage_model.v | variable storage, src/main/MemoryMan/storage.c, with an explicit heap. Allocation never fails (errorexit on out of memory is not modelled). |
| Sw_model.v | src/physics/ScalarWave/ScalarWave.c, src/physics/testwave/testwave.c and src/physics/ConvTest/ConvTest.c: the right hand sides, initial data, error and energy at one point, and the loops that set faces of a box to zero. Partial derivatives are inputs. Doubles are real numbers. Not modelled: dissipation, filters, set_boundary and reset_doubleCoveredPoints, which are called afterwards (ScalarWave.c:65-75), and testwave_filter, ConvTest_filter; testwave_analyze computes a number that is not used (testwave.c:213). |
| Swsh_model.v | the spin-weighted spherical harmonics, src/physics/ModeComputer/SpinWeightedSphericalHarmonics.c. Doubles are real numbers and PI is the real number; ints are unbounded. pow(x,n) is called with int exponents only: it is powerRZ, which agrees with the C function where the exponent is not negative or x is not 0. |
| Tensors_model.v | src/main/main/tensors.c: tensorindexlist. |
| Tid_model.v | src/physics/TestID (TestID_1dGaugeWave.c, TestID_1dLinearWave.c, TestID_RandomNoise.c): initial data for tests, at one point. The values psi, dpsiopsi, ddpsiopsi are given in the order of the list psiandderivs (sgrid_ADMvars.c:57-60: component 0, 1-3, 4-9), those of g, K, alpha, beta in the order of the list wl of computeADMconstraints (ADMvars.c:40-43: 0-5, 6-11, 12, 13-15). A is TestID_amplitude, Lx is bbox[1]-bbox[0] of the box, t is 0. Doubles are real numbers. Not modelled: the messages and the allocation of memory in TestID.c. |
| Trans_model.v | src/utility/Coordinates/transfDerivs.c: 3x3 matrices, inverse Jacobians and second derivatives under coordinate changes. doubles and long doubles are reals. A C array double M[4][4] is used with indices 1..3 only and is a function of two directions. The result array is taken to be distinct from the argument arrays, as it is in every call in the code base (Coordinates.c:3263,4441,4512,4538,4564,4603, Coordinates_AnsorgNS.c:145,176,201-202, integrals.c:226-242): the C functions store into the result while they still read the arguments. |
| Vars_model.v | the variable data base and of variable lists, src/main/main/variables.c. |
| Yfil_model.v | The projection onto spherical harmonics: src/utility/s2kit/YlmFilter.c and the parts of s2kit it calls: s2kit_makeweights.c:77-100, s2kit_primitive.c:49-51, 61-84, 128-259, s2kit_pmls.c:73-120, s2kit_naive_synthesis.c:83-203. double is R. The arrays carved out of one workspace are separate lists; a new array has arbitrary contents. |
| Ylm_model.v | the Legendre functions and spherical harmonics, src/utility/Spectral/SphericalHarmonics.c. Doubles are reals, PI is the real number, ints are unbounded, calloc never fails. Arrays are lists, an access outside an array is UB, errorexit is Err. |

### Not modelled

* Rounding, overflow and NaN of double arithmetic (except bit patterns in Finite_model.v and Endian_model.v); wrap-around of int.
* Failure of memory allocation; the operating system beyond the contract of rename, mv, cp, rm and writing; signals.
* The contents of formatted output: printf of doubles is an oracle; VTK, gnuplot, xgraph, output0d-3d files are not modelled (only when they are written: C24).
* OpenMP and MPI run-time systems: parallel loops are modelled as loops in any order with arbitrary contents of private work arrays.
* External libraries and their wrappers: the FFTW library itself (its documented transforms are what Fftw_model.v assumes fftw_execute to compute; planning and wisdom are left out), UMFPACK/SuiteSparse/LAPACK/ZIB/templates calls beyond the matrix conversion, GSL (GSL_odeint.c), the parts of s2kit that YlmFilter.c does not call (semi-naive transforms, cospmls, FST).
* src/main: print.c; parameter output to files; parts of grid.c that print or copy grids beyond those in the table.
* src/utility: Coordinates_AnsorgNS.c and coordtrans_AnsorgNS*.c, populate_bfaces_AR.c and the rest of Coordinates_set_bfaces.c (faces between boxes of different resolution), Singularities.c,
  the numerical-recipes variants in NumericUtils (svd, ...) unless listed above, wrappers_for_JacobiPrecon.c, the rest of boundary.c that builds point lists.
* src/physics: Poisson.c and the set-up, solving and analysis parts of Poisson2 and Poisson3, ScalarOnKerr except Kerr.c, Kerr3d.c, the right hand sides of ScalarOnKerr_evolve and ScalarOnKerr_evolve_1stO, KerrChecker, set_psi_Pi_boundary, the boundary conditions of the first order form, and the rotation and test case of the source, Z4secondO, the file format and output of ModeComputer, PN_CircularOrbit_GWs except the orbit equations and radius in PN_CircOrbit.c.
* Inside modelled functions: timers and messages.

## 5. Axioms per theorem (Print Assumptions)

Letters as in section 3; "none" is `Closed under the global context`. Every theorem of MANIFEST.json is listed once.

**none** (120): C10_vlsetconstant, C10_vlswap, C49_each_process, C49_empty_file_refuted, C49_every_line_once, C49_single_run, C53_collect, C53_effect, C53_malformed_refuted, C53_modify_par, C53_parfile, C101_same_coords, C12_bfaces, C12_other_index_stale_refuted, C12_remove_order, C18_blocks, C18_subboxes_tile, C64_layout, C36_int_order0, C20_newline_refuted, C20_round_trip_partial, C69_copy_odd, C56_one_point_refuted, C19_doubles_round_trip, C19_image_injective, C19_read_portable, C19_write_portable, C100_flags, C98_power_of_two, C99_choice, C30_by_point, C30_outer_vars, C30_sorted_vars, C30_subbox, C15_active_boxes, C16_forallijk, C16_forinnerijk, C16_injective, C16_inverse, C16_onto, C17_forinnerplaneN, C17_forplane1, C17_forplane1_nojump, C17_forplane2, C17_forplane2_nojump, C17_forplane3, C17_forplane3_nojump, C17_forplaneN, C13_droplist_self_refuted, C13_lists, C13_pushlist_self_refuted, C13_union_nodup, C51_attributes, C51_neighbours, C51_neighbours_of_neighbours, C51_sublist, C01_malformed_refuted, C01_parse_layout, C01_read_file, C02_refines_map, C02_self_assignment_refuted, C02_start_irrelevant, C03_getv_exact, C03_getv_partial, C03_getv_refuted, C04_interleaved_refuted, C04_leading_blank_refuted, C04_next_entry, C94_count, C94_list, C94_safe_partial, C94_safe_refuted, C95_again, C95_boxes, C14_duplicate_partial, C14_duplicate_refuted, C14_pointlist, C52_forPointList_partial, C52_forPointList_refuted, C29_numbering, C25_names, C25_order, C54_icn_order, C21_crash_partial, C21_full_disk_refuted, C22_copy_partial, C22_copy_refuted, C22_default_partial, C22_keep_refuted, C22_refuses, C22_restart, C22_restart_progress, C09_bins, C27_left_race_refuted, C27_lines_parallel, C27_transposed_parallel_partial, C27_transposed_race_refuted, C28_columns, C28_lines, C28_matrix_market, C11_no_leak, C11_samevars_mismatch, C11_storage, C08_documented_spelling_refuted, C08_sign_refuted, C08_tensors_partial, C08_unknown_string, C07_addduplicate, C05_addvar_succeeds_iff, C05_long_name_refuted, C05_registry, C05_restart_idempotent, C05_restart_refuted, C06_addconstant_partial, C06_restart_refuted, C06_setconstant, C07_addduplicate_refuted, C07_drop_component_refuted, C07_pushvl_self_refuted, C07_varlists

**F** (14): C10_varcopy, C10_vlcopy, C10_vlsubtract, C65_no_second, C64_cartesian_xyz, C64_coordinates_stored, C36_filter, C71_sigma, C69_copy, C40_coeffs, C39_null, C54_euler, C107_faces, C79_alloc

**EF** (165): C115_finite_radius, C115_limit, C10_shifted_alias_refuted, C10_varadd, C10_vladd, C10_vladdto, C10_vlaverage, C68_base_angle, C65_cart_partial_all, C65_hessian, C66_all, C66_first, C66_first_and_second, C66_selected, C64_cart_partials, C64_gradient, C35_basis_fromsum, C35_eval, C35_eval_basis, C36_deriv, C36_int_full_refuted, C86_utility, C74_cover, C74_once, C75_r_lam, C73_function, C69_average, C69_grid, C69_odd, C69_twice, C70_find, C70_recover, C112_dissipation, C112_laplacian, C112_off, C112_rhs, C113_late_refuted, C113_nothing, C113_step, C113_storage, C113_switch_refuted, C23_lowered, C23_timing, C23_while, C111_gradient, C100_whole_faces, C40_basis_box, C40_basis_nobox, C40_nonuniform, C40_nonuniform_linear, C40_onesided, C40_onesided2, C40_periodic, C40_short_refuted, C119_affine, C119_error, C119_quotients, C119_quotients_par, C97_inXYZ, C78_boxes, C78_boxlist, C77_faces, C77_off_face, C43_refused, C57_filter3d, C57_filter3d_identity, C39_interpolate, C42_allDerivs, C42_deriv1, C42_deriv2, C42_fft_order, C42_locality, C42_mixed, C42_orders, C50_analysis, C50_commute, C50_inverse, C50_synthesis, C61_jacobian, C61_jacobian_affine, C41_basis_weights, C41_coeff_eval, C41_filter, C41_initdiffmatrix, C41_initdiffmatrix2, C41_nofilter, C41_products, C114_golden_ends, C114_golden_refuted, C114_mnbrak, C114_mnbrak_refuted, C109_times, C85_diagonal, C85_normalised_partial, C85_normalised_refuted, C85_terms, C104_path_between, C104_rkck, C24_iterations, C24_only_output_times, C24_times, C48_closest, C48_descending_refuted, C48_three_directions, C94_stop, C95_ds_min, C95_ds_min_refuted, C95_dt, C95_required, C102_poisson2, C102_poisson2_linear, C102_poisson2_solution, C29_onevar, C29_parallel, C29_serial_partial, C29_serial_refuted, C29_sorted, C103_grid_simpson, C103_grid_simpson_few, C103_grid_simpson_old_partial, C103_grid_simpson_old_refuted, C103_grid_trapez, C103_integral3D, C103_polint, C103_polint_equal, C103_romberg, C103_romberg_exact, C103_romberg_few, C103_trapezoid, C25_step, C25_step_conditions, C25_traditional, C26_conditions_refuted, C26_no_conditions, C26_partial, C54_icn_partial, C54_icn_time_refuted, C46_newton_refuted, C46_rt_brak_missed, C118_accuracy_refuted, C118_converges, C118_result, C82_few, C120_new, C120_symmetric, C32_contraction, C32_fixed_points, C32_repeated_entries_refuted, C32_sweep, C32_zero_diagonal, C27_add, C27_component, C27_component_refuted, C27_lines, C27_transposed, C28_lines_R, C28_lines_negative_drop_refuted, C107_step, C106_driver, C106_noise, C67_composed, C67_det, C67_inverse, C67_second_of_inverse, C67_singular

**CEF** (7): C45_code_singular, C45_factors, C45_return, C45_solve, C58_det, C58_det_never_zero, C58_det_refuted

**EFN** (184): C83_constraints, C115_conformally_flat, C115_integrand, C62_range, C62_step01, C62_step01_p0, C62_step01_slope, C101_copy, C101_interface, C101_interp2, C101_interp3, C101_linear, C101_no_derivative_without_touch, C101_normal, C101_normal_cartesian, C101_onface, C101_outdir, C101_outdir_normal, C101_outer_faces, C101_two_common_coordinates, C84_isotropic, C84_setting, C31_finite, C92_constant_growth, C92_constant_partial, C92_constant_refuted, C92_excision_growth, C92_excision_partial, C93_analytic, C93_consistent, C93_only, C93_outgoing, C93_radconstant, C93_stored, C34_extrema_coeffs, C34_extrema_values, C34_getcoeff_exact, C34_getcoeff_interpolates, C34_interpolates_extrema, C34_interpolates_zeros, C34_onExtrema_points, C34_onZeros_points, C34_zeros_coeffs, C34_zeros_values, C35_T_cos, C36_int, C74_fill, C74_into, C74_match, C75_radius, C76_refused, C71_place, C71_surfaces, C71_unset, C72_back, C72_status, C72_there, C73_derivatives, C69_function, C69_same_place, C56_coordinates, C56_ends, C100_offset_refuted, C100_subset_refuted, C98_cheb_extrema_coeffs, C98_cheb_extrema_eval, C98_cheb_zeros_coeffs, C98_cheb_zeros_eval, C98_four_coeffs, C98_four_eval, C98_four_int, C98_one_point_refuted, C98_round_trip, C98_three_points_differ, C98_two_extrema_refuted, C99_fftw_extrema_coeffs, C99_fftw_extrema_eval, C99_fftw_four_coeffs, C99_fftw_four_eval, C99_fftw_zeros_coeffs, C99_fftw_zeros_eval, C78_cubes, C78_single, C77_box, C77_boxes, C77_inner, C77_plane, C77_plane_refused, C37_alt_partial, C37_alt_refuted, C37_coeffs, C37_eval_samples, C37_values, C38_at_grid, C38_everywhere, C38_integral, C38_samples, C39_four_basis, C39_four_partial, C39_four_shifted_refuted, C105_constraints, C105_curvature, C105_metric, C105_psi_partial, C105_psi_spin_refuted, C105_setting, C61_linesearch, C41_linear, C33_affine, C33_failed_solver, C33_no_quit, C33_quit, C33_report, C33_step, C102_poisson3_linear, C102_poisson3_partial, C102_poisson3_refuted, C124_rigid, C124_rotation, C124_shift, C46_newton_partial, C46_rt_brak, C46_rtbisect, C46_rtbisect_converges, C59_rtbrent, C118_root, C82_cube, C82_two_cubes, C82_two_spheres, C117_curvature, C117_lapse_shift, C117_slice, C117_spacetime, C116_christoffel, C116_metric, C116_trace, C116_wave, C122_agree, C122_frame, C122_join, C123_constraint, C123_frame, C123_psi_partial, C123_psi_refuted, C123_radiative, C123_step_refuted, C125_outgoing, C125_schwarzschild, C125_speed, C120_constraint, C120_solution, C121_scheel_partial, C121_scheel_refuted, C121_second_order, C31_bicgstab_partial, C31_exact_precon_refuted, C31_exhausted_refuted, C32_converges, C32_report, C107_convtest, C107_ingoing, C107_spherical, C107_testwave, C108_conj, C108_eth, C108_ethbar, C108_north, C108_orthonormal, C108_wigner, C108_wigner_PG, C106_gauge_constraints, C106_gauge_default_refuted, C106_gauge_dtrK, C106_gauge_flat, C106_gauge_setting, C106_gauge_slice, C106_linear, C106_linear_node, C106_linear_slice, C67_check, C55_WTiterator, C55_direction, C79_refused, C124_kepler

**CEFN** (151): C115_black_hole, C115_energy, C68_abstanh, C68_arg, C68_arg_first, C68_arg_second, C68_argtanh, C68_tanh, C62_derivative, C62_derivative_inverted, C62_half, C62_monotone, C62_q0_jump, C62_step01_monotone, C101_only_face_points, C88_evolution, C35_T_ends, C35_basis, C35_basis_near_end_refuted, C39_cheb, C86_connection, C86_round_trip, C86_round_trip2, C86_to_bssn, C87_enforce, C87_idempotent, C87_unchanged, C63_polarCE_partial, C63_polarCE_refuted, C63_spherical2, C63_tan_stretch, C63_compactSphericalDF, C63_spherical3, C63_polar, C63_spherical, C63_sphericalDF, C75_angles, C75_angle_derivs, C76_derivatives, C76_stretch, C76_there, C56_fd2_functions, C56_fd2_refuted, C56_fourier_even_refuted, C56_matrices, C112_cartesian, C112_checkerboard_refuted, C111_direction_partial, C111_search_partial, C111_shim_refuted, C111_unique, C100_outer, C100_pairs, C99_functions_agree, C99_same_lines, C99_same_matrices, C99_without_fftw3, C96_again, C96_boxes, C96_equator_axis, C96_rotation, C96_spherical, C96_sphericalDF, C97_constant_partial, C97_constant_refuted, C97_inX, C97_minus1, C97_minus1_rotation, C97_rotation_refuted, C47_finit, C47_finit_double, C81_derivs_partial, C81_derivs_refuted, C81_refused, C81_value, C90_algebraic, C90_connection, C91_lapse, C91_shift, C43_2dIntegral, C43_3dIntegral, C43_Integral1, C43_spec_unique, C43_volume, C43_weights_unique, C57_filter1, C39_grid_values_partial, C126_accepts_partial, C126_every_hole_refuted, C126_near, C42_exact, C42_in_place_refuted, C50_built, C61_abort_refuted, C61_affine, C61_check_refuted, C61_newton, C114_golden, C114_linmin, C114_powell, C114_brent, C109_file, C109_modes, C109_octant_refuted, C109_read, C104_kcount_refuted, C104_negative_kmax_refuted, C104_odeintegrate, C104_rkqs, C104_rkqs_ends, C103_grid_simpson_three_refuted, C124_Y22, C60_min_brak, C60_minbrent, C80_dphi, C80_dtheta_partial, C80_dtheta_refuted, C44_exact_partial, C44_refuted, C44_sphere_partial, C89_constraints, C89_density, C89_gzz_partial, C89_gzz_refuted, C89_step, C107_energy, C107_rho_pos, C110_constant_refuted, C110_empty, C110_errors, C110_idempotent_partial, C110_keeps_partial, C110_legendre, C110_projects_partial, C110_weights, C79_legendre, C79_slowly, C79_table, C79_unique, C79_ylm, C127_exchange, C127_exchange_r, C127_norms, C127_total, C127_unit, C127_cut, C127_cut_order, C127_phase, C127_spinless, C127_kepler, C127_tanh_order

## 6. Behaviour of the code found while modelling

Statements marked with a theorem are proved about the model; the others are observations from reading.

**Sparse matrices and solvers.**
(1) The OpenMP version of the transposed products (LEVEL4) has a race.
(2) The slow SetMatrix routines probe a stale copy of the grid if vlx is not 0 and LEVEL6 is off.
(3) A negative dropbelow writes past the ends of Ai, Ax.
(4) WTsolver and SOR_Iterator lose the initial guess since SetMatrixLines sets vlx to 0.
(5) Duplicates in a sparse vector: the component function returns the first match, products use the sum, SOR the last diagonal entry.
(6) Transposed products do not clear f[j] for j >= nlines.
(7) bicgstab returns itmax+1 when the iterations run out and -11 on convergence in the first half step; early returns leak the temporaries.

**Spectral methods.**
(8) four_eval_alt drops the highest cosine for even N (C37_alt_refuted).
(9) four_basisfunc is wrong for boxes where a is not a multiple of b-a (C39_four_shifted_refuted).
(10) cheb_basisfunc returns +-1 within 1e-10 of the ends; cheb_int reads c[-1] for n=0 and mishandles c[n]; cheb_coeffs_fromExtrema divides by 0 for N=0.
(11) One-sided finite difference closures read outside short lines.
(12) initfiltermatrix: filt > n writes before the array; with filt=0 it relies on calloc.
(13) get_spec_functionpointers never passes on coeffs_of_2ndderiv; the set-up for fd2_* calls a NULL pointer.
(14) spec_sphericalDF2dIntegral drops a mode if N = 1 mod 4 (C44_refuted) and reads indices 1, 2 for N < 3.
(15) spec_Deriv1, spec_Deriv2, spec_Int1 in direction 1 with matrices give wrong results in place (C42_in_place_refuted).
(16) The second-derivative matrix of Fourier on even N annihilates the lone cosine.
(17) spec_allDerivs with FFT exits for every order but 123.
(18) spec_filter3d_inbox with a negative cut writes before the array.
(19) The 2/3-rule filters remove constants if a direction has fewer than 3 points (C97_constant_refuted) and, in Fourier directions, keep a cosine without its sine, so that the result depends on where the grid starts (C97_rotation_refuted); the minus1 version does not (C97_minus1_rotation).
(20) coordinateDependentFilter_Spherical divides 0 by 0 at the centre.

**Root finding, minimisation, linear algebra.**
(21) newton1d_brak can stop far from the root (x^3). (22) rt_brak does not recheck the bracket after the last expansion.
(23) lu_det never returns 0. (24) minbrent_brak reads the uninitialised d, which is declared inside the loop.
(25) newton_linesearch: the treatment of singular matrices never uses row 0 (`if(k>0)`) and uses p[l], fjac[k][l] for p[k]; linesrchP resets x but not f when alam < alamin; TOLX returns its >= 0 with check = 0 although the residual may be large; newton_lnsrch_set_vecs_for_lininterp uses sc uninitialised; the result on too many iterations is -itmax-2; an uphill direction in the singular branch calls abort().

**Runs, files, parameters.**
(26) Getv can miss a word after a longer word that ends in it (C03_getv_refuted). (27) --keep_previous: a second restart removes the newer output (C22_keep_refuted).
(28) evolve() adds u_p only at iteration 0. (29) After a NaN, NumberChecker_ExitIfNAN lets the output of that iteration carry the number limit+1 (C94_stop), and the message "til" reads outside a smaller box (C94_safe_refuted). (30) ParManipulator_ds_min is that of the last box (C95_ds_min_refuted).

**Coordinates.**
(31) Att_0to1 with q=0 jumps; Attenuation01 with p=0 divides by 0. (32) PolarCE: first derivatives take cos, sin of Y instead of phi (C63_polarCE_refuted).
(33) compactSphericalDF and tan_stretch cache parameters in statics. (34) cart_partial_all refuses coordinates without second derivatives.
(35) dXdx_from_dxdX returns adj/1e-30 for singular matrices (C67_singular). (36) Arg_plus has range [0,2PI), not (-PI,PI].
(37) CubedSphere: dsigma is 0 if idSurfdX is unset even when iSurf is set; comments in ThetaPhi_of_AB give a wrong formula; lamAB_of_xyz_CubSph at the centre is 0/0 and passes the range tests.
(38) nearest* leave results unset if there are no points; XYZ_of_xyz accepts a Newton result without checking the residual.
(39) SphHarm_sin_theta_dtheta_forRealFunc drops degree lmax+1 and reads beyond degree lmax (C80, C81 refuted). (40) FSurf: global lmax is shadowed; at A=B=0 derivatives use B=1e-10 also in domains 0-3; set_YlmTabs divides by 0 at m=l.
(41) convert_1box_to_cube reads grid->box[b0] before checking nboxes.

**Relativity.**
(42) ADMconstraints with TermByTerm treats the non-symmetric RB, codelKB, codelKC as symmetric (C85_normalised_refuted); codelKB and codelKC are the same formulas. (43) rho is read when S11 has storage even if rho is NULL.
(44) SingleBHKS with ConformalFactor is wrong for spin. (45) BSSN_rhs recomputegzz: g33 = 1 + ../.. instead of (1 + ..)/.. (C89_gzz_refuted).
(46) BSSN_rhs writes K and dK of ucur in place (forceKzerofactor) after betadK was computed. (47) Filter type "simple" filters BSSNvars instead of its argument. (48) densitizedLapse with dt = 0 always exits.
(49) set_boundary_constant and simpleExcision ignore c: with Runge-Kutta the values grow by 1+dt per step (C92_constant_refuted, C92_excision_growth). (50) radiative_analytic dereferences NULL if first called at a time other than 0.

**Fast transforms.**
(51) is_power_of_two(1) is 1: with NUMREC_FFT and threshold <= 1 a Fourier or ChebZeros direction of one point uses the numrec functions, which leave the array (C98_one_point_refuted); a ChebExtrema direction of two points gets a c[0] twice too large (C98_two_extrema_refuted). (52) reinit_FFTW3_plans frees the table of plans and not the plans. (53) zbrac_P in NumericUtils_shims.c has no return statement.

**Faces between boxes, Poisson examples.**
(54) set_touching_bfaces_of_boxes_with_same_facepoints compares npoints[b] where npoints[b0+b] is meant: with b0 > 0 faces with different numbers of points can be paired (C100_offset_refuted). (55) A face whose points are a subset of a larger face's points is paired with it; the other points of the larger face are then in no list (C100_subset_refuted). (56) The squared distance is compared with the tolerance, so the effective tolerance is its square root. (57) FPsi_1Dinterp_for_bface exits for every face (C101_two_common_coordinates). (58) forPointList_inbox reads the first point before it tests the number of points. (59) The argument setnormalderiv of set_interbox_BC_onface is stored in one bit, so an even positive value switches the flag off. (60) J_Poisson3 lacks the factor Chi in the derivative of Chi*Chi*Psizz (C102_poisson3_refuted). (61) Poisson3_BCs.c exchanges py and pz; harmless as the outer conditions depend on r only.

**Integration.**
(62) rombintegral returns the variable ss without ever having set it when max is less than 5 (C103_romberg_few). (63) integrate_simpson_1Dgrid uses the trapezoidal sum for three points, although Simpson's rule needs no more than three (C103_grid_simpson_three_refuted). (64) integrate_simpson_old_1Dgrid reads f[i1+2] and f[i1+3] when it is called with two points (C103_grid_simpson_old_refuted).

**Ordinary differential equations.**
(65) odeintegrate and odeintegrateP do not set *kcount when they return status -1 or -2, although points have been recorded (C104_kcount_refuted; odeintegrate_HR sets it). (66) odeintegrate tests if(kmax) where kmax > 0 is meant: with kmax < 0 the end point is written outside of xp and yp (C104_negative_kmax_refuted). (67) With status -1 or -2 the returned x is the point reached but ystart still has the initial values, so the values at x are lost. (68) odeintegrate_HR never frees max_absy.

**Black hole in Kerr-Schild coordinates.**
(69) With SingleBH_ConformalFactor the derivatives of psi are those of 1 + 2M/r with dr = x/r, which is wrong for a spinning hole where r is the Kerr radius; the numbers set are then not the derivatives of psi (C105_psi_spin_refuted). (70) The parameters BHsx1, BHsy1, BHsz1 are used as spin per mass, without division by BHmass1. (71) On the disc |x| <= |a|, a.x = 0 the Kerr radius is 0 and the code divides by it without a test. (72) The inverse metric is computed and not used.
(73) TestID_1dGaugeWave.c:20 and TestID_1dLinearWave.c:20 take the wavelength from each box, so with several boxes of different length the data jump from box to box; the theorems C106 are about one box.
(74) The default of TestID_amplitude is 1: the gauge wave is then degenerate where the sine is -1, and K11 divides by zero (C106_gauge_default_refuted).  TestID_RandomNoise ignores TestID_amplitude: A is 1 in the function (TestID_RandomNoise.c:16).
(75) ScalarWave_startup divides by r (ScalarWave.c:219), so a grid point at the origin gets an undefined value; ConvTest.c:35-36 and 102 too.  ConvTest.c:102 takes the coordinate X as the radius, so its exact solution is one only in spherical coordinates.  The comment "is this correct???" at ScalarWave.c:279 is answered by C107_energy: yes.
(76) testwave_analyze (testwave.c:213) computes a number that it throws away, and compares with exp(-t), which is not the solution set up.  testwave.c:37 stores mixed derivatives in variables called u22, u33; they are multiplied by zero.
(77) ModeComputer_read_spheredata fills the octant's missing quarter from n3/2-k (ModeComputer.c:217).  With nphi = n3/4, which the comment above the loop suggests, the value at phi = pi/2 is taken from itself, so it is whatever the array held before (C109_octant_refuted); nphi must be larger than n3/4.  The aliasing bound 2(lmax+L) < n2 is not checked by the code, the commented-out lmax=(n2-1)/2 would violate it.  Wigner_d_function_PG exchanges its bounds if they are in the wrong order, so for l < |s| it would sum over undefined factorials; it is not used.
(78) s2kit_primitive.c:49-51 defines PI as 3.14159265358979 because math.h has only M_PI, so the points at which the Legendre tables are evaluated differ from those of makeweights (M_PI) in the 15th digit; s2kit_pmls.c:102 has 0.707106781186547 for 1/sqrt(2).  The filter is therefore a projection only up to 1e-14, and loses amplitude (C110_constant_refuted).  The bound 2 lmax < n3 is not checked (YlmFilter.c): with fewer points in phi the m up to n3/2 are used and the highest one is treated like the others.
(79) NumericUtils_shims.c:61-66: zbrac_P is declared int but has no return statement, and box_extremum_of_F_in_dir uses its value (find_extrema.c:215-216).  Without NumericUtils every call of that function is therefore undefined (C111_shim_refuted).  If the derivative does not change its sign between the ends, zbrac_P widens the bracket beyond the box, where cheb_basisfunc takes acos of a number outside [-1,1].  A negative status of zbrac_P returns without freeing c (find_extrema.c:216).  box_extremum_of_F throws away *check of the search, so a status >= 0 does not tell a zero of the gradient from a point where the line search could not go on.  The gradient is multiplied by the distance to the box outside of it, so it is discontinuous there and vanishes as the box is approached from outside.
(80) addDissipation takes the Laplacian as a first derivative of a first derivative.  In a Fourier direction with an even number of points the first derivative of the highest cosine is zero on the grid, so exactly the shortest wave, which dissipation should remove, is not damped (C112_checkerboard_refuted).  The function uses variables of ADMvars as work space: ScalarWave (ScalarWave.c:66-67) with evolve_Dissipation = yes and without ADMvars stops in Ind().
(81) evolve makes u_p and u_q only if grid->iteration is 0 (evolve.c:84), and evolve_rk makes the u_k only in its first call (rk.c:246-251), as many as the method then has stages.  A first call in a later iteration, or a later change of evolution_method_rk to a method with more stages, passes null lists to the right-hand side (C113_late_refuted, C113_switch_refuted).  rk.c:241 overwrites the number of stages in the table of rk4.  rk.c:239: the error message prints the suffix "_r" instead of the name of the method.
(82) golden compares the length of the interval with tol*(|x1|+|x2|) (golden.c:24), so for a minimum at zero it never ends in exact arithmetic (C114_golden_refuted); with doubles it ends only when the values underflow.  mnbrak has no limit on the number of passes and does not end on a function without a minimum (C114_mnbrak_refuted); with doubles it runs to infinity.  linmin and powell inherit this.  brent declares d without a value and reads it in e=d (brent.c:35), but only after it was set (C114_brent).  powell writes xi[j][ibig] with ibig starting at 0, outside of the matrix, but only if ftol is negative can it get there with 0 (C114_powell).
(83) ADMenergy_spheric_intergrand.c:311-314,373 multiplies the flux by the determinant of the metric where the ADM surface integral has its square root.  The difference vanishes only at infinity: for a black hole of mass M the routine gives M(1+M/2r)^7 on the sphere of radius r (C115_energy, C115_finite_radius), with the square root it would be M(1+M/2r).  ADMvars.c:105-114: one box that is not of type SphericalDF stops the program, after the integrand was computed in all boxes.
(84) rtsafe_itsP (NumericUtils): xacc bounds the last step, not the distance from the root. For x^3 on [-1,2], guess 1, xacc 1/2, it returns 2/3 after one iteration (C118_accuracy_refuted).
(85) ScalarOnKerr_evolve (ScalarOnKerr.c:742-788): second order in space sets psixy_s, psixz_s, psiyz_s but not psixy, psixz, psiyx, psiyz, psizx, psizy, which psidotx, psidoty and psidotz read.  With ScalarOnKerr_Pi_def = ScheelsPi the rate of Pi depends on them (C121_scheel_refuted); with the default psidot they are multiplied by zero, which still gives NaN if the memory holds an infinity or NaN.  ScalarOnKerr.c:728: psiz = cphix, which is dead code because ScalarOnKerr_evolve is not registered for first order in space.
(86) set_psi_Pi_phi_boundary (ScalarOnKerr.c:2569-2570) reads betax[i]*cphix[i]+..., where i is n1-1, instead of the values at ijk: on the whole outer boundary the rate of psi uses the shift and phi of one point (C123_psi_refuted).
(87) set_psi_Pi_phi_boundary and set_psi_Pi_phi_boundary_CP (ScalarOnKerr.c:2609-2651, 2784-2825) take nPi and nphi for rates also when dt is not zero, where they are new values; icn calls the right hand side like that (icn.c:27,52).  Then the new Pi at the boundary is not the previous one plus dt times the rate (C123_step_refuted).
(88) KerrChecker (ScalarOnKerr.c:178, 202-434) is called at every start, fixes M = 1 and no spin, and ends the run on a difference above 1e-13: with any other BHmass or spin the program stops although the tables are right (C126_every_hole_refuted).
