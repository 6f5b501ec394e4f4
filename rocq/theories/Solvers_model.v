(** Model of the linear and nonlinear iterative solvers of src/utility/GridIterators: bicgstab.c, SOR.c,
    WTsolver.c and Newton.c, and of the norms of utility.c.

    The data of a variable list on the grid are one list of real numbers, in the order variable, box,
    point of the loops "for j, forallboxes, forallpoints" (this is the order of
    copy_vl_into_array_outervlloop, see Flatten_model.v).  Doubles are real numbers.  A division by zero
    gives inf or NaN in C; here it ends the function with Err.  Messages are not modelled, memory never
    runs out, there is at least one point (GridL2Norm divides by the number of points). *)
From Verif Require Import Base Loops Rutil Sparse_model.
Local Open Scope R_scope.

(** forallpoints: out[i] = f(a[i], b[i]) *)
Definition zip (f : R -> R -> R) (a b : list R) : list R := map (fun p => f (fst p) (snd p)) (combine a b).
(** the same with three inputs *)
Definition zip3 (f : R -> R -> R -> R) (a b c : list R) : list R :=
  map (fun p => f (fst (fst p)) (snd (fst p)) (snd p)) (combine (combine a b) c).

(** utility.c:9-25 *)
Definition GridDotProduct (u v : list R) : R := fold_left (fun sum p => sum + fst p * snd p) (combine u v) 0.
(** utility.c:29-44.  n counts the points of all boxes and variables. *)
Definition GridL2Norm (u : list R) : R := sqrt (fold_left (fun sum ui => sum + ui * ui) u 0 / INR (List.length u)).
(** Spectral/matrices.c:82-88 *)
Definition scalarproduct_vectors (v w : list R) : R := fold_left (fun sum p => sum + fst p * snd p) (combine v w) 0.

(** a/b *)
Definition fdiv (a b : R) : res R := if Req_EM_T b 0 then Err else Ok (a / b).

(** *** bicgstab.c *)
Section Bicgstab.
(** lop(out, in, c1, c2) computes its result from in (and from c1, c2, which do not change);
    precon(out, in, c1, c2) may use the previous content of out as its initial guess
    (SOR_Preconditioner_from_SOR_Aline does).  Neither changes any other list. *)
Variables (lop : list R -> list R) (precon : list R -> list R -> list R).
Definition rhotol : R := / 10 ^ 50.
Definition omegatol : R := / 10 ^ 50.

(** the variable lists and local variables of bicgstab that live from one iteration to the next *)
Record bstate : Type := mkb {
  bx : list R; br : list R; bp : list R; bph : list R; bsh : list R; bv : list R;
  balpha : R; brho : R; brho1 : R; bomega : R; bnormres : R }.

(** bicgstab.c:63-146: the loop from iteration ii on, with fuel = itmax - ii; the result is the value of
    ii and the state after the loop *)
Fixpoint bicgstab_loop (rt : list R) (tol : R) (fuel : nat) (ii : Z) (s : bstate) : res (Z * bstate) :=
  match fuel with
  | O => Ok (ii, s)
  | S fuel' =>
      let rho := GridDotProduct rt (br s) in
      if Rlt_dec (Rabs rho) rhotol
      then Ok (ii, mkb (bx s) (br s) (bp s) (bph s) (bsh s) (bv s) (balpha s) rho (brho1 s) (bomega s) (bnormres s))
      else
      do p <- (if Z.eqb ii 0 then Ok (br s)
               else do q1 <- fdiv rho (brho1 s); do q2 <- fdiv (balpha s) (bomega s);
                    let beta := q1 * q2 in
                    Ok (zip3 (fun r p v => r + beta * (p - bomega s * v)) (br s) (bp s) (bv s)));
      let ph := precon (bph s) p in
      let v := lop ph in
      do alpha <- fdiv rho (GridDotProduct rt v);
      let sv := zip (fun r v => r - alpha * v) (br s) v in
      let normres := GridL2Norm sv in
      if Rle_dec normres tol
      then Ok (ii, mkb (zip (fun x ph => x + alpha * ph) (bx s) ph) (br s) p ph (bsh s) v alpha rho (brho1 s) (bomega s) normres)
      else
      let sh := precon (bsh s) sv in
      let t := lop sh in
      do omega <- fdiv (GridDotProduct t sv) (GridDotProduct t t);
      let x' := zip3 (fun x ph sh => x + (alpha * ph + omega * sh)) (bx s) ph sh in
      let r' := zip (fun s t => s - omega * t) sv t in
      let normres := GridL2Norm r' in
      if Rle_dec normres tol
      then Ok (ii, mkb x' r' p ph sh v alpha rho (brho1 s) omega normres)
      else
      let s' := mkb x' r' p ph sh v alpha rho rho omega normres in
      if Rlt_dec (Rabs omega) omegatol then Ok (ii, s')
      else bicgstab_loop rt tol fuel' (ii + 1) s'
  end.

(** bicgstab.c:13-166.  Returns (return value, x, r, *normres).  The temporary lists are new and zero
    (AddDuplicateEnable). *)
Definition bicgstab (x b : list R) (itmax : Z) (tol : R) : res (Z * list R * list R * R) :=
  let r := zip (fun b r => b - r) b (lop x) in
  let rt := r in
  let normres := GridL2Norm r in
  if Rle_dec normres tol then Ok (0%Z, x, r, normres)
  else
    let z := repeat 0 (List.length x) in
    do q <- bicgstab_loop rt tol (Z.to_nat itmax) 0 (mkb x r z z z z 0 0 1 0 normres);
    let '(ii, s) := q in
    let ret := if Z.ltb itmax ii then (-1)%Z
               else if Rlt_dec (Rabs (brho s)) rhotol then (-10)%Z
               else if Rlt_dec (Rabs (bomega s)) omegatol then (-11)%Z
               else (ii + 1)%Z in
    Ok (ret, bx s, br s, bnormres s).
End Bicgstab.

(** *** SOR.c *)

(** SOR.c:26-36: sig and Aii of line i *)
Definition SOR_line (line : list (nat * R)) (i : nat) (x : list R) : res (R * R) :=
  forl line (fun e s => let '(sig, Aii) := s in
    if Nat.eqb (fst e) i then Ok (sig, snd e)
    else do xj <- rd x (fst e); Ok (sig + snd e * xj, Aii)) (0, 0).
(** SOR.c:14-42 *)
Definition SOR_step (Aline : list (list (nat * R))) (x b : list R) (omega : R) : res (list R) :=
  for_nat 0 (List.length Aline) (fun i x =>
    do line <- rd Aline i;
    do s <- SOR_line line i x;
    let '(sig, Aii) := s in
    if Req_EM_T Aii 0 then Err
    else do xi <- rd x i; do bi <- rd b i; wr x i ((1 - omega) * xi + omega / Aii * (bi - sig))) x.

(** SOR.c:58-59 and 76-77, WTsolver.c:102-103 and 134-135: f = A x - b; f[] is overwritten *)
Definition residual (Aline : list (list (nat * R))) (x b f : list R) : res (list R) :=
  do f1 <- SparseMatrixLines_times_vector 0 Rplus Rmult Aline x f;
  for_nat 0 (List.length Aline) (fun i f => do fi <- rd f i; do bi <- rd b i; wr f i (fi - bi)) f1.

(** SOR.c:70-85 with fuel = itmax - it + 1.  Returns (it, x, *normres). *)
Fixpoint SOR_loop (Aline : list (list (nat * R))) (b : list R) (omega tol : R) (fuel : nat) (it : Z) (x f : list R) (normres : R)
  : res (Z * list R * R) :=
  match fuel with
  | O => Ok (it, x, normres)
  | S fuel' =>
      do x' <- SOR_step Aline x b omega;
      do f' <- residual Aline x' b f;
      let normres' := sqrt (scalarproduct_vectors f' f') in
      if Rle_dec normres' tol then Ok (it, x', normres')
      else SOR_loop Aline b omega tol fuel' (it + 1) x' f' normres'
  end.
(** SOR.c:45-89.  Returns (return value, x, *normres). *)
Definition matrix_SOR (Aline : list (list (nat * R))) (x b : list R) (omega : R) (itmax : Z) (tol : R) : res (Z * list R * R) :=
  do f <- residual Aline x b (repeat 0 (List.length Aline));
  let normres := sqrt (scalarproduct_vectors f f) in
  if Rle_dec normres tol then Ok (0%Z, x, normres)
  else SOR_loop Aline b omega tol (Z.to_nat itmax) 1 x f normres.

(** *** Newton.c *)
Section Newton.
(** Everything else in memory: coefficients, derivatives, parameters, the state of the random number
    generator, ... *)
Variable E : Type.
(** u, F(u), du, and the rest *)
Record world : Type := mkw { vlu : list R; vlFu : list R; vldu : list R; env : E }.
(** F(u): sets vlFu; may also set boundary values of u, derivatives, ... *)
Variable Fu : world -> world.
(** J(du) into vlres, with vlres part of env *)
Variable Jdu : world -> world.
(** a linear solver: is given the tolerance, returns its return value *)
Notation solver := (R -> world -> world * Z).
(** get_linSolver_by_name of the words of GridIterators_Newton_linSolvers, in order (Newton.c:369-437);
    unknown names stop the program before and are not modelled *)
Variable alts : list solver.
(** hooks Newton_do_before_linSolver (receives lambda, may replace the linear solver) and
    Newton_do_after_step (Newton.c:25-33); the identity if they are NULL *)
Variable before_lin : R -> solver -> world -> solver * world.
Variable after_step : world -> world.
(** mnbrak and brent (NumericUtils): some search that evaluates Newton_residual_of_lambda a number of
    times, and returns lmin *)
Variable search : (R -> world -> world * R) -> world -> world * R.
(** do_random_Newton_step (Newton.c:228-251) for given uav*eps: random numbers come from env *)
Variable random_step : R -> world -> world.
(** the parameters that Newton reads *)
Record newton_pars : Type := mkp {
  minstep : R; escapeMin : bool; quit_ : bool; AltLinSolver : bool; randomstepsize : R;
  backtrack : bool; optimal : bool; EndOfStep_Jdu : bool }.
Variable P : newton_pars.

(** vlsetconstant(vldu, 0.0) *)
Definition set_du0 (w : world) : world := mkw (vlu w) (vlFu w) (map (fun _ => 0) (vldu w)) (env w).
(** Newton.c:209-224 *)
Definition do_partial_Newton_step (lambda : R) (w : world) : world :=
  mkw (zip (fun u du => u - lambda * du) (vlu w) (vldu w)) (vlFu w) (vldu w) (env w).
(** Newton.c:255-265; vltemp is the saved list *)
Definition Newton_residual_of_lambda (vltemp : list R) (lambda : R) (w : world) : world * R :=
  let w1 := Fu (do_partial_Newton_step lambda (mkw vltemp (vlFu w) (vldu w) (env w))) in (w1, GridL2Norm (vlFu w1)).
(** Newton.c:268-366 *)
Definition do_Newton_step (oldres : R) (w : world) : world * R :=
  let w1 := do_partial_Newton_step 1 w in
  let '(w2, lambda) :=
    if backtrack P then
      let w1 := Fu w1 in
      let resc := GridL2Norm (vlFu w1) in
      if orb (if Rle_dec oldres resc then true else false) (optimal P) then
        let vltemp := vlu w1 in
        let '(w2, lmin) := search (Newton_residual_of_lambda vltemp) w1 in
        (do_partial_Newton_step lmin (mkw vltemp (vlFu w2) (vldu w2) (env w2)), lmin)
      else (w1, 0)
    else (w1, 0) in
  let w3 := set_du0 w2 in
  (if EndOfStep_Jdu P then Jdu w3 else w3, lambda).

(** Newton.c:107-175: the do-while loop.  rest are the linear solvers at and after linSolverPos.
    Returns (world, lambda, quit requested). *)
Fixpoint solve_step (lintol res : R) (linSolver1 : solver) (rest : list solver) (quit : bool) (w : world) {struct rest} : world * R * bool :=
  let '(w1, lin_its) := linSolver1 lintol w in
  let '(w2, lambda) :=
    if Z.leb 0 lin_its then do_Newton_step res w1
    else let w2 := set_du0 w1 in (if EndOfStep_Jdu P then Jdu w2 else w2, -1) in
  if Rlt_dec (Rabs (lambda + 1)) (minstep P) then
    let w3 := if escapeMin P then random_step (GridL2Norm (vlu w2) * randomstepsize P) w2 else w2 in
    let quit' := orb quit (quit_ P) in
    match rest with
    | l :: rest' => if AltLinSolver P then solve_step lintol res l rest' quit' w3 else (w3, lambda, quit')
    | [] => (w3, lambda, quit')
    end
  else (w2, lambda, quit).

(** Newton.c:79-200 with fuel = itmax - inewton.  Returns (return value, *normres, world). *)
Fixpoint Newton_loop (itmax : Z) (tol tolFac lintol : R) (fuel : nat) (inewton : Z) (linSolver : solver) (lambda : R) (w : world)
  : Z * R * world :=
  match fuel with
  | O => (* Newton.c:190-200 *)
      let w1 := Fu w in (inewton, GridL2Norm (vlFu w1), w1)
  | S fuel' =>
      let w1 := Fu w in
      let res := GridL2Norm (vlFu w1) in
      if Rle_dec res tol then (inewton, res, w1)
      else
        let '(linSolver', w2) := before_lin lambda linSolver w1 in
        let '(w3, lambda', quit) := solve_step (Rmax (res * tolFac) lintol) res linSolver' alts false w2 in
        let w4 := after_step w3 in
        if quit then let w5 := Fu w4 in ((itmax + 1)%Z, GridL2Norm (vlFu w5), w5)
        else Newton_loop itmax tol tolFac lintol fuel' (inewton + 1) linSolver' lambda' w4
  end.
(** Newton.c:51-203 *)
Definition Newton (itmax : Z) (tol tolFac lintol : R) (linSolver : solver) (w : world) : Z * R * world :=
  Newton_loop itmax tol tolFac lintol (Z.to_nat itmax) 0 linSolver 0 w.
End Newton.

(** *** WTsolver.c *)

(** WTsolver.c:127-145: the do-while loop, with fuel for the number of trials.  In exact arithmetic
    sfac > 0 holds forever, so the loop only ends with a break; running out of fuel is Err.
    Returns (x, newres). *)
Fixpoint WT_search (Aline : list (list (nat * R))) (b dx : list R) (normres : R) (fuel : nat) (sfac : R) (x f : list R) : res (list R * R) :=
  match fuel with
  | O => Err
  | S fuel' =>
      let x1 := zip (fun x dx => x + sfac * dx) x dx in
      do f1 <- residual Aline x1 b f;
      let newres := sqrt (scalarproduct_vectors f1 f1 / INR (List.length Aline)) in
      if Rle_dec newres normres then Ok (x1, newres)
      else
        let x2 := zip (fun x dx => x - sfac * dx) x1 dx in
        WT_search Aline b dx normres fuel' (sfac * (1 / 10)) x2 f1
  end.
(** WTsolver.c:117-123: the direction dx *)
Definition WT_direction (Aline : list (list (nat * R))) (x b mm f : list R) (normres : R) : res (list R) :=
  do mm1 <- SparseMatrixLines_times_vector 0 Rplus Rmult Aline x mm;
  do f1 <- SparseMatrixLinesTranspose_times_vector 0 Rplus Rmult Aline mm1 f;
  do mm2 <- SparseMatrixLinesTranspose_times_vector 0 Rplus Rmult Aline b mm1;
  let dx := zip (fun f m => - f + m) f1 mm2 in
  let mag_dx := sqrt (scalarproduct_vectors dx dx) in
  Ok (if Req_EM_T mag_dx 0 then dx else map (fun d => normres * d / mag_dx) dx).
(** WTsolver.c:112-157 with fuel = itmax - it + 1; k bounds the number of trials per step *)
Fixpoint WT_loop (Aline : list (list (nat * R))) (b : list R) (tol : R) (k : nat) (fuel : nat) (it : Z) (x f mm : list R) (normres : R)
  : res (Z * list R * R) :=
  match fuel with
  | O => Ok (it, x, normres)
  | S fuel' =>
      do dx <- WT_direction Aline x b mm f normres;
      do q <- WT_search Aline b dx normres k 1 x f;
      let '(x', newres) := q in
      if Rle_dec newres tol then Ok (it, x', newres)
      else WT_loop Aline b tol k fuel' (it + 1) x' f mm newres
  end.
(** WTsolver.c:64-163 *)
Definition WTiterator (Aline : list (list (nat * R))) (x b : list R) (itmax : Z) (tol : R) (k : nat) : res (Z * list R * R) :=
  let z := repeat 0 (List.length Aline) in
  do f <- residual Aline x b z;
  let normres := sqrt (scalarproduct_vectors f f / INR (List.length Aline)) in
  if Rle_dec normres tol then Ok (0%Z, x, normres)
  else WT_loop Aline b tol k (Z.to_nat itmax) 1 x f z normres.
