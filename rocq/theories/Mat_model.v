(** Model of src/utility/Spectral/matrices.c, diffmatrices.c, spec_coeffs.c:20-78 and 865-968, filters.c:9-53, and the part of
    src/main/MemoryMan/grid.c that builds the matrices of a box.  double is R; n x n matrices are row-major lists.
    Function pointers are functions; those that write an output array take its old contents and return the new ones. *)
From Verif Require Import Rutil Loops Sparse_model.
Local Open Scope R_scope.

(** matrices.c:36-49 matrix_times_vector (the version without CBLAS) on the sub-arrays u+bu and Mu+bM, as called with pointers
    into the box.  [alias] says that u and Mu are the same array: then u is read from the array being written. *)
Definition mtv_at (alias : bool) (M u : list R) (bu : nat) (Mu : list R) (bM n : nat) : res (list R) :=
  for_nat 0 n (fun i Mu =>
    do sum <- for_nat 0 n (fun j s => do m <- rd M (n * i + j); do x <- rd (if alias then Mu else u) (bu + j); Ok (s + m * x)) 0;
    wr Mu (bM + i) sum) Mu.
Definition matrix_times_vector (M u Mu : list R) (n : nat) : res (list R) := mtv_at false M u 0 Mu 0 n.

(** matrices.c:53-65 matrix_times_matrix *)
Definition matrix_times_matrix (M D MD : list R) (n : nat) : res (list R) :=
  for_nat 0 n (fun i MD => for_nat 0 n (fun k MD =>
    do sum <- for_nat 0 n (fun j s => do m <- rd M (n * i + j); do d <- rd D (n * j + k); Ok (s + m * d)) 0;
    wr MD (n * i + k) sum) MD) MD.
(** matrices.c:68-79 vector_times_matrix *)
Definition vector_times_matrix (u M uM : list R) (n : nat) : res (list R) :=
  for_nat 0 n (fun j uM =>
    do sum <- for_nat 0 n (fun i s => do x <- rd u i; do m <- rd M (n * i + j); Ok (s + x * m)) 0;
    wr uM j sum) uM.
(** matrices.c:82-88 scalarproduct_vectors *)
Definition scalarproduct_vectors (v w : list R) (n : nat) : res R :=
  for_nat 0 n (fun i s => do x <- rd v i; do y <- rd w i; Ok (s + x * y)) 0.

(** types of the function pointers in tBox: get_coeffs(c,u,n) writes c; eval_onPoints(c,u,n) writes u;
    coeffs_of_deriv(aux,a,b,c,cder,n) with aux, a and b already supplied writes cder; filter_coeffs(c,k,n) changes c *)
Definition coefF := list R -> list R -> nat -> res (list R).

(** copying array c into column j: the loops for(i=0; i<n1; i++) D[n1*i + j] = c[i] *)
Definition put_column (D c : list R) (n1 j : nat) : res (list R) :=
  for_nat 0 n1 (fun i D => do x <- rd c i; wr D (n1 * i + j) x) D.

(** diffmatrices.c:10-60 initdiffmatrix.  n1 >= 1 (n1-1 is a natural).  State: u, c, d, D, DD; calloc gives zeros. *)
Definition initdiffmatrix (D DD : list R) (n1 : nat) (get_coeffs coeffs_of_deriv eval_onPoints : coefF) : res (list R * list R) :=
  let z := repeat 0 n1 in
  do s <- for_nat 0 n1 (fun j s => let '(u, c, d, D, DD) := s in
    do u <- wr u j 1;
    do c <- get_coeffs c u (n1 - 1)%nat;
    do d <- coeffs_of_deriv c d (n1 - 1)%nat;
    do c <- eval_onPoints d c (n1 - 1)%nat;
    do D <- put_column D c n1 j;
    do c <- coeffs_of_deriv d c (n1 - 1)%nat;
    do d <- eval_onPoints c d (n1 - 1)%nat;
    do DD <- put_column DD d n1 j;
    do u <- wr u j 0;
    Ok (u, c, d, D, DD)) (z, z, z, D, DD);
  let '(_, _, _, D, DD) := s in Ok (D, DD).

(** diffmatrices.c:64-100 initdiffmatrix2 and 276-312 initIntegrationMatrix, which have the same body: coeffs_of_2ndderiv or
    coeffs_of_int is the function pointer in the middle *)
Definition initdiffmatrix2 (DD : list R) (n1 : nat) (get_coeffs coeffs_of_2ndderiv eval_onPoints : coefF) : res (list R) :=
  let z := repeat 0 n1 in
  do s <- for_nat 0 n1 (fun j s => let '(u, c, d, DD) := s in
    do u <- wr u j 1;
    do c <- get_coeffs c u (n1 - 1)%nat;
    do d <- coeffs_of_2ndderiv c d (n1 - 1)%nat;
    do c <- eval_onPoints d c (n1 - 1)%nat;
    do DD <- put_column DD c n1 j;
    do u <- wr u j 0;
    Ok (u, c, d, DD)) (z, z, z, DD);
  let '(_, _, _, DD) := s in Ok DD.
Definition initIntegrationMatrix := initdiffmatrix2.

(** spec_coeffs.c:21-48 initMatrix_ForCoeffs *)
Definition initMatrix_ForCoeffs (M : list R) (n1 : nat) (get_coeffs : coefF) : res (list R) :=
  let z := repeat 0 n1 in
  do s <- for_nat 0 n1 (fun j s => let '(u, c, M) := s in
    do u <- wr u j 1; do c <- get_coeffs c u (n1 - 1)%nat; do M <- put_column M c n1 j; do u <- wr u j 0; Ok (u, c, M)) (z, z, M);
  let '(_, _, M) := s in Ok M.
(** spec_coeffs.c:51-78 initMatrix_ToEvaluate *)
Definition initMatrix_ToEvaluate (M : list R) (n1 : nat) (eval_onPoints : coefF) : res (list R) :=
  let z := repeat 0 n1 in
  do s <- for_nat 0 n1 (fun j s => let '(u, c, M) := s in
    do c <- wr c j 1; do u <- eval_onPoints c u (n1 - 1)%nat; do M <- put_column M u n1 j; do c <- wr c j 0; Ok (u, c, M)) (z, z, M);
  let '(_, _, M) := s in Ok M.

(** filters.c:10-53 initfiltermatrix; k is an int.  filter_coeffs(c,k-1,n1-1) with k < 1 starts before the array: UB if it writes
    anything there; it is modelled as UB. *)
Definition initfiltermatrix (F : list R) (k : Z) (n1 : nat) (get_coeffs : coefF) (filter_coeffs : list R -> nat -> nat -> res (list R)) (eval_onPoints : coefF) : res (list R) :=
  let z := repeat 0 n1 in
  if (k <=? Z.of_nat n1)%Z then
    do s <- for_nat 0 n1 (fun j s => let '(u, c, uf, F) := s in
      do u <- wr u j 1;
      do c <- get_coeffs c u (n1 - 1)%nat;
      do c <- (if (k <? 1)%Z then UB else filter_coeffs c (Z.to_nat (k - 1)) (n1 - 1)%nat);
      do uf <- eval_onPoints c uf (n1 - 1)%nat;
      do F <- put_column F uf n1 j;
      do u <- wr u j 0;
      Ok (u, c, uf, F)) (z, z, z, F);
    let '(_, _, _, F) := s in Ok F
  else for_nat 0 n1 (fun i F => wr F (n1 * i + i) 1) F.

(** spec_coeffs.c:894-926 spec_Basis_times_CoeffMatrix and 929-968 spec_Basis_times_CoeffMatrix_direc:
    M is the matrix for the coefficients, basis(i) the value of basis function i at X *)
Definition basis_times_coeffmatrix (M : list R) (n : nat) (basis : nat -> R) (BM : list R) : res (list R) :=
  do B <- for_nat 0 n (fun i B => wr B i (basis i)) (repeat 0 n);
  vector_times_matrix B M BM n.
Definition spec_Basis_times_CoeffMatrix (n : nat) (BM : list R) (get_coeffs : coefF) (basis : nat -> R) : res (list R) :=
  do M <- initMatrix_ForCoeffs (repeat 0 (n * n)) n get_coeffs;
  basis_times_coeffmatrix M n basis BM.
