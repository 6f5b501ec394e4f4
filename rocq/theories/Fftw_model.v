(** Model of the FFTW3 transforms of src/utility/Spectral/FFTs_for_sgrid.c:523-622, of the choice of the transform
    (src/utility/Spectral/spec_coeffs.c:600-742), and of the use of the chosen functions (spec_coeffs.c:190-363, one line; grid.c:208-224).
    The FFTW3 library itself is not modelled: fftw_execute_* are given by the sums that the FFTW3 manual documents for
    FFTW_FORWARD r2c, c2r, REDFT00, REDFT10 and REDFT01 with plans that keep their input (no FFTW_DESTROY_INPUT).
    double is R.  Arrays are lists; reading or writing outside of an array is UB.  Arrays passed to one call do not overlap. *)
From Verif Require Import Rutil Loops Sparse_model Rsum Mat_model Cheb_model Four_model Fd_model Dir_model Fft_model.
Local Open Scope R_scope.

(** an fftw call that reads the n numbers x and writes the n numbers f 0, ..., f (n-1) into out *)
Definition fftw_run (n : nat) (x : list R) (f : nat -> R) (out : list R) : res (list R) :=
  if ((n <=? List.length x) && (n <=? List.length out))%nat then Ok (map f (seq 0 n) ++ skipn n out) else UB.
(** fftw_execute_dft_r2c: Y_k = sum_j u_j exp(-2 pi i j k / N) for k = 0..N/2, as array of real and imaginary parts *)
Definition fftw_r2c (u : list R) (N : nat) : list R :=
  map (fun i => if Nat.even i then Sig N (fun j => nth (j) u 0 * cos (2 * PI * INR j * INR (i / 2) / INR N))
                else - Sig N (fun j => nth (j) u 0 * sin (2 * PI * INR j * INR (i / 2) / INR N))) (seq 0 (2 * (N / 2 + 1))).
(** fftw_execute_dft_c2r: u_j = sum over all k = 0..N-1 of Y_k exp(2 pi i j k / N) with Y_(N-k) the conjugate of Y_k; only the entries
    k = 0..N/2 are read, and the imaginary parts of Y_0 and (N even) Y_(N/2) do not count *)
Definition fftw_c2r (co : list R) (N j : nat) : R :=
  nth (0) co 0 + Sig ((N - 1) / 2) (fun i => 2 * (nth (2 * (i + 1)) co 0 * cos (2 * PI * INR j * INR (i + 1) / INR N) - nth (2 * (i + 1) + 1) co 0 * sin (2 * PI * INR j * INR (i + 1) / INR N)))
  + (if Nat.even N then nth (N) co 0 * cos (PI * INR j) else 0).
(** fftw_execute_r2r with REDFT00 for n+1 numbers, REDFT10 and REDFT01 for n numbers *)
Definition fftw_redft00 (x : list R) (n k : nat) : R := nth (0) x 0 + (-1) ^ k * nth (n) x 0 + 2 * Sig (n - 1) (fun j => nth (j + 1) x 0 * cos (PI * INR (j + 1) * INR k / INR n)).
Definition fftw_redft10 (x : list R) (n k : nat) : R := 2 * Sig n (fun j => nth (j) x 0 * cos (PI * (INR j + / 2) * INR k / INR n)).
Definition fftw_redft01 (x : list R) (n k : nat) : R := nth (0) x 0 + 2 * Sig (n - 1) (fun j => nth (j + 1) x 0 * cos (PI * INR (j + 1) * (INR k + / 2) / INR n)).

(** FFTs_for_sgrid.c:526-542 four_coeffs_FFTW3; s alternates, +1 for j=2 *)
Definition four_coeffs_FFTW3 (c u : list R) (n : nat) : res (list R) :=
  let N := (n + 1)%nat in
  do co <- (if (N <=? List.length u)%nat then Ok (fftw_r2c u N) else UB);
  do s <- for_nat 2 (N + 1) (fun j s => let '(c, s) := s in do x <- rd co j; do c <- wr c (j - 1) (s * x); Ok (c, - s)) (c, 1);
  do x <- rd co 0; wr (fst s) 0 x.
(** FFTs_for_sgrid.c:545-564 four_eval_FFTW3; the memory from fftw_malloc holds the arbitrary numbers junk *)
Definition four_eval_FFTW3 (junk c u : list R) (n : nat) : res (list R) :=
  let N := (n + 1)%nat in
  let ooN := 1 / INR N in
  let Nc := (N / 2 + 1)%nat in
  do co <- wr junk (Nc * 2 - 1) 0;
  do s <- for_nat 2 (N + 1) (fun j s => let '(co, s) := s in do x <- rd c (j - 1); do co <- wr co j (s * x * ooN); Ok (co, - s)) (co, 1);
  do co <- wr (fst s) 1 0;
  do x <- rd c 0;
  do co <- wr co 0 (x * ooN);
  if (N <=? List.length u)%nat then Ok (map (fftw_c2r co N) (seq 0 N) ++ skipn N u) else UB.
(** FFTs_for_sgrid.c:568-579 cheb_coeffs_fromZeros_FFTW3 *)
Definition cheb_coeffs_fromZeros_FFTW3 (c u : list R) (n : nat) : res (list R) :=
  let N := (n + 1)%nat in
  let ooN := 1 / INR N in
  do c <- fftw_run N u (fftw_redft10 u N) c;
  for_nat 0 N (fun j c => do x <- rd c j; wr c j (x * ooN)) c.
(** FFTs_for_sgrid.c:582-593 cheb_coeffs_fromExtrema_FFTW3 *)
Definition cheb_coeffs_fromExtrema_FFTW3 (c u : list R) (N : nat) : res (list R) :=
  let ooN := 1 / INR N in
  do c <- fftw_run (N + 1) u (fftw_redft00 u N) c;
  do x <- rd c N; do c <- wr c N (x * 0.5);
  for_nat 0 (N + 1) (fun j c => do x <- rd c j; wr c j (x * ooN)) c.
(** FFTs_for_sgrid.c:596-606 cheb_eval_onZeros_FFTW3 *)
Definition cheb_eval_onZeros_FFTW3 (c u : list R) (n : nat) : res (list R) :=
  let N := (n + 1)%nat in
  do u <- fftw_run N c (fftw_redft01 c N) u;
  for_nat 0 N (fun j u => do x <- rd u j; wr u j (x * 0.5)) u.
(** FFTs_for_sgrid.c:609-622 cheb_eval_onExtrema_FFTW3; c is changed and restored, result (c, u) *)
Definition cheb_eval_onExtrema_FFTW3 (c u : list R) (N : nat) : res (list R * list R) :=
  do c_N <- rd c N;
  do c <- wr c N (c_N * 2);
  do u <- fftw_run (N + 1) c (fftw_redft00 c N) u;
  do c <- wr c N c_N;
  do u <- for_nat 0 (N + 1) (fun j u => do x <- rd u j; wr u j (x * 0.5)) u;
  Ok (c, u).

(** sgrid_Spectral.h:8-14 *)
Inductive ttype := MATRIX_MULTIPLICATION | NUMREC_FFT | FFTW3_FFT.
(** spec_coeffs.c:601-632 set_TransformType_flags_inbox for one direction with nb points: numrec and fftw3 say that the value of
    box<b>_TransformType<dir> contains the word NUMREC_FFT or FFTW3, thr is Geti of that value; the basis is one word *)
Definition set_TransformType (numrec fftw3 : bool) (thr : Z) (bs : basis) (nb : nat) : ttype :=
  if (numrec && (thr <=? Z.of_nat nb)%Z && (0 <=? thr)%Z &&
      match bs with ChebExtrema => is_power_of_two (nb - 1) | ChebZeros | Fourier => is_power_of_two nb | _ => false end) then NUMREC_FFT
  else if (fftw3 && (thr <=? Z.of_nat nb)%Z && (0 <=? thr)%Z && match bs with ChebExtrema | ChebZeros | Fourier => true | _ => false end) then FFTW3_FFT
  else MATRIX_MULTIPLICATION.
(** spec_coeffs.c:636-742 get_spec_functionpointers_from_pars for any transform type; have says that the program is compiled with
    -DFFTW3, else the FFTW3 functions stop the program (FFTs_for_sgrid.c:625-646) *)
Definition funs_for (have : bool) (junk : list R) (tt : ttype) (bs : basis) (a b : R) : funs :=
  let f := funs_from_pars bs a b in
  let w g := if have then g else fun _ _ _ => Err in
  match tt, bs with
  | NUMREC_FFT, ChebExtrema => {| f_coeffs := cheb_coeffs_fromExtrema_numrecFFT; f_deriv := f_deriv f; f_2nd := f_2nd f; f_int := f_int f;
                                  f_eval := cheb_eval_onExtrema_numrecFFT; f_filter := f_filter f; f_basis := f_basis f |}
  | NUMREC_FFT, Fourier => {| f_coeffs := four_coeffs_numrecFFT; f_deriv := f_deriv f; f_2nd := f_2nd f; f_int := Some (four_int_numrecFFT a b);
                              f_eval := four_eval_numrecFFT; f_filter := f_filter f; f_basis := f_basis f |}
  | NUMREC_FFT, ChebZeros => {| f_coeffs := cheb_coeffs_fromZeros_numrecFFT; f_deriv := f_deriv f; f_2nd := f_2nd f; f_int := f_int f;
                                f_eval := cheb_eval_onZeros_numrecFFT; f_filter := f_filter f; f_basis := f_basis f |}
  | FFTW3_FFT, ChebExtrema => {| f_coeffs := w cheb_coeffs_fromExtrema_FFTW3; f_deriv := f_deriv f; f_2nd := f_2nd f; f_int := f_int f;
                                 f_eval := w (fun c u N => do r <- cheb_eval_onExtrema_FFTW3 c u N; Ok (snd r)); f_filter := f_filter f; f_basis := f_basis f |}
  | FFTW3_FFT, Fourier => {| f_coeffs := w four_coeffs_FFTW3; f_deriv := f_deriv f; f_2nd := f_2nd f; f_int := f_int f;
                             f_eval := w (four_eval_FFTW3 junk); f_filter := f_filter f; f_basis := f_basis f |}
  | FFTW3_FFT, ChebZeros => {| f_coeffs := w cheb_coeffs_fromZeros_FFTW3; f_deriv := f_deriv f; f_2nd := f_2nd f; f_int := f_int f;
                               f_eval := w cheb_eval_onZeros_FFTW3; f_filter := f_filter f; f_basis := f_basis f |}
  | _, _ => f
  end.
(** grid.c:185-224: as setup_dir (Dir_model.v) with the functions of the transform type *)
Definition setup_dir_for (f0 : funs) (n : nat) (filt : Z) : res dirbox :=
  let f := through_box f0 in
  let z := repeat 0 (n * n) in
  do DDD <- initdiffmatrix z z n (f_coeffs f) (f_deriv f) (f_eval f);
  let '(D, DD) := DDD in
  do F <- initfiltermatrix z (Z.of_nat n + 1 - filt) n (f_coeffs f) (f_filter f) (f_eval f);
  do DD <- match f_2nd f with Some g => initdiffmatrix2 DD n (f_coeffs f) g (f_eval f) | None => Ok DD end;
  do Mc <- initMatrix_ForCoeffs z n (f_coeffs f);
  do Me <- initMatrix_ToEvaluate z n (f_eval f);
  do In <- initIntegrationMatrix z n (f_coeffs f) (callp (f_int f)) (f_eval f);
  Ok {| m_D := D; m_DD := DD; m_F := F; m_coeffs := Mc; m_eval := Me; m_Int := In |}.
(** spec_coeffs.c:190-274 spec_analysis1 and 278-363 spec_synthesis1 on one line of the box: with a transform type other than 0 the
    functions are called, else the matrices are used *)
Definition analysis_line (tt : ttype) (f : funs) (m : dirbox) (uline cline : list R) (n : nat) : res (list R) :=
  match tt with MATRIX_MULTIPLICATION => matrix_times_vector (m_coeffs m) uline cline n | _ => f_coeffs f cline uline (n - 1)%nat end.
Definition synthesis_line (tt : ttype) (f : funs) (m : dirbox) (cline uline : list R) (n : nat) : res (list R) :=
  match tt with MATRIX_MULTIPLICATION => matrix_times_vector (m_eval m) cline uline n | _ => f_eval f cline uline (n - 1)%nat end.
