(** Model of the integral over spheres covered twice in theta (double Fourier), src/utility/Spectral/integrals.c:337-412. *)
From Verif Require Import Rutil Loops Sparse_model Mat_model Dir_model Lines_model.
Local Open Scope R_scope.

(** integrals.c:376-402: the sum over all theta-integrated terms, for one line; U is read at Index(i,j,k) = at_ j.
    Int expressions 1-n*n, n*n-1 and 1-N*N/4 are computed on nat here with the sign outside (n >= 2, N >= 4). *)
Definition theta_sum (U : list R) (at_ : nat -> nat) (N : nat) (L : R) : res R :=
  let d := 1.0 / (2.0 * INR (1 + N mod 2) * INR N) in
  let PI2 := 2.0 * PI in
  do u0 <- rd U (at_ 0%nat); let sum := 1.0 / PI * u0 in
  do u1 <- rd U (at_ 1%nat); do u2 <- rd U (at_ 2%nat);
  let sum := sum + 0.5 * (sin (PI2 * d) * u1 + cos (PI2 * d) * u2) in
  do sum <- for_nat 0 ((N / 2 - 1) / 2) (fun h sum => let n := (2 + 2 * h)%nat in
    do Re_c_n <- rd U (at_ (2 * n - 1)%nat); do Im_c_n <- rd U (at_ (2 * n)%nat);
    Ok (sum + 2.0 * (cos (PI2 * INR n * d) / (- INR (n * n - 1) * PI) * Re_c_n + sin (PI2 * INR n * d) / (INR (n * n - 1) * PI) * Im_c_n))) sum;
  do sum <- (if (N mod 4 =? 0)%nat then do x <- rd U (at_ (N - 1)%nat); Ok (sum + cos (PI2 * INR (N / 2) * d) / (- INR (N * N / 4 - 1) * PI) * x) else Ok sum);
  Ok (sum * (L / INR N)).
(** integrals.c:337-412 spec_sphericalDF2dIntegral; pX holds the coordinate X = r at all points; alias says whether U is u *)
Definition spec_sphericalDF2dIntegral (b : sbox) (sc : dir -> sched) (kind : dir -> ikind) (pX : list R) (alias : bool) (u U : list R) : res (list R) :=
  do U <- spec_Integral1 b (sc X3) (kind X3) X3 alias u U;
  do U <- spec_analysis1 b (sc X2) X2 true U U;
  match kind X2 with
  | fourmeth => for_nat 0 (nn b X3) (fun k U => for_nat 0 (nn b X1) (fun i U =>
      do sum <- theta_sum U (fun j => Ix b i j k) (nn b X2) (b_hi (bd b X2) - b_lo (bd b X2));
      for_nat 0 (nn b X2) (fun j U => do x <- rd pX (Ix b i j k); wr U (Ix b i j k) (sum * x * x)) U) U) U
  | _ => Err
  end.
