(** Model of the source of the scalar field in src/physics/ScalarOnKerr/ScalarOnKerr.c: the test source of ScalarOnKerr_Source (437-470), ScalarOnKerr_init_rho0_four3modes (490-523) and ScalarOnKerr_rho_from_rho0_four3modes (525-586).
    Simplified: exact reals, the literal PI is pi; one line of points in direction 3, which is Fourier in these boxes, so that spec_analysis1 and spec_synthesis1 are four_coeffs and four_eval on the line (Four_model.v, and Lines_model.v for the loop over lines); the sources of DV_CircSchwSource are left out.
    The loop over k runs in parallel, but every pass writes crho only at its own k and reads crho0 only, so the order does not matter. *)
From Verif Require Import Rutil Loops Sparse_model Four_model Angle_model.
Local Open Scope R_scope.
Definition s_r0 (M : R) : R := 10 * M. (* ScalarOnKerr.c:453, 530 *)
Definition s_Omega (M : R) : R := sqrt (M / (s_r0 M * s_r0 M * s_r0 M)). (* ScalarOnKerr.c:458, 531 *)
Definition s_q22 (M : R) : R := 4 * PI * 1 / (s_r0 M * sqrt (1 - 3 * M / s_r0 M)) * sqrt (5 / (96 * PI)) * 3. (* ScalarOnKerr.c:455-457 *)
(** ScalarOnKerr_Source with sourcetype 1 (ScalarOnKerr.c:465-473); Dr is M *)
Definition Y22_source (M t x y z : R) : R :=
  let r := sqrt (x * x + y * y + z * z) in
  let theta := 0.5 * PI - asin (z / r) in
  let phi := Arg x y in
  let Y22 := sqrt (5 / (96 * PI)) * 1.5 * (1 - cos (2 * theta)) in
  - (s_q22 M / s_r0 M) * (exp (- (r - s_r0 M) * (r - s_r0 M) / (M * M)) / (sqrt PI * M)) * cos (2 * (s_Omega M * t - phi)) * Y22.
(** the loop over the modes (ScalarOnKerr.c:541-583) for n3 points and the angle Omega_t *)
Definition rotate_modes (crho0 crho : list R) (n3 : nat) (Omega_t : R) : res (list R) :=
  let N3 := ((n3 - 1) / 2)%nat in let km := (2 * N3)%nat in
  for_nat 0 n3 (fun k crho =>
    let m := ((k + 1) / 2)%nat in
    let c := cos (INR m * Omega_t) in let s := sin (INR m * Omega_t) in
    if (k =? 0)%nat then do x <- rd crho0 k; wr crho k x
    else if (k <=? km)%nat then
      if (k mod 2 =? 1)%nat then do x <- rd crho0 k; do y <- rd crho0 (k + 1); wr crho k (x * c - y * s)
      else do x <- rd crho0 (k - 1); do y <- rd crho0 k; wr crho k (x * s + y * c)
    else do x <- rd crho0 k; wr crho k (x * c)) crho.
(** the source at time t from the source rho0 at time 0 (ScalarOnKerr.c:514-521 and 525-586); the lists are the lines of rho0, rho0_four3modes, rho_four3modes and rho *)
Definition rho_at (M t : R) (rho0 crho0 crho rho : list R) (n3 : nat) : res (list R) :=
  do crho0 <- four_coeffs crho0 rho0 (n3 - 1);
  do crho <- rotate_modes crho0 crho n3 (s_Omega M * t);
  four_eval crho rho (n3 - 1).
