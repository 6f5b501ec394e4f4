(** Model of src/physics/ScalarWave/ScalarWave.c, src/physics/testwave/testwave.c and src/physics/ConvTest/ConvTest.c: the right hand sides, initial data, error and energy at one point, and the loops that set faces of a box to zero.
    Partial derivatives are inputs.  Doubles are real numbers.  Not modelled: dissipation, filters, set_boundary and reset_doubleCoveredPoints, which are called afterwards (ScalarWave.c:65-75), and testwave_filter, ConvTest_filter; testwave_analyze computes a number that is not used (testwave.c:213). *)
From Verif Require Import Rutil.
From Coq Require Import List Arith.
Import ListNotations.
Local Open Scope R_scope.
(** the right hand sides (psi, psidot), ScalarWave.c:48-50; pxx, pyy, pzz are the second derivatives of psi *)
Definition sw_rhs (nonlin cpsi cpsidot pxx pyy pzz : R) : R * R :=
  (cpsidot, pxx + pyy + pzz - nonlin * cpsi * cpsi * cpsi / (1 + cpsi * cpsi)).
(** a step from the values pre with time step dt, ScalarWave.c:52-61, testwave.c:45-58, ConvTest.c:38-41 *)
Definition rhs_step (pre dt r : R) : R := if Req_EM_T dt 0 then r else pre + dt * r.
Definition sw_evolve (nonlin ppsi ppsidot dt cpsi cpsidot pxx pyy pzz : R) : R * R :=
  let r := sw_rhs nonlin cpsi cpsidot pxx pyy pzz in (rhs_step ppsi dt (fst r), rhs_step ppsidot dt (snd r)).
(** the energy density, ScalarWave.c:279-281 *)
Definition sw_rho (nonlin psi psidot px py pz : R) : R :=
  5 / 10 * (psidot * psidot + px * px + py * py + pz * pz) + nonlin * (psi * psi - ln (1 + psi * psi)) * (5 / 10).
(** initial data (psi, psidot) at a point, ScalarWave.c:203-220 *)
Definition sw_init (spherical : bool) (A sigma r0 sx sy sz x0 y0 z0 x y z : R) : R * R :=
  let r := sqrt (x * x + y * y + z * z) in
  let f := if spherical then A * exp (- (r - r0) * (r - r0) / (2 * sigma * sigma))
           else A * exp (- (5 / 10) * ((x - x0) * (x - x0) / (sx * sx) + (y - y0) * (y - y0) / (sy * sy) + (z - z0) * (z - z0) / (sz * sz))) in
  let df := if spherical then (-1 / (sigma * sigma)) * (r - r0) * f
            else - f * ((x - x0) * (x / r) / (sx * sx) + (y - y0) * (y / r) / (sy * sy) + (z - z0) * (z / r) / (sz * sz)) in
  (f / r, df / r).
(** testwave_evo, testwave.c:41-43, right hand sides (u, k); u11 is the derivative in x of the derivative in x, u22 and u33 those in y and z of the derivative in x (36-37) *)
Definition tw_rhs (ucur kcur u11 u22 u33 : R) : R * R := (kcur, u11 + 0 * u22 + 0 * u33 - 0 * ucur * ucur * ucur / (1 + ucur * ucur)).
(** testwave_startup, testwave.c:146-163: (u, k) *)
Definition tw_init (px py pz : R) : R * R :=
  let x := px - 2 / 10 in let y := py in let z := pz in
  let f := exp (-10 * (x * x + y * y + z * z)) in (f, - (-2 * 10 * x * f)).
(** ConvTest_evo, ConvTest.c:35-36 *)
Definition ct_rhs (x y z u1 u2 u3 : R) : R := let r := sqrt (x * x + y * y + z * z) in (u1 * x + u2 * y + u3 * z) / r.
(** ConvTest_startup, ConvTest.c:96-104, and ConvTest_analyze, 137-143: the function at a point with coordinate X and time t *)
Definition ct_f (time X x y z : R) : R :=
  let rs := sqrt (x * x + y * y + z * z) + time in exp (-10 * (rs * rs - 2 * (12 / 10) * rs * x / X + 12 / 10 * (12 / 10))).
(** the error, ConvTest.c:146 *)
Definition ct_err (time X x y z u : R) : R := u - ct_f time X x y z.
(** ** faces *)
(** Index(i,j,k), sgrid_main.h:16 *)
Definition Ix (n1 n2 i j k : nat) : nat := (i + n1 * (j + n2 * k))%nat.
Definition upd (u : nat -> R) (p : nat) (v : R) : nat -> R := fun q => if Nat.eqb q p then v else u q.
(** the two loops over a face that assign v at the points that P gives *)
Definition loop2 (m l : nat) (P : nat -> nat -> list nat) (u : nat -> R) : nat -> R :=
  fold_left (fun u k => fold_left (fun u j => fold_left (fun u p => upd u p 0) (P j k) u) (seq 0 l) u) (seq 0 m) u.
(** ScalarWave.c:223-228, testwave.c:186-191; the loops of testwave.c:67-73 *)
Definition zero_1 (n1 n2 n3 : nat) : (nat -> R) -> nat -> R := loop2 n3 n2 (fun j k => [Ix n1 n2 (n1 - 1) j k; Ix n1 n2 0 j k]).
(** testwave.c:75-80 *)
Definition zero_2 (n1 n2 n3 : nat) : (nat -> R) -> nat -> R := loop2 n3 n1 (fun i k => [Ix n1 n2 i (n2 - 1) k; Ix n1 n2 i 0 k]).
(** testwave.c:82-87 *)
Definition zero_3 (n1 n2 n3 : nat) : (nat -> R) -> nat -> R := loop2 n2 n1 (fun i j => [Ix n1 n2 i j (n3 - 1); Ix n1 n2 i j 0]).
(** all faces, testwave.c:67-87 *)
Definition zero_all (n1 n2 n3 : nat) (u : nat -> R) : nat -> R := zero_3 n1 n2 n3 (zero_2 n1 n2 n3 (zero_1 n1 n2 n3 u)).
(** ConvTest.c:50-52, 108-110 *)
Definition zero_out (n1 n2 n3 : nat) : (nat -> R) -> nat -> R := loop2 n3 n2 (fun j k => [Ix n1 n2 (n1 - 1) j k]).
