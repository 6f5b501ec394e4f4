(** Model of the equations in src/physics/ScalarOnKerr/ScalarOnKerr.c at one point: ScalarOnKerr_evolve_1stO (first order in space) and ScalarOnKerr_evolve (second order in space).
    Simplified: exact reals; the derivatives, the source and the metric tables at the point are given; filters, boundary conditions and the loops over boxes and points are left out.
    ScalarOnKerr_evolve is registered only if ScalarOnKerr_1stOrder_inSpace is not yes (ScalarOnKerr.c:64-69), so only its branch for firstorder = 0 is modelled.
    Components are numbered x=0, y=1, z=2 and xx=0, xy=1, xz=2, yy=3, yz=4, zz=5; the derivative of the i-th component in direction j is number 3*i+j. *)
From Verif Require Import Rutil.
Local Open Scope R_scope.
(** the 3+1 tables at a point (ScalarOnKerr.c:2349-2380) *)
Record slice := Slice { w_alpha : R; w_beta : nat -> R; w_gup : nat -> R; w_TrK : R; w_G : nat -> R; w_dalpha : nat -> R; w_dbeta : nat -> R }.
(** the fields at a point: Pi, its derivatives, the derivatives of psi, phi and its derivatives (ScalarOnKerr.c:2331-2347, 2387-2413) *)
Record field1 := Field1 { w_Pi : R; w_dPi : nat -> R; w_dpsi : nat -> R; w_phi : nat -> R; w_dphi : nat -> R }.
Section FIRST.
Variables (s : slice) (f : field1) (rho : R).
Definition beta_dPi : R := w_beta s 0 * w_dPi f 0 + w_beta s 1 * w_dPi f 1 + w_beta s 2 * w_dPi f 2. (* ScalarOnKerr.c:2422 *)
Definition ag_dphi : R := w_alpha s * (w_gup s 0 * w_dphi f 0 + w_gup s 3 * w_dphi f 4 + w_gup s 5 * w_dphi f 8 + w_gup s 1 * (w_dphi f 1 + w_dphi f 3) + w_gup s 2 * (w_dphi f 2 + w_dphi f 6) + w_gup s 4 * (w_dphi f 5 + w_dphi f 7)). (* ScalarOnKerr.c:2423-2427 *)
Definition aG_phi : R := w_alpha s * (w_G s 0 * w_phi f 0 + w_G s 1 * w_phi f 1 + w_G s 2 * w_phi f 2). (* ScalarOnKerr.c:2428-2429 *)
Definition g_phi_da : R := w_gup s 0 * w_phi f 0 * w_dalpha s 0 + w_gup s 3 * w_phi f 1 * w_dalpha s 1 + w_gup s 5 * w_phi f 2 * w_dalpha s 2 + w_gup s 1 * (w_phi f 0 * w_dalpha s 1 + w_phi f 1 * w_dalpha s 0) + w_gup s 2 * (w_phi f 0 * w_dalpha s 2 + w_phi f 2 * w_dalpha s 0) + w_gup s 4 * (w_phi f 1 * w_dalpha s 2 + w_phi f 2 * w_dalpha s 1). (* ScalarOnKerr.c:2431-2436 *)
Definition aKPi : R := w_alpha s * w_TrK s * w_Pi f. (* ScalarOnKerr.c:2438 *)
Definition beta_dpsi : R := w_beta s 0 * w_dpsi f 0 + w_beta s 1 * w_dpsi f 1 + w_beta s 2 * w_dpsi f 2. (* ScalarOnKerr.c:2441 *)
Definition b_dphi (i : nat) : R := w_beta s 0 * w_dphi f (3 * i) + w_beta s 1 * w_dphi f (3 * i + 1) + w_beta s 2 * w_dphi f (3 * i + 2). (* ScalarOnKerr.c:2444-2446 *)
Definition phi_db (i : nat) : R := w_phi f 0 * w_dbeta s i + w_phi f 1 * w_dbeta s (3 + i) + w_phi f 2 * w_dbeta s (6 + i). (* ScalarOnKerr.c:2447-2449 *)
Definition r1_Pi : R := beta_dPi - ag_dphi + aG_phi - g_phi_da + aKPi + w_alpha s * rho. (* ScalarOnKerr.c:2452-2453 *)
Definition r1_psi : R := beta_dpsi - w_alpha s * w_Pi f. (* ScalarOnKerr.c:2454 *)
Definition r1_phi (i : nat) : R := b_dphi i + phi_db i - w_alpha s * w_dPi f i - w_Pi f * w_dalpha s i. (* ScalarOnKerr.c:2455-2457 *)
End FIRST.
(** the new value from the previous value and the right hand side (ScalarOnKerr.c:2460-2475, 814-835) *)
Definition r_new (dt pre rhs : R) : R := if Req_EM_T dt 0 then rhs else pre + dt * rhs.
(** the space-time tables gup and G at a point, in the order tt, tx, ty, tz, xx, ..., zz and t, x, y, z (ScalarOnKerr.c:635-650) *)
Record metric4 := Metric4 { w_gup4 : nat -> R; w_G4 : nat -> R }.
(** the fields for second order in space; w_dd has xx, xy, xz, yy, yz, zz (ScalarOnKerr.c:614-625) *)
Record field2 := Field2 { w_Pi2 : R; w_dPi2 : nat -> R; w_d : nat -> R; w_dd : nat -> R }.
Section SECOND.
(** un are the values of psixy, psixz, psiyx, psiyz, psizx, psizy, which nothing sets for firstorder = 0 (ScalarOnKerr.c:720, 742-752) *)
Variables (ScheelsPi : bool) (s : slice) (m : metric4) (f : field2) (rho : R) (un : nat -> R).
Definition q_A : R := if ScheelsPi then w_alpha s else - 1. (* ScalarOnKerr.c:757, 776 *)
Definition q_dA (i : nat) : R := if ScheelsPi then w_dalpha s i else 0. (* ScalarOnKerr.c:758-760, 777 *)
Definition q_B (i : nat) : R := if ScheelsPi then w_beta s i else 0. (* ScalarOnKerr.c:761-763, 777 *)
Definition q_dB (i : nat) : R := if ScheelsPi then w_dbeta s i else 0. (* ScalarOnKerr.c:764-772, 778 *)
Definition psidot : R := q_B 0 * w_d f 0 + q_B 1 * w_d f 1 + q_B 2 * w_d f 2 - q_A * w_Pi2 f. (* ScalarOnKerr.c:782 *)
Definition psidotx : R := q_B 0 * w_dd f 0 + q_B 1 * un 2%nat + q_B 2 * un 4%nat - q_A * w_dPi2 f 0 - w_Pi2 f * q_dA 0 + q_dB 0 * w_d f 0 + q_dB 3 * w_d f 1 + q_dB 6 * w_d f 2. (* ScalarOnKerr.c:783-784 *)
Definition psidoty : R := q_B 0 * un 0%nat + q_B 1 * w_dd f 3 + q_B 2 * un 5%nat - q_A * w_dPi2 f 1 - w_Pi2 f * q_dA 1 + q_dB 1 * w_d f 0 + q_dB 4 * w_d f 1 + q_dB 7 * w_d f 2. (* ScalarOnKerr.c:785-786 *)
Definition psidotz : R := q_B 0 * un 1%nat + q_B 1 * un 3%nat + q_B 2 * w_dd f 5 - q_A * w_dPi2 f 2 - w_Pi2 f * q_dA 2 + q_dB 2 * w_d f 0 + q_dB 5 * w_d f 1 + q_dB 8 * w_d f 2. (* ScalarOnKerr.c:787-788 *)
Definition g_ddpsi : R := 2 * (w_gup4 m 1 * psidotx + w_gup4 m 2 * psidoty + w_gup4 m 3 * psidotz) + w_gup4 m 4 * w_dd f 0 + w_gup4 m 7 * w_dd f 3 + w_gup4 m 9 * w_dd f 5 + 2 * (w_gup4 m 5 * w_dd f 1 + w_gup4 m 6 * w_dd f 2 + w_gup4 m 8 * w_dd f 4). (* ScalarOnKerr.c:792-794 *)
Definition gG_dpsi : R := w_G4 m 0 * psidot + w_G4 m 1 * w_d f 0 + w_G4 m 2 * w_d f 1 + w_G4 m 3 * w_d f 2. (* ScalarOnKerr.c:797 *)
Definition psidotdot : R := - (g_ddpsi - gG_dpsi - rho) / w_gup4 m 0. (* ScalarOnKerr.c:803 *)
Definition r2_Pi : R := - psidotdot / q_A + (q_B 0 * psidotx + q_B 1 * psidoty + q_B 2 * psidotz) / q_A. (* ScalarOnKerr.c:808 *)
Definition r2_psi : R := q_B 0 * w_d f 0 + q_B 1 * w_d f 1 + q_B 2 * w_d f 2 - q_A * w_Pi2 f. (* ScalarOnKerr.c:809 *)
End SECOND.
