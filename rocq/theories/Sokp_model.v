(** Model of the outer boundary condition of the scalar field in second order form, src/physics/ScalarOnKerr/ScalarOnKerr.c: set_psi_Pi_boundary (864-957) at one point.
    set_psi_Pi_boundary_New (961-1054), which nothing calls, is the same formula with psi in place of Pi.
    Simplified: exact reals; the derivatives of Pi and the metric tables at the point are given; the loop is over the outermost plane of the last box only (870-871, 917). *)
From Verif Require Import Rutil Sokr_model.
Local Open Scope R_scope.
Section P.
Variables (m : metric4) (x : nat -> R) (Pi : R) (dPi : nat -> R).
Definition p_r : R := sqrt (x 0%nat * x 0%nat + x 1%nat * x 1%nat + x 2%nat * x 2%nat). (* ScalarOnKerr.c:929 *)
Definition p_n (i : nat) : R := x i / p_r. (* ScalarOnKerr.c:930-932 *)
Definition p_alpha2 : R := - 1 / w_gup4 m 0. (* ScalarOnKerr.c:933 *)
Definition p_betan : R := p_alpha2 * (w_gup4 m 1 * p_n 0 + w_gup4 m 2 * p_n 1 + w_gup4 m 3 * p_n 2). (* ScalarOnKerr.c:934 *)
Definition p_gnn : R := w_gup4 m 4 * p_n 0 * p_n 0 + w_gup4 m 7 * p_n 1 * p_n 1 + w_gup4 m 9 * p_n 2 * p_n 2 + 2 * (w_gup4 m 5 * p_n 0 * p_n 1 + w_gup4 m 6 * p_n 0 * p_n 2 + w_gup4 m 8 * p_n 1 * p_n 2). (* ScalarOnKerr.c:935-936 *)
Definition p_Gn : R := w_G4 m 1 * p_n 0 + w_G4 m 2 * p_n 1 + w_G4 m 3 * p_n 2. (* ScalarOnKerr.c:937 *)
Definition p_gdn : R := (w_gup4 m 4 + w_gup4 m 7 + w_gup4 m 9 - p_gnn) / p_r. (* ScalarOnKerr.c:940 *)
Definition p_lambdap : R := p_betan + sqrt (p_betan * p_betan + p_alpha2 * p_gnn). (* ScalarOnKerr.c:941 *)
Definition p_ap : R := p_lambdap / (p_alpha2 * p_gnn). (* ScalarOnKerr.c:942 *)
Definition p_bp : R := 1. (* ScalarOnKerr.c:943 *)
Definition p_cp : R := 0.5 * (p_gdn - p_Gn) / p_gnn. (* ScalarOnKerr.c:944 *)
Definition p_dnPi : R := p_n 0 * dPi 0%nat + p_n 1 * dPi 1%nat + p_n 2 * dPi 2%nat. (* ScalarOnKerr.c:945 *)
Definition p_rPi : R := - (p_bp * p_dnPi + p_cp * Pi) / p_ap. (* ScalarOnKerr.c:948 *)
(** the new value (ScalarOnKerr.c:950-954) *)
Definition p_new (dt pre : R) : R := r_new dt pre p_rPi.
End P.
