(** Model of src/physics/SingleBH/SingleBHKS.c: initial data for a single spinning black hole in Kerr-Schild coordinates, at one point (x1, x2, x3).
    Every variable of the loop body (113-586) is one definition with the expression of the code and its lines.  Power(x,n) is pow with a constant whole exponent (8) and pow2(x) is x*x (10): both are x ^ n here.  The variables that the code computes but does not use (gup, detgup) are modelled too.
    cf is the parameter SingleBH_ConformalFactor (25), M is BHmass1 and (Sx, Sy, Sz) are BHsx1, BHsy1, BHsz1 (21-24).  Doubles are real numbers; a division by zero gives an unspecified number. *)
From Verif Require Import Rutil.
From Coq Require Import List.
Import ListNotations.
Local Open Scope R_scope.
Section KS.
Variables (cf : bool) (M Sx Sy Sz x1 x2 x3 : R).
Definition ks_rho : R := sqrt(x1 ^ 2 + x2 ^ 2 + x3 ^ 2). (* SingleBHKS.c:115-118 *)
Definition ks_aS1 : R := Sx. (* SingleBHKS.c:120-123 *)
Definition ks_aS2 : R := Sy. (* SingleBHKS.c:125-128 *)
Definition ks_aS3 : R := Sz. (* SingleBHKS.c:130-133 *)
Definition ks_adotx : R := ks_aS1 * x1 + ks_aS2 * x2 + ks_aS3 * x3. (* SingleBHKS.c:135-138 *)
Definition ks_a2 : R := ks_aS1 ^ 2 + ks_aS2 ^ 2 + ks_aS3 ^ 2. (* SingleBHKS.c:140-143 *)
Definition ks_Omega : R := sqrt(ks_rho ^ 4 + ks_a2 ^ 2 + 4 * ks_adotx ^ 2 - 2 * ks_a2 * ks_rho ^ 2). (* SingleBHKS.c:145-148 *)
Definition ks_r : R := sqrt((1 / 2) * (-ks_a2 + ks_Omega + ks_rho ^ 2)). (* SingleBHKS.c:150-153 *)
Definition ks_dr1 : R := ((ks_adotx * ks_aS1 - (1 / 2) * ks_a2 * x1) / ks_Omega + (1 / 2) * (x1 + (x1 * ks_rho ^ 2) / ks_Omega)) / ks_r. (* SingleBHKS.c:155-159 *)
Definition ks_dr2 : R := ((ks_adotx * ks_aS2 - (1 / 2) * ks_a2 * x2) / ks_Omega + (1 / 2) * (x2 + (x2 * ks_rho ^ 2) / ks_Omega)) / ks_r. (* SingleBHKS.c:161-165 *)
Definition ks_dr3 : R := ((ks_adotx * ks_aS3 - (1 / 2) * ks_a2 * x3) / ks_Omega + (1 / 2) * (x3 + (x3 * ks_rho ^ 2) / ks_Omega)) / ks_r. (* SingleBHKS.c:167-171 *)
Definition ks_acrossx1 : R := -(ks_aS3 * x2) + ks_aS2 * x3. (* SingleBHKS.c:173-176 *)
Definition ks_acrossx2 : R := ks_aS3 * x1 - ks_aS1 * x3. (* SingleBHKS.c:178-181 *)
Definition ks_acrossx3 : R := -(ks_aS2 * x1) + ks_aS1 * x2. (* SingleBHKS.c:183-186 *)
Definition ks_ahat12 : R := -ks_aS3. (* SingleBHKS.c:188-191 *)
Definition ks_ahat13 : R := ks_aS2. (* SingleBHKS.c:193-196 *)
Definition ks_ahat23 : R := -ks_aS1. (* SingleBHKS.c:198-201 *)
Definition ks_H : R := (M * ks_r ^ 3) / (ks_r ^ 4 + ks_adotx ^ 2). (* SingleBHKS.c:203-206 *)
Definition ks_dH1 : R := (ks_H * (-2 * ks_adotx * ks_aS1 * ks_r + ks_dr1 * (-ks_r ^ 4 + 3 * ks_adotx ^ 2))) / (ks_r ^ 5 + ks_r * ks_adotx ^ 2). (* SingleBHKS.c:208-212 *)
Definition ks_dH2 : R := (ks_H * (-2 * ks_adotx * ks_aS2 * ks_r + ks_dr2 * (-ks_r ^ 4 + 3 * ks_adotx ^ 2))) / (ks_r ^ 5 + ks_r * ks_adotx ^ 2). (* SingleBHKS.c:214-218 *)
Definition ks_dH3 : R := (ks_H * (-2 * ks_adotx * ks_aS3 * ks_r + ks_dr3 * (-ks_r ^ 4 + 3 * ks_adotx ^ 2))) / (ks_r ^ 5 + ks_r * ks_adotx ^ 2). (* SingleBHKS.c:220-224 *)
Definition ks_l1 : R := (ks_adotx * ks_aS1 - ks_acrossx1 * ks_r + x1 * ks_r ^ 2) / (ks_a2 * ks_r + ks_r ^ 3). (* SingleBHKS.c:226-229 *)
Definition ks_l2 : R := (ks_adotx * ks_aS2 - ks_acrossx2 * ks_r + x2 * ks_r ^ 2) / (ks_a2 * ks_r + ks_r ^ 3). (* SingleBHKS.c:231-234 *)
Definition ks_l3 : R := (ks_adotx * ks_aS3 - ks_acrossx3 * ks_r + x3 * ks_r ^ 2) / (ks_a2 * ks_r + ks_r ^ 3). (* SingleBHKS.c:236-239 *)
Definition ks_dl11 : R := (ks_aS1 ^ 2 + ks_r ^ 2) / (ks_a2 * ks_r + ks_r ^ 3) + (ks_dr1 * (2 * ks_acrossx1 * ks_r ^ 3 - ks_adotx * ks_aS1 * (ks_a2 + 3 * ks_r ^ 2) + x1 * (-ks_r ^ 4 + ks_a2 * ks_r ^ 2))) / (2 * ks_a2 * ks_r ^ 4 + ks_r ^ 6 + ks_a2 ^ 2 * ks_r ^ 2). (* SingleBHKS.c:241-247 *)
Definition ks_dl12 : R := (ks_aS1 * ks_aS2 - ks_ahat12 * ks_r) / (ks_a2 * ks_r + ks_r ^ 3) + (ks_dr2 * (2 * ks_acrossx1 * ks_r ^ 3 - ks_adotx * ks_aS1 * (ks_a2 + 3 * ks_r ^ 2) + x1 * (-ks_r ^ 4 + ks_a2 * ks_r ^ 2))) / (2 * ks_a2 * ks_r ^ 4 + ks_r ^ 6 + ks_a2 ^ 2 * ks_r ^ 2). (* SingleBHKS.c:249-255 *)
Definition ks_dl13 : R := (ks_aS1 * ks_aS3 - ks_ahat13 * ks_r) / (ks_a2 * ks_r + ks_r ^ 3) + (ks_dr3 * (2 * ks_acrossx1 * ks_r ^ 3 - ks_adotx * ks_aS1 * (ks_a2 + 3 * ks_r ^ 2) + x1 * (-ks_r ^ 4 + ks_a2 * ks_r ^ 2))) / (2 * ks_a2 * ks_r ^ 4 + ks_r ^ 6 + ks_a2 ^ 2 * ks_r ^ 2). (* SingleBHKS.c:257-263 *)
Definition ks_dl21 : R := (ks_aS1 * ks_aS2 + ks_ahat12 * ks_r) / (ks_a2 * ks_r + ks_r ^ 3) + (ks_dr1 * (2 * ks_acrossx2 * ks_r ^ 3 - ks_adotx * ks_aS2 * (ks_a2 + 3 * ks_r ^ 2) + x2 * (-ks_r ^ 4 + ks_a2 * ks_r ^ 2))) / (2 * ks_a2 * ks_r ^ 4 + ks_r ^ 6 + ks_a2 ^ 2 * ks_r ^ 2). (* SingleBHKS.c:265-271 *)
Definition ks_dl22 : R := (ks_aS2 ^ 2 + ks_r ^ 2) / (ks_a2 * ks_r + ks_r ^ 3) + (ks_dr2 * (2 * ks_acrossx2 * ks_r ^ 3 - ks_adotx * ks_aS2 * (ks_a2 + 3 * ks_r ^ 2) + x2 * (-ks_r ^ 4 + ks_a2 * ks_r ^ 2))) / (2 * ks_a2 * ks_r ^ 4 + ks_r ^ 6 + ks_a2 ^ 2 * ks_r ^ 2). (* SingleBHKS.c:273-279 *)
Definition ks_dl23 : R := (ks_aS2 * ks_aS3 - ks_ahat23 * ks_r) / (ks_a2 * ks_r + ks_r ^ 3) + (ks_dr3 * (2 * ks_acrossx2 * ks_r ^ 3 - ks_adotx * ks_aS2 * (ks_a2 + 3 * ks_r ^ 2) + x2 * (-ks_r ^ 4 + ks_a2 * ks_r ^ 2))) / (2 * ks_a2 * ks_r ^ 4 + ks_r ^ 6 + ks_a2 ^ 2 * ks_r ^ 2). (* SingleBHKS.c:281-287 *)
Definition ks_dl31 : R := (ks_aS1 * ks_aS3 + ks_ahat13 * ks_r) / (ks_a2 * ks_r + ks_r ^ 3) + (ks_dr1 * (2 * ks_acrossx3 * ks_r ^ 3 - ks_adotx * ks_aS3 * (ks_a2 + 3 * ks_r ^ 2) + x3 * (-ks_r ^ 4 + ks_a2 * ks_r ^ 2))) / (2 * ks_a2 * ks_r ^ 4 + ks_r ^ 6 + ks_a2 ^ 2 * ks_r ^ 2). (* SingleBHKS.c:289-295 *)
Definition ks_dl32 : R := (ks_aS2 * ks_aS3 + ks_ahat23 * ks_r) / (ks_a2 * ks_r + ks_r ^ 3) + (ks_dr2 * (2 * ks_acrossx3 * ks_r ^ 3 - ks_adotx * ks_aS3 * (ks_a2 + 3 * ks_r ^ 2) + x3 * (-ks_r ^ 4 + ks_a2 * ks_r ^ 2))) / (2 * ks_a2 * ks_r ^ 4 + ks_r ^ 6 + ks_a2 ^ 2 * ks_r ^ 2). (* SingleBHKS.c:297-303 *)
Definition ks_dl33 : R := (ks_aS3 ^ 2 + ks_r ^ 2) / (ks_a2 * ks_r + ks_r ^ 3) + (ks_dr3 * (2 * ks_acrossx3 * ks_r ^ 3 - ks_adotx * ks_aS3 * (ks_a2 + 3 * ks_r ^ 2) + x3 * (-ks_r ^ 4 + ks_a2 * ks_r ^ 2))) / (2 * ks_a2 * ks_r ^ 4 + ks_r ^ 6 + ks_a2 ^ 2 * ks_r ^ 2). (* SingleBHKS.c:305-311 *)
Definition ks_g11 : R := 1 + 2 * ks_H * ks_l1 ^ 2. (* SingleBHKS.c:313-316 *)
Definition ks_g12 : R := 2 * ks_H * ks_l1 * ks_l2. (* SingleBHKS.c:318-321 *)
Definition ks_g13 : R := 2 * ks_H * ks_l1 * ks_l3. (* SingleBHKS.c:323-326 *)
Definition ks_g22 : R := 1 + 2 * ks_H * ks_l2 ^ 2. (* SingleBHKS.c:328-331 *)
Definition ks_g23 : R := 2 * ks_H * ks_l2 * ks_l3. (* SingleBHKS.c:333-336 *)
Definition ks_g33 : R := 1 + 2 * ks_H * ks_l3 ^ 2. (* SingleBHKS.c:338-341 *)
Definition ks_detgup : R := 1 / (2 * ks_g12 * ks_g13 * ks_g23 - ks_g33 * ks_g12 ^ 2 + ks_g22 * (ks_g11 * ks_g33 - ks_g13 ^ 2) - ks_g11 * ks_g23 ^ 2). (* SingleBHKS.c:343-347 *)
Definition ks_gup11 : R := ks_detgup * (ks_g22 * ks_g33 - ks_g23 ^ 2). (* SingleBHKS.c:349-352 *)
Definition ks_gup12 : R := ks_detgup * (ks_g13 * ks_g23 - ks_g12 * ks_g33). (* SingleBHKS.c:354-357 *)
Definition ks_gup13 : R := ks_detgup * (-(ks_g13 * ks_g22) + ks_g12 * ks_g23). (* SingleBHKS.c:359-362 *)
Definition ks_gup22 : R := ks_detgup * (ks_g11 * ks_g33 - ks_g13 ^ 2). (* SingleBHKS.c:364-367 *)
Definition ks_gup23 : R := ks_detgup * (ks_g12 * ks_g13 - ks_g11 * ks_g23). (* SingleBHKS.c:369-372 *)
Definition ks_gup33 : R := ks_detgup * (ks_g11 * ks_g22 - ks_g12 ^ 2). (* SingleBHKS.c:374-377 *)
Definition ks_alpha : R := 1 / sqrt(1 + 2 * ks_H). (* SingleBHKS.c:379-382 *)
Definition ks_beta1 : R := (2 * ks_H * ks_l1) / (1 + 2 * ks_H). (* SingleBHKS.c:384-387 *)
Definition ks_beta2 : R := (2 * ks_H * ks_l2) / (1 + 2 * ks_H). (* SingleBHKS.c:389-392 *)
Definition ks_beta3 : R := (2 * ks_H * ks_l3) / (1 + 2 * ks_H). (* SingleBHKS.c:394-397 *)
Definition ks_K11 : R := ks_alpha * (4 * ks_H ^ 2 * (ks_l1 * (ks_dl12 * ks_l2 + ks_dl13 * ks_l3) + ks_dl11 * ks_l1 ^ 2) + 2 * (ks_dH1 * ks_l1 + ks_H * (ks_dl11 + ks_dH1 * ks_l1 ^ 3 + (ks_dH2 * ks_l2 + ks_dH3 * ks_l3) * ks_l1 ^ 2))). (* SingleBHKS.c:399-403 *)
Definition ks_K12 : R := ks_alpha * ((ks_dl12 + ks_dl21) * ks_H + ks_dH1 * ks_l2 + ks_dH2 * (ks_l1 + 2 * ks_H * ks_l1 * ks_l2 ^ 2) + 2 * (ks_l2 * (ks_dl13 * ks_l3 * ks_H ^ 2 + ks_H * (ks_dH3 * ks_l1 * ks_l3 + ks_dH1 * ks_l1 ^ 2)) + ks_H ^ 2 * (ks_l1 * ((ks_dl11 + ks_dl22) * ks_l2 + ks_dl23 * ks_l3) + ks_dl21 * ks_l1 ^ 2 + ks_dl12 * ks_l2 ^ 2))). (* SingleBHKS.c:405-411 *)
Definition ks_K13 : R := ks_alpha * (ks_dH1 * ks_l3 + ks_l1 * (ks_dH3 + 2 * ks_dl32 * ks_l2 * ks_H ^ 2) + ks_H * (ks_dl13 + ks_dl31 + 2 * ks_dH3 * ks_l1 * ks_l3 ^ 2) + 2 * (ks_l3 * (ks_dl12 * ks_l2 * ks_H ^ 2 + ks_H * (ks_dH2 * ks_l1 * ks_l2 + ks_dH1 * ks_l1 ^ 2)) + ks_H ^ 2 * ((ks_dl11 + ks_dl33) * ks_l1 * ks_l3 + ks_dl31 * ks_l1 ^ 2 + ks_dl13 * ks_l3 ^ 2))). (* SingleBHKS.c:413-419 *)
Definition ks_K22 : R := ks_alpha * (4 * ks_H ^ 2 * (ks_dl21 * ks_l1 * ks_l2 + ks_dl22 * ks_l2 ^ 2) + ks_l3 * (4 * ks_dl23 * ks_l2 * ks_H ^ 2 + 2 * ks_dH3 * ks_H * ks_l2 ^ 2) + 2 * (ks_dH2 * ks_l2 + ks_H * (ks_dl22 + ks_dH2 * ks_l2 ^ 3 + ks_dH1 * ks_l1 * ks_l2 ^ 2))). (* SingleBHKS.c:421-426 *)
Definition ks_K23 : R := ks_alpha * ((ks_dl23 + ks_dl32) * ks_H + ks_dH2 * ks_l3 + ks_l2 * (ks_dH3 + 2 * ks_dl31 * ks_l1 * ks_H ^ 2) + 2 * (ks_l3 * ((ks_dl21 * ks_l1 + ks_dl22 * ks_l2) * ks_H ^ 2 + ks_l2 * (ks_dH1 * ks_H * ks_l1 + ks_dl33 * ks_H ^ 2)) + (ks_dH2 * ks_H * ks_l3 + ks_dl32 * ks_H ^ 2) * ks_l2 ^ 2 + (ks_dH3 * ks_H * ks_l2 + ks_dl23 * ks_H ^ 2) * ks_l3 ^ 2)). (* SingleBHKS.c:428-434 *)
Definition ks_K33 : R := ks_alpha * (4 * (ks_dl31 * ks_l1 + ks_dl32 * ks_l2) * ks_l3 * ks_H ^ 2 + (2 * ks_dH1 * ks_H * ks_l1 + 4 * ks_dl33 * ks_H ^ 2) * ks_l3 ^ 2 + 2 * (ks_dH3 * ks_l3 + ks_H * (ks_dl33 + ks_dH3 * ks_l3 ^ 3 + ks_dH2 * ks_l2 * ks_l3 ^ 2))). (* SingleBHKS.c:436-441 *)
Definition ks_psi : R := if cf then 1 + (2 * M) / ks_r else 1. (* SingleBHKS.c:448-451, 501-504 *)
Definition ks_dpsiopsi1 : R := if cf then (-2 * M * x1) / (ks_r ^ 3 * ks_psi) else 0. (* SingleBHKS.c:453-456, 506-509 *)
Definition ks_dpsiopsi2 : R := if cf then (-2 * M * x2) / (ks_r ^ 3 * ks_psi) else 0. (* SingleBHKS.c:458-461, 511-514 *)
Definition ks_dpsiopsi3 : R := if cf then (-2 * M * x3) / (ks_r ^ 3 * ks_psi) else 0. (* SingleBHKS.c:463-466, 516-519 *)
Definition ks_ddpsiopsi11 : R := if cf then (M * (-2 / ks_r ^ 3 + (6 * x1 ^ 2) / ks_r ^ 5)) / ks_psi else 0. (* SingleBHKS.c:468-471, 521-524 *)
Definition ks_ddpsiopsi12 : R := if cf then (6 * M * x1 * x2) / (ks_r ^ 5 * ks_psi) else 0. (* SingleBHKS.c:473-476, 526-529 *)
Definition ks_ddpsiopsi13 : R := if cf then (6 * M * x1 * x3) / (ks_r ^ 5 * ks_psi) else 0. (* SingleBHKS.c:478-481, 531-534 *)
Definition ks_ddpsiopsi22 : R := if cf then (M * (-2 / ks_r ^ 3 + (6 * x2 ^ 2) / ks_r ^ 5)) / ks_psi else 0. (* SingleBHKS.c:483-486, 536-539 *)
Definition ks_ddpsiopsi23 : R := if cf then (6 * M * x2 * x3) / (ks_r ^ 5 * ks_psi) else 0. (* SingleBHKS.c:488-491, 541-544 *)
Definition ks_ddpsiopsi33 : R := if cf then (M * (-2 / ks_r ^ 3 + (6 * x3 ^ 2) / ks_r ^ 5)) / ks_psi else 0. (* SingleBHKS.c:493-496, 546-549 *)
Definition ks_gb11 : R := ks_g11 / ks_psi ^ 4. (* SingleBHKS.c:555-558 *)
Definition ks_gb12 : R := ks_g12 / ks_psi ^ 4. (* SingleBHKS.c:560-563 *)
Definition ks_gb13 : R := ks_g13 / ks_psi ^ 4. (* SingleBHKS.c:565-568 *)
Definition ks_gb22 : R := ks_g22 / ks_psi ^ 4. (* SingleBHKS.c:570-573 *)
Definition ks_gb23 : R := ks_g23 / ks_psi ^ 4. (* SingleBHKS.c:575-578 *)
Definition ks_gb33 : R := ks_g33 / ks_psi ^ 4. (* SingleBHKS.c:580-583 *)
(** SingleBHKS, SingleBHKS.c:18-592: what is written at this point.  First psi, dpsiopsi, ddpsiopsi in the order of the list psiandderivs (sgrid_ADMvars.c:57-60), then g, K, alpha, beta in the order of computeADMconstraints (ADMvars.c:40-43), as in Bh_model.v *)
Definition SingleBHKS : (nat -> R) * (nat -> R) :=
  (fun n => nth n [ks_psi; ks_dpsiopsi1; ks_dpsiopsi2; ks_dpsiopsi3; ks_ddpsiopsi11; ks_ddpsiopsi12; ks_ddpsiopsi13; ks_ddpsiopsi22; ks_ddpsiopsi23; ks_ddpsiopsi33] 0,
   fun n => nth n [ks_gb11; ks_gb12; ks_gb13; ks_gb22; ks_gb23; ks_gb33; ks_K11; ks_K12; ks_K13; ks_K22; ks_K23; ks_K33; ks_alpha; ks_beta1; ks_beta2; ks_beta3] 0).
End KS.
