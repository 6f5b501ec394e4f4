(** Model of src/physics/ScalarOnKerr/Kerr3d.c: lapse, shift, spatial metric, extrinsic curvature and their derivatives for a spinning black hole in Kerr-Schild coordinates, at one point (x1, x2, x3).
    Every variable of the loop body is one definition with the expression of the code and its lines.  Power(x,n) is pow with a constant whole exponent (8) and pow2(x) is x*x (10): both are x ^ n here.
    M is the parameter BHmass and (Sx, Sy, Sz) are BHsx, BHsy, BHsz (21-24).  Doubles are real numbers; a division by zero gives an unspecified number. *)
From Verif Require Import Rutil.
Local Open Scope R_scope.
Section S3.
Variables (M Sx Sy Sz x1 x2 x3 : R).
Definition s3_rho : R := sqrt(x1 ^ 2 + x2 ^ 2 + x3 ^ 2). (* Kerr3d.c:168-171 *)
Definition s3_aS1 : R := if Req_EM_T M 0 then Sx else Sx / M. (* Kerr3d.c:173-176, 191-196 *)
Definition s3_aS2 : R := if Req_EM_T M 0 then Sy else Sy / M. (* Kerr3d.c:178-181, 198-201 *)
Definition s3_aS3 : R := if Req_EM_T M 0 then Sz else Sz / M. (* Kerr3d.c:183-186, 203-206 *)
Definition s3_adotx : R := s3_aS1 * x1 + s3_aS2 * x2 + s3_aS3 * x3. (* Kerr3d.c:208-215 *)
Definition s3_a2 : R := s3_aS1 ^ 2 + s3_aS2 ^ 2 + s3_aS3 ^ 2. (* Kerr3d.c:217-220 *)
Definition s3_Omega : R := sqrt(s3_rho ^ 4 + s3_a2 ^ 2 + 4 * s3_adotx ^ 2 - 2 * s3_a2 * s3_rho ^ 2). (* Kerr3d.c:222-225 *)
Definition s3_r : R := sqrt((1 / 2) * (-s3_a2 + s3_Omega + s3_rho ^ 2)). (* Kerr3d.c:227-230 *)
Definition s3_dr1 : R := ((s3_adotx * s3_aS1 - (1 / 2) * s3_a2 * x1) / s3_Omega + (1 / 2) * (x1 + (x1 * s3_rho ^ 2) / s3_Omega)) / s3_r. (* Kerr3d.c:232-236 *)
Definition s3_dr2 : R := ((s3_adotx * s3_aS2 - (1 / 2) * s3_a2 * x2) / s3_Omega + (1 / 2) * (x2 + (x2 * s3_rho ^ 2) / s3_Omega)) / s3_r. (* Kerr3d.c:238-242 *)
Definition s3_dr3 : R := ((s3_adotx * s3_aS3 - (1 / 2) * s3_a2 * x3) / s3_Omega + (1 / 2) * (x3 + (x3 * s3_rho ^ 2) / s3_Omega)) / s3_r. (* Kerr3d.c:244-248 *)
Definition s3_acrossx1 : R := -(s3_aS3 * x2) + s3_aS2 * x3. (* Kerr3d.c:250-253 *)
Definition s3_acrossx2 : R := s3_aS3 * x1 - s3_aS1 * x3. (* Kerr3d.c:255-258 *)
Definition s3_acrossx3 : R := -(s3_aS2 * x1) + s3_aS1 * x2. (* Kerr3d.c:260-263 *)
Definition s3_ahat12 : R := -s3_aS3. (* Kerr3d.c:265-268 *)
Definition s3_ahat13 : R := s3_aS2. (* Kerr3d.c:270-273 *)
Definition s3_ahat23 : R := -s3_aS1. (* Kerr3d.c:275-278 *)
Definition s3_H : R := (M * s3_r ^ 3) / (s3_r ^ 4 + s3_adotx ^ 2). (* Kerr3d.c:280-283 *)
Definition s3_dH1 : R := (s3_H * (-2 * s3_adotx * s3_aS1 * s3_r + s3_dr1 * (-s3_r ^ 4 + 3 * s3_adotx ^ 2))) / (s3_r ^ 5 + s3_r * s3_adotx ^ 2). (* Kerr3d.c:285-289 *)
Definition s3_dH2 : R := (s3_H * (-2 * s3_adotx * s3_aS2 * s3_r + s3_dr2 * (-s3_r ^ 4 + 3 * s3_adotx ^ 2))) / (s3_r ^ 5 + s3_r * s3_adotx ^ 2). (* Kerr3d.c:291-295 *)
Definition s3_dH3 : R := (s3_H * (-2 * s3_adotx * s3_aS3 * s3_r + s3_dr3 * (-s3_r ^ 4 + 3 * s3_adotx ^ 2))) / (s3_r ^ 5 + s3_r * s3_adotx ^ 2). (* Kerr3d.c:297-301 *)
Definition s3_l1 : R := (s3_adotx * s3_aS1 - s3_acrossx1 * s3_r + x1 * s3_r ^ 2) / (s3_a2 * s3_r + s3_r ^ 3). (* Kerr3d.c:303-306 *)
Definition s3_l2 : R := (s3_adotx * s3_aS2 - s3_acrossx2 * s3_r + x2 * s3_r ^ 2) / (s3_a2 * s3_r + s3_r ^ 3). (* Kerr3d.c:308-311 *)
Definition s3_l3 : R := (s3_adotx * s3_aS3 - s3_acrossx3 * s3_r + x3 * s3_r ^ 2) / (s3_a2 * s3_r + s3_r ^ 3). (* Kerr3d.c:313-316 *)
Definition s3_dl11 : R := (s3_aS1 ^ 2 + s3_r ^ 2) / (s3_a2 * s3_r + s3_r ^ 3) + (s3_dr1 * (2 * s3_acrossx1 * s3_r ^ 3 - s3_adotx * s3_aS1 * (s3_a2 + 3 * s3_r ^ 2) + x1 * (-s3_r ^ 4 + s3_a2 * s3_r ^ 2))) / (2 * s3_a2 * s3_r ^ 4 + s3_r ^ 6 + s3_a2 ^ 2 * s3_r ^ 2). (* Kerr3d.c:318-324 *)
Definition s3_dl12 : R := (s3_aS1 * s3_aS2 - s3_ahat12 * s3_r) / (s3_a2 * s3_r + s3_r ^ 3) + (s3_dr2 * (2 * s3_acrossx1 * s3_r ^ 3 - s3_adotx * s3_aS1 * (s3_a2 + 3 * s3_r ^ 2) + x1 * (-s3_r ^ 4 + s3_a2 * s3_r ^ 2))) / (2 * s3_a2 * s3_r ^ 4 + s3_r ^ 6 + s3_a2 ^ 2 * s3_r ^ 2). (* Kerr3d.c:326-332 *)
Definition s3_dl13 : R := (s3_aS1 * s3_aS3 - s3_ahat13 * s3_r) / (s3_a2 * s3_r + s3_r ^ 3) + (s3_dr3 * (2 * s3_acrossx1 * s3_r ^ 3 - s3_adotx * s3_aS1 * (s3_a2 + 3 * s3_r ^ 2) + x1 * (-s3_r ^ 4 + s3_a2 * s3_r ^ 2))) / (2 * s3_a2 * s3_r ^ 4 + s3_r ^ 6 + s3_a2 ^ 2 * s3_r ^ 2). (* Kerr3d.c:334-340 *)
Definition s3_dl21 : R := (s3_aS1 * s3_aS2 + s3_ahat12 * s3_r) / (s3_a2 * s3_r + s3_r ^ 3) + (s3_dr1 * (2 * s3_acrossx2 * s3_r ^ 3 - s3_adotx * s3_aS2 * (s3_a2 + 3 * s3_r ^ 2) + x2 * (-s3_r ^ 4 + s3_a2 * s3_r ^ 2))) / (2 * s3_a2 * s3_r ^ 4 + s3_r ^ 6 + s3_a2 ^ 2 * s3_r ^ 2). (* Kerr3d.c:342-348 *)
Definition s3_dl22 : R := (s3_aS2 ^ 2 + s3_r ^ 2) / (s3_a2 * s3_r + s3_r ^ 3) + (s3_dr2 * (2 * s3_acrossx2 * s3_r ^ 3 - s3_adotx * s3_aS2 * (s3_a2 + 3 * s3_r ^ 2) + x2 * (-s3_r ^ 4 + s3_a2 * s3_r ^ 2))) / (2 * s3_a2 * s3_r ^ 4 + s3_r ^ 6 + s3_a2 ^ 2 * s3_r ^ 2). (* Kerr3d.c:350-356 *)
Definition s3_dl23 : R := (s3_aS2 * s3_aS3 - s3_ahat23 * s3_r) / (s3_a2 * s3_r + s3_r ^ 3) + (s3_dr3 * (2 * s3_acrossx2 * s3_r ^ 3 - s3_adotx * s3_aS2 * (s3_a2 + 3 * s3_r ^ 2) + x2 * (-s3_r ^ 4 + s3_a2 * s3_r ^ 2))) / (2 * s3_a2 * s3_r ^ 4 + s3_r ^ 6 + s3_a2 ^ 2 * s3_r ^ 2). (* Kerr3d.c:358-364 *)
Definition s3_dl31 : R := (s3_aS1 * s3_aS3 + s3_ahat13 * s3_r) / (s3_a2 * s3_r + s3_r ^ 3) + (s3_dr1 * (2 * s3_acrossx3 * s3_r ^ 3 - s3_adotx * s3_aS3 * (s3_a2 + 3 * s3_r ^ 2) + x3 * (-s3_r ^ 4 + s3_a2 * s3_r ^ 2))) / (2 * s3_a2 * s3_r ^ 4 + s3_r ^ 6 + s3_a2 ^ 2 * s3_r ^ 2). (* Kerr3d.c:366-372 *)
Definition s3_dl32 : R := (s3_aS2 * s3_aS3 + s3_ahat23 * s3_r) / (s3_a2 * s3_r + s3_r ^ 3) + (s3_dr2 * (2 * s3_acrossx3 * s3_r ^ 3 - s3_adotx * s3_aS3 * (s3_a2 + 3 * s3_r ^ 2) + x3 * (-s3_r ^ 4 + s3_a2 * s3_r ^ 2))) / (2 * s3_a2 * s3_r ^ 4 + s3_r ^ 6 + s3_a2 ^ 2 * s3_r ^ 2). (* Kerr3d.c:374-380 *)
Definition s3_dl33 : R := (s3_aS3 ^ 2 + s3_r ^ 2) / (s3_a2 * s3_r + s3_r ^ 3) + (s3_dr3 * (2 * s3_acrossx3 * s3_r ^ 3 - s3_adotx * s3_aS3 * (s3_a2 + 3 * s3_r ^ 2) + x3 * (-s3_r ^ 4 + s3_a2 * s3_r ^ 2))) / (2 * s3_a2 * s3_r ^ 4 + s3_r ^ 6 + s3_a2 ^ 2 * s3_r ^ 2). (* Kerr3d.c:382-388 *)
Definition s3_g11 : R := 1 + 2 * s3_H * s3_l1 ^ 2. (* Kerr3d.c:390-393 *)
Definition s3_g12 : R := 2 * s3_H * s3_l1 * s3_l2. (* Kerr3d.c:395-398 *)
Definition s3_g13 : R := 2 * s3_H * s3_l1 * s3_l3. (* Kerr3d.c:400-403 *)
Definition s3_g22 : R := 1 + 2 * s3_H * s3_l2 ^ 2. (* Kerr3d.c:405-408 *)
Definition s3_g23 : R := 2 * s3_H * s3_l2 * s3_l3. (* Kerr3d.c:410-413 *)
Definition s3_g33 : R := 1 + 2 * s3_H * s3_l3 ^ 2. (* Kerr3d.c:415-418 *)
Definition s3_detgup : R := 1 / (2 * s3_g12 * s3_g13 * s3_g23 + s3_g11 * s3_g22 * s3_g33 - s3_g33 * s3_g12 ^ 2 - s3_g22 * s3_g13 ^ 2 - s3_g11 * s3_g23 ^ 2). (* Kerr3d.c:420-425 *)
Definition s3_gup11 : R := s3_detgup * (s3_g22 * s3_g33 - s3_g23 ^ 2). (* Kerr3d.c:427-430 *)
Definition s3_gup12 : R := s3_detgup * (s3_g13 * s3_g23 - s3_g12 * s3_g33). (* Kerr3d.c:432-435 *)
Definition s3_gup13 : R := s3_detgup * (-(s3_g13 * s3_g22) + s3_g12 * s3_g23). (* Kerr3d.c:437-440 *)
Definition s3_gup22 : R := s3_detgup * (s3_g11 * s3_g33 - s3_g13 ^ 2). (* Kerr3d.c:442-445 *)
Definition s3_gup23 : R := s3_detgup * (s3_g12 * s3_g13 - s3_g11 * s3_g23). (* Kerr3d.c:447-450 *)
Definition s3_gup33 : R := s3_detgup * (s3_g11 * s3_g22 - s3_g12 ^ 2). (* Kerr3d.c:452-455 *)
Definition s3_alpha : R := 1 / sqrt(1 + 2 * s3_H). (* Kerr3d.c:457-460 *)
Definition s3_beta1 : R := (2 * s3_H * s3_l1) / (1 + 2 * s3_H). (* Kerr3d.c:462-465 *)
Definition s3_beta2 : R := (2 * s3_H * s3_l2) / (1 + 2 * s3_H). (* Kerr3d.c:467-470 *)
Definition s3_beta3 : R := (2 * s3_H * s3_l3) / (1 + 2 * s3_H). (* Kerr3d.c:472-475 *)
Definition s3_dalpha1 : R := -(s3_dH1 / (sqrt(1 + 2 * s3_H) + 2 * s3_H * sqrt(1 + 2 * s3_H))). (* Kerr3d.c:477-480 *)
Definition s3_dalpha2 : R := -(s3_dH2 / (sqrt(1 + 2 * s3_H) + 2 * s3_H * sqrt(1 + 2 * s3_H))). (* Kerr3d.c:482-485 *)
Definition s3_dalpha3 : R := -(s3_dH3 / (sqrt(1 + 2 * s3_H) + 2 * s3_H * sqrt(1 + 2 * s3_H))). (* Kerr3d.c:487-490 *)
Definition s3_dbeta11 : R := (2 * (s3_dl11 * s3_H + s3_dH1 * s3_l1)) / (1 + 2 * s3_H) - (4 * s3_dH1 * s3_H * s3_l1) / (1 + 4 * (s3_H + s3_H ^ 2)). (* Kerr3d.c:492-495 *)
Definition s3_dbeta12 : R := (2 * (s3_dl12 * s3_H + s3_dH2 * s3_l1)) / (1 + 2 * s3_H) - (4 * s3_dH2 * s3_H * s3_l1) / (1 + 4 * (s3_H + s3_H ^ 2)). (* Kerr3d.c:497-500 *)
Definition s3_dbeta13 : R := (2 * (s3_dl13 * s3_H + s3_dH3 * s3_l1)) / (1 + 2 * s3_H) - (4 * s3_dH3 * s3_H * s3_l1) / (1 + 4 * (s3_H + s3_H ^ 2)). (* Kerr3d.c:502-505 *)
Definition s3_dbeta21 : R := (2 * (s3_dl21 * s3_H + s3_dH1 * s3_l2)) / (1 + 2 * s3_H) - (4 * s3_dH1 * s3_H * s3_l2) / (1 + 4 * (s3_H + s3_H ^ 2)). (* Kerr3d.c:507-510 *)
Definition s3_dbeta22 : R := (2 * (s3_dl22 * s3_H + s3_dH2 * s3_l2)) / (1 + 2 * s3_H) - (4 * s3_dH2 * s3_H * s3_l2) / (1 + 4 * (s3_H + s3_H ^ 2)). (* Kerr3d.c:512-515 *)
Definition s3_dbeta23 : R := (2 * (s3_dl23 * s3_H + s3_dH3 * s3_l2)) / (1 + 2 * s3_H) - (4 * s3_dH3 * s3_H * s3_l2) / (1 + 4 * (s3_H + s3_H ^ 2)). (* Kerr3d.c:517-520 *)
Definition s3_dbeta31 : R := (2 * (s3_dl31 * s3_H + s3_dH1 * s3_l3)) / (1 + 2 * s3_H) - (4 * s3_dH1 * s3_H * s3_l3) / (1 + 4 * (s3_H + s3_H ^ 2)). (* Kerr3d.c:522-525 *)
Definition s3_dbeta32 : R := (2 * (s3_dl32 * s3_H + s3_dH2 * s3_l3)) / (1 + 2 * s3_H) - (4 * s3_dH2 * s3_H * s3_l3) / (1 + 4 * (s3_H + s3_H ^ 2)). (* Kerr3d.c:527-530 *)
Definition s3_dbeta33 : R := (2 * (s3_dl33 * s3_H + s3_dH3 * s3_l3)) / (1 + 2 * s3_H) - (4 * s3_dH3 * s3_H * s3_l3) / (1 + 4 * (s3_H + s3_H ^ 2)). (* Kerr3d.c:532-535 *)
Definition s3_K11 : R := s3_alpha * (4 * s3_H ^ 2 * (s3_l1 * (s3_dl12 * s3_l2 + s3_dl13 * s3_l3) + s3_dl11 * s3_l1 ^ 2) + 2 * (s3_dH1 * s3_l1 + s3_H * (s3_dl11 + s3_dH1 * s3_l1 ^ 3 + (s3_dH2 * s3_l2 + s3_dH3 * s3_l3) * s3_l1 ^ 2))). (* Kerr3d.c:537-541 *)
Definition s3_K12 : R := s3_alpha * ((s3_dl12 + s3_dl21) * s3_H + s3_dH1 * s3_l2 + s3_dH2 * (s3_l1 + 2 * s3_H * s3_l1 * s3_l2 ^ 2) + 2 * (s3_l2 * (s3_dl13 * s3_l3 * s3_H ^ 2 + s3_H * (s3_dH3 * s3_l1 * s3_l3 + s3_dH1 * s3_l1 ^ 2)) + s3_H ^ 2 * (s3_l1 * ((s3_dl11 + s3_dl22) * s3_l2 + s3_dl23 * s3_l3) + s3_dl21 * s3_l1 ^ 2 + s3_dl12 * s3_l2 ^ 2))). (* Kerr3d.c:543-549 *)
Definition s3_K13 : R := s3_alpha * (s3_dH1 * s3_l3 + s3_l1 * (s3_dH3 + 2 * s3_dl32 * s3_l2 * s3_H ^ 2) + s3_H * (s3_dl13 + s3_dl31 + 2 * s3_dH3 * s3_l1 * s3_l3 ^ 2) + 2 * (s3_l3 * (s3_dl12 * s3_l2 * s3_H ^ 2 + s3_H * (s3_dH2 * s3_l1 * s3_l2 + s3_dH1 * s3_l1 ^ 2)) + s3_H ^ 2 * ((s3_dl11 + s3_dl33) * s3_l1 * s3_l3 + s3_dl31 * s3_l1 ^ 2 + s3_dl13 * s3_l3 ^ 2))). (* Kerr3d.c:551-557 *)
Definition s3_K22 : R := s3_alpha * (4 * s3_H ^ 2 * (s3_dl21 * s3_l1 * s3_l2 + s3_dl22 * s3_l2 ^ 2) + s3_l3 * (4 * s3_dl23 * s3_l2 * s3_H ^ 2 + 2 * s3_dH3 * s3_H * s3_l2 ^ 2) + 2 * (s3_dH2 * s3_l2 + s3_H * (s3_dl22 + s3_dH2 * s3_l2 ^ 3 + s3_dH1 * s3_l1 * s3_l2 ^ 2))). (* Kerr3d.c:559-564 *)
Definition s3_K23 : R := s3_alpha * ((s3_dl23 + s3_dl32) * s3_H + s3_dH2 * s3_l3 + s3_l2 * (s3_dH3 + 2 * s3_dl31 * s3_l1 * s3_H ^ 2) + 2 * (s3_l3 * ((s3_dl21 * s3_l1 + s3_dl22 * s3_l2) * s3_H ^ 2 + s3_l2 * (s3_dH1 * s3_H * s3_l1 + s3_dl33 * s3_H ^ 2)) + (s3_dH2 * s3_H * s3_l3 + s3_dl32 * s3_H ^ 2) * s3_l2 ^ 2 + (s3_dH3 * s3_H * s3_l2 + s3_dl23 * s3_H ^ 2) * s3_l3 ^ 2)). (* Kerr3d.c:566-572 *)
Definition s3_K33 : R := s3_alpha * (4 * (s3_dl31 * s3_l1 + s3_dl32 * s3_l2) * s3_l3 * s3_H ^ 2 + (2 * s3_dH1 * s3_H * s3_l1 + 4 * s3_dl33 * s3_H ^ 2) * s3_l3 ^ 2 + 2 * (s3_dH3 * s3_l3 + s3_H * (s3_dl33 + s3_dH3 * s3_l3 ^ 3 + s3_dH2 * s3_l2 * s3_l3 ^ 2))). (* Kerr3d.c:574-579 *)
Definition s3_TrK : R := s3_gup11 * s3_K11 + s3_gup22 * s3_K22 + 2 * (s3_gup12 * s3_K12 + s3_gup13 * s3_K13 + s3_gup23 * s3_K23) + s3_gup33 * s3_K33. (* Kerr3d.c:581-586 *)
Definition s3_dg111 : R := 4 * s3_dl11 * s3_H * s3_l1 + 2 * s3_dH1 * s3_l1 ^ 2. (* Kerr3d.c:588-591 *)
Definition s3_dg112 : R := 4 * s3_dl12 * s3_H * s3_l1 + 2 * s3_dH2 * s3_l1 ^ 2. (* Kerr3d.c:593-596 *)
Definition s3_dg113 : R := 4 * s3_dl13 * s3_H * s3_l1 + 2 * s3_dH3 * s3_l1 ^ 2. (* Kerr3d.c:598-601 *)
Definition s3_dg121 : R := 2 * (s3_dH1 * s3_l1 * s3_l2 + s3_H * (s3_dl21 * s3_l1 + s3_dl11 * s3_l2)). (* Kerr3d.c:603-606 *)
Definition s3_dg122 : R := 2 * (s3_dH2 * s3_l1 * s3_l2 + s3_H * (s3_dl22 * s3_l1 + s3_dl12 * s3_l2)). (* Kerr3d.c:608-611 *)
Definition s3_dg123 : R := 2 * (s3_dH3 * s3_l1 * s3_l2 + s3_H * (s3_dl23 * s3_l1 + s3_dl13 * s3_l2)). (* Kerr3d.c:613-616 *)
Definition s3_dg131 : R := 2 * (s3_dH1 * s3_l1 * s3_l3 + s3_H * (s3_dl31 * s3_l1 + s3_dl11 * s3_l3)). (* Kerr3d.c:618-621 *)
Definition s3_dg132 : R := 2 * (s3_dH2 * s3_l1 * s3_l3 + s3_H * (s3_dl32 * s3_l1 + s3_dl12 * s3_l3)). (* Kerr3d.c:623-626 *)
Definition s3_dg133 : R := 2 * (s3_dH3 * s3_l1 * s3_l3 + s3_H * (s3_dl33 * s3_l1 + s3_dl13 * s3_l3)). (* Kerr3d.c:628-631 *)
Definition s3_dg221 : R := 4 * s3_dl21 * s3_H * s3_l2 + 2 * s3_dH1 * s3_l2 ^ 2. (* Kerr3d.c:633-636 *)
Definition s3_dg222 : R := 4 * s3_dl22 * s3_H * s3_l2 + 2 * s3_dH2 * s3_l2 ^ 2. (* Kerr3d.c:638-641 *)
Definition s3_dg223 : R := 4 * s3_dl23 * s3_H * s3_l2 + 2 * s3_dH3 * s3_l2 ^ 2. (* Kerr3d.c:643-646 *)
Definition s3_dg231 : R := 2 * (s3_dH1 * s3_l2 * s3_l3 + s3_H * (s3_dl31 * s3_l2 + s3_dl21 * s3_l3)). (* Kerr3d.c:648-651 *)
Definition s3_dg232 : R := 2 * (s3_dH2 * s3_l2 * s3_l3 + s3_H * (s3_dl32 * s3_l2 + s3_dl22 * s3_l3)). (* Kerr3d.c:653-656 *)
Definition s3_dg233 : R := 2 * (s3_dH3 * s3_l2 * s3_l3 + s3_H * (s3_dl33 * s3_l2 + s3_dl23 * s3_l3)). (* Kerr3d.c:658-661 *)
Definition s3_dg331 : R := 4 * s3_dl31 * s3_H * s3_l3 + 2 * s3_dH1 * s3_l3 ^ 2. (* Kerr3d.c:663-666 *)
Definition s3_dg332 : R := 4 * s3_dl32 * s3_H * s3_l3 + 2 * s3_dH2 * s3_l3 ^ 2. (* Kerr3d.c:668-671 *)
Definition s3_dg333 : R := 4 * s3_dl33 * s3_H * s3_l3 + 2 * s3_dH3 * s3_l3 ^ 2. (* Kerr3d.c:673-676 *)
Definition s3_Gamdo111 : R := (1 / 2) * s3_dg111. (* Kerr3d.c:678-681 *)
Definition s3_Gamdo112 : R := (1 / 2) * s3_dg112. (* Kerr3d.c:683-686 *)
Definition s3_Gamdo113 : R := (1 / 2) * s3_dg113. (* Kerr3d.c:688-691 *)
Definition s3_Gamdo122 : R := s3_dg122 - (1 / 2) * s3_dg221. (* Kerr3d.c:693-696 *)
Definition s3_Gamdo123 : R := (1 / 2) * (s3_dg123 + s3_dg132 - s3_dg231). (* Kerr3d.c:698-701 *)
Definition s3_Gamdo133 : R := s3_dg133 - (1 / 2) * s3_dg331. (* Kerr3d.c:703-706 *)
Definition s3_Gamdo211 : R := -(1 / 2) * s3_dg112 + s3_dg121. (* Kerr3d.c:708-711 *)
Definition s3_Gamdo212 : R := (1 / 2) * s3_dg221. (* Kerr3d.c:713-716 *)
Definition s3_Gamdo213 : R := (1 / 2) * (s3_dg123 - s3_dg132 + s3_dg231). (* Kerr3d.c:718-721 *)
Definition s3_Gamdo222 : R := (1 / 2) * s3_dg222. (* Kerr3d.c:723-726 *)
Definition s3_Gamdo223 : R := (1 / 2) * s3_dg223. (* Kerr3d.c:728-731 *)
Definition s3_Gamdo233 : R := s3_dg233 - (1 / 2) * s3_dg332. (* Kerr3d.c:733-736 *)
Definition s3_Gamdo311 : R := -(1 / 2) * s3_dg113 + s3_dg131. (* Kerr3d.c:738-741 *)
Definition s3_Gamdo312 : R := (1 / 2) * (-s3_dg123 + s3_dg132 + s3_dg231). (* Kerr3d.c:743-746 *)
Definition s3_Gamdo313 : R := (1 / 2) * s3_dg331. (* Kerr3d.c:748-751 *)
Definition s3_Gamdo322 : R := -(1 / 2) * s3_dg223 + s3_dg232. (* Kerr3d.c:753-756 *)
Definition s3_Gamdo323 : R := (1 / 2) * s3_dg332. (* Kerr3d.c:758-761 *)
Definition s3_Gamdo333 : R := (1 / 2) * s3_dg333. (* Kerr3d.c:763-766 *)
Definition s3_Gam111 : R := s3_Gamdo111 * s3_gup11 + s3_Gamdo211 * s3_gup12 + s3_Gamdo311 * s3_gup13. (* Kerr3d.c:768-771 *)
Definition s3_Gam112 : R := s3_Gamdo112 * s3_gup11 + s3_Gamdo212 * s3_gup12 + s3_Gamdo312 * s3_gup13. (* Kerr3d.c:773-776 *)
Definition s3_Gam113 : R := s3_Gamdo113 * s3_gup11 + s3_Gamdo213 * s3_gup12 + s3_Gamdo313 * s3_gup13. (* Kerr3d.c:778-781 *)
Definition s3_Gam122 : R := s3_Gamdo122 * s3_gup11 + s3_Gamdo222 * s3_gup12 + s3_Gamdo322 * s3_gup13. (* Kerr3d.c:783-786 *)
Definition s3_Gam123 : R := s3_Gamdo123 * s3_gup11 + s3_Gamdo223 * s3_gup12 + s3_Gamdo323 * s3_gup13. (* Kerr3d.c:788-791 *)
Definition s3_Gam133 : R := s3_Gamdo133 * s3_gup11 + s3_Gamdo233 * s3_gup12 + s3_Gamdo333 * s3_gup13. (* Kerr3d.c:793-796 *)
Definition s3_Gam211 : R := s3_Gamdo111 * s3_gup12 + s3_Gamdo211 * s3_gup22 + s3_Gamdo311 * s3_gup23. (* Kerr3d.c:798-801 *)
Definition s3_Gam212 : R := s3_Gamdo112 * s3_gup12 + s3_Gamdo212 * s3_gup22 + s3_Gamdo312 * s3_gup23. (* Kerr3d.c:803-806 *)
Definition s3_Gam213 : R := s3_Gamdo113 * s3_gup12 + s3_Gamdo213 * s3_gup22 + s3_Gamdo313 * s3_gup23. (* Kerr3d.c:808-811 *)
Definition s3_Gam222 : R := s3_Gamdo122 * s3_gup12 + s3_Gamdo222 * s3_gup22 + s3_Gamdo322 * s3_gup23. (* Kerr3d.c:813-816 *)
Definition s3_Gam223 : R := s3_Gamdo123 * s3_gup12 + s3_Gamdo223 * s3_gup22 + s3_Gamdo323 * s3_gup23. (* Kerr3d.c:818-821 *)
Definition s3_Gam233 : R := s3_Gamdo133 * s3_gup12 + s3_Gamdo233 * s3_gup22 + s3_Gamdo333 * s3_gup23. (* Kerr3d.c:823-826 *)
Definition s3_Gam311 : R := s3_Gamdo111 * s3_gup13 + s3_Gamdo211 * s3_gup23 + s3_Gamdo311 * s3_gup33. (* Kerr3d.c:828-831 *)
Definition s3_Gam312 : R := s3_Gamdo112 * s3_gup13 + s3_Gamdo212 * s3_gup23 + s3_Gamdo312 * s3_gup33. (* Kerr3d.c:833-836 *)
Definition s3_Gam313 : R := s3_Gamdo113 * s3_gup13 + s3_Gamdo213 * s3_gup23 + s3_Gamdo313 * s3_gup33. (* Kerr3d.c:838-841 *)
Definition s3_Gam322 : R := s3_Gamdo122 * s3_gup13 + s3_Gamdo222 * s3_gup23 + s3_Gamdo322 * s3_gup33. (* Kerr3d.c:843-846 *)
Definition s3_Gam323 : R := s3_Gamdo123 * s3_gup13 + s3_Gamdo223 * s3_gup23 + s3_Gamdo323 * s3_gup33. (* Kerr3d.c:848-851 *)
Definition s3_Gam333 : R := s3_Gamdo133 * s3_gup13 + s3_Gamdo233 * s3_gup23 + s3_Gamdo333 * s3_gup33. (* Kerr3d.c:853-856 *)
Definition s3_G1 : R := s3_Gam111 * s3_gup11 + s3_Gam122 * s3_gup22 + 2 * (s3_Gam112 * s3_gup12 + s3_Gam113 * s3_gup13 + s3_Gam123 * s3_gup23) + s3_Gam133 * s3_gup33. (* Kerr3d.c:858-863 *)
Definition s3_G2 : R := s3_Gam211 * s3_gup11 + s3_Gam222 * s3_gup22 + 2 * (s3_Gam212 * s3_gup12 + s3_Gam213 * s3_gup13 + s3_Gam223 * s3_gup23) + s3_Gam233 * s3_gup33. (* Kerr3d.c:865-870 *)
Definition s3_G3 : R := s3_Gam311 * s3_gup11 + s3_Gam322 * s3_gup22 + 2 * (s3_Gam312 * s3_gup12 + s3_Gam313 * s3_gup13 + s3_Gam323 * s3_gup23) + s3_Gam333 * s3_gup33. (* Kerr3d.c:872-877 *)
(** the variables written at the point, in the order of their indices from i_alpha, i_beta, ...: Kerr3d.c:26-100 *)
Definition k3_alpha : R := s3_alpha.
Definition k3_beta (n : nat) : R := match n with 0 => s3_beta1 | 1 => s3_beta2 | 2 => s3_beta3 | _ => R0 end%nat.
Definition k3_g (n : nat) : R := match n with 0 => s3_g11 | 1 => s3_g12 | 2 => s3_g13 | 3 => s3_g22 | 4 => s3_g23 | 5 => s3_g33 | _ => R0 end%nat.
Definition k3_K (n : nat) : R := match n with 0 => s3_K11 | 1 => s3_K12 | 2 => s3_K13 | 3 => s3_K22 | 4 => s3_K23 | 5 => s3_K33 | _ => R0 end%nat.
Definition k3_TrK : R := s3_TrK.
Definition k3_gup (n : nat) : R := match n with 0 => s3_gup11 | 1 => s3_gup12 | 2 => s3_gup13 | 3 => s3_gup22 | 4 => s3_gup23 | 5 => s3_gup33 | _ => R0 end%nat.
Definition k3_Gam (n : nat) : R := match n with 0 => s3_Gam111 | 1 => s3_Gam112 | 2 => s3_Gam113 | 3 => s3_Gam122 | 4 => s3_Gam123 | 5 => s3_Gam133 | 6 => s3_Gam211 | 7 => s3_Gam212 | 8 => s3_Gam213 | 9 => s3_Gam222 | 10 => s3_Gam223 | 11 => s3_Gam233 | 12 => s3_Gam311 | 13 => s3_Gam312 | 14 => s3_Gam313 | 15 => s3_Gam322 | 16 => s3_Gam323 | 17 => s3_Gam333 | _ => R0 end%nat.
Definition k3_G (n : nat) : R := match n with 0 => s3_G1 | 1 => s3_G2 | 2 => s3_G3 | _ => R0 end%nat.
Definition k3_dalpha (n : nat) : R := match n with 0 => s3_dalpha1 | 1 => s3_dalpha2 | 2 => s3_dalpha3 | _ => R0 end%nat.
Definition k3_dbeta (n : nat) : R := match n with 0 => s3_dbeta11 | 1 => s3_dbeta12 | 2 => s3_dbeta13 | 3 => s3_dbeta21 | 4 => s3_dbeta22 | 5 => s3_dbeta23 | 6 => s3_dbeta31 | 7 => s3_dbeta32 | 8 => s3_dbeta33 | _ => R0 end%nat.
End S3.
