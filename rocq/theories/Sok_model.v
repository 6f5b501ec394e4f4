(** Model of src/physics/ScalarOnKerr/Kerr.c: metric, inverse metric, Christoffel symbols and their trace for a spinning black hole in Kerr-Schild coordinates, at one point (x1, x2, x3).
    Every variable of the loop body is one definition with the expression of the code and its lines.  Power(x,n) is pow with a constant whole exponent (8) and pow2(x) is x*x (10): both are x ^ n here.
    Variables that are assigned twice without being read in between have only the second assignment (dr0, dH0, l0, dl0k, dlk0).  M is the parameter BHmass and (Sx, Sy, Sz) are BHsx, BHsy, BHsz (21-24).
    x0 is 0 (242-245).  Doubles are real numbers; a division by zero gives an unspecified number. *)
From Verif Require Import Rutil.
Local Open Scope R_scope.
Section SK.
Variables (M Sx Sy Sz x1 x2 x3 : R).
Definition sk_rho : R := sqrt(x1 ^ 2 + x2 ^ 2 + x3 ^ 2). (* Kerr.c:262-265 *)
Definition sk_aS0 : R := 0. (* Kerr.c:267-270, 290-295: 0 / M *)
Definition sk_aS1 : R := if Req_EM_T M 0 then Sx else Sx / M. (* Kerr.c:272-275, 297-300 *)
Definition sk_aS2 : R := if Req_EM_T M 0 then Sy else Sy / M. (* Kerr.c:277-280, 302-305 *)
Definition sk_aS3 : R := if Req_EM_T M 0 then Sz else Sz / M. (* Kerr.c:282-285, 307-310 *)
Definition sk_adotx : R := sk_aS1 * x1 + sk_aS2 * x2 + sk_aS3 * x3. (* Kerr.c:312-319 *)
Definition sk_a2 : R := sk_aS1 ^ 2 + sk_aS2 ^ 2 + sk_aS3 ^ 2. (* Kerr.c:321-324 *)
Definition sk_Omega : R := sqrt(sk_rho ^ 4 + sk_a2 ^ 2 + 4 * sk_adotx ^ 2 - 2 * sk_a2 * sk_rho ^ 2). (* Kerr.c:326-329 *)
Definition sk_r : R := sqrt((1 / 2) * (-sk_a2 + sk_Omega + sk_rho ^ 2)). (* Kerr.c:331-334 *)
Definition sk_dr1 : R := ((sk_adotx * sk_aS1 - (1 / 2) * sk_a2 * x1) / sk_Omega + (1 / 2) * (x1 + (x1 * sk_rho ^ 2) / sk_Omega)) / sk_r. (* Kerr.c:341-344 *)
Definition sk_dr2 : R := ((sk_adotx * sk_aS2 - (1 / 2) * sk_a2 * x2) / sk_Omega + (1 / 2) * (x2 + (x2 * sk_rho ^ 2) / sk_Omega)) / sk_r. (* Kerr.c:346-349 *)
Definition sk_dr3 : R := ((sk_adotx * sk_aS3 - (1 / 2) * sk_a2 * x3) / sk_Omega + (1 / 2) * (x3 + (x3 * sk_rho ^ 2) / sk_Omega)) / sk_r. (* Kerr.c:351-354 *)
Definition sk_dr0 : R := 0. (* Kerr.c:356-359; overwrites 336-339 *)
Definition sk_acrossx0 : R := 0. (* Kerr.c:361-364 *)
Definition sk_acrossx1 : R := -(sk_aS3 * x2) + sk_aS2 * x3. (* Kerr.c:366-369 *)
Definition sk_acrossx2 : R := sk_aS3 * x1 - sk_aS1 * x3. (* Kerr.c:371-374 *)
Definition sk_acrossx3 : R := -(sk_aS2 * x1) + sk_aS1 * x2. (* Kerr.c:376-379 *)
Definition sk_ahat01 : R := 0. (* Kerr.c:381-384 *)
Definition sk_ahat02 : R := 0. (* Kerr.c:386-389 *)
Definition sk_ahat03 : R := 0. (* Kerr.c:391-394 *)
Definition sk_ahat12 : R := -sk_aS3. (* Kerr.c:396-399 *)
Definition sk_ahat13 : R := sk_aS2. (* Kerr.c:401-404 *)
Definition sk_ahat23 : R := -sk_aS1. (* Kerr.c:406-409 *)
Definition sk_H : R := (M * sk_r ^ 3) / (sk_r ^ 4 + sk_adotx ^ 2). (* Kerr.c:411-414 *)
Definition sk_dH1 : R := (sk_H * (-2 * sk_adotx * sk_aS1 * sk_r + sk_dr1 * (-sk_r ^ 4 + 3 * sk_adotx ^ 2))) / (sk_r ^ 5 + sk_r * sk_adotx ^ 2). (* Kerr.c:422-426 *)
Definition sk_dH2 : R := (sk_H * (-2 * sk_adotx * sk_aS2 * sk_r + sk_dr2 * (-sk_r ^ 4 + 3 * sk_adotx ^ 2))) / (sk_r ^ 5 + sk_r * sk_adotx ^ 2). (* Kerr.c:428-432 *)
Definition sk_dH3 : R := (sk_H * (-2 * sk_adotx * sk_aS3 * sk_r + sk_dr3 * (-sk_r ^ 4 + 3 * sk_adotx ^ 2))) / (sk_r ^ 5 + sk_r * sk_adotx ^ 2). (* Kerr.c:434-438 *)
Definition sk_dH0 : R := 0. (* Kerr.c:440-443; overwrites 416-420 *)
Definition sk_l1 : R := (sk_adotx * sk_aS1 - sk_acrossx1 * sk_r + x1 * sk_r ^ 2) / (sk_a2 * sk_r + sk_r ^ 3). (* Kerr.c:450-453 *)
Definition sk_l2 : R := (sk_adotx * sk_aS2 - sk_acrossx2 * sk_r + x2 * sk_r ^ 2) / (sk_a2 * sk_r + sk_r ^ 3). (* Kerr.c:455-458 *)
Definition sk_l3 : R := (sk_adotx * sk_aS3 - sk_acrossx3 * sk_r + x3 * sk_r ^ 2) / (sk_a2 * sk_r + sk_r ^ 3). (* Kerr.c:460-463 *)
Definition sk_l0 : R := 1. (* Kerr.c:465-468; overwrites 445-448 *)
Definition sk_lup0 : R := -sk_l0. (* Kerr.c:470-473 *)
Definition sk_lup1 : R := sk_l1. (* Kerr.c:475-478 *)
Definition sk_lup2 : R := sk_l2. (* Kerr.c:480-483 *)
Definition sk_lup3 : R := sk_l3. (* Kerr.c:485-488 *)
Definition sk_dl11 : R := (sk_aS1 ^ 2 + sk_r ^ 2) / (sk_a2 * sk_r + sk_r ^ 3) + (sk_dr1 * (2 * sk_acrossx1 * sk_r ^ 3 - sk_adotx * sk_aS1 * (sk_a2 + 3 * sk_r ^ 2) + x1 * (-sk_r ^ 4 + sk_a2 * sk_r ^ 2))) / (2 * sk_a2 * sk_r ^ 4 + sk_r ^ 6 + sk_a2 ^ 2 * sk_r ^ 2). (* Kerr.c:530-536 *)
Definition sk_dl12 : R := (sk_aS1 * sk_aS2 - sk_ahat12 * sk_r) / (sk_a2 * sk_r + sk_r ^ 3) + (sk_dr2 * (2 * sk_acrossx1 * sk_r ^ 3 - sk_adotx * sk_aS1 * (sk_a2 + 3 * sk_r ^ 2) + x1 * (-sk_r ^ 4 + sk_a2 * sk_r ^ 2))) / (2 * sk_a2 * sk_r ^ 4 + sk_r ^ 6 + sk_a2 ^ 2 * sk_r ^ 2). (* Kerr.c:538-544 *)
Definition sk_dl13 : R := (sk_aS1 * sk_aS3 - sk_ahat13 * sk_r) / (sk_a2 * sk_r + sk_r ^ 3) + (sk_dr3 * (2 * sk_acrossx1 * sk_r ^ 3 - sk_adotx * sk_aS1 * (sk_a2 + 3 * sk_r ^ 2) + x1 * (-sk_r ^ 4 + sk_a2 * sk_r ^ 2))) / (2 * sk_a2 * sk_r ^ 4 + sk_r ^ 6 + sk_a2 ^ 2 * sk_r ^ 2). (* Kerr.c:546-552 *)
Definition sk_dl21 : R := (sk_aS1 * sk_aS2 + sk_ahat12 * sk_r) / (sk_a2 * sk_r + sk_r ^ 3) + (sk_dr1 * (2 * sk_acrossx2 * sk_r ^ 3 - sk_adotx * sk_aS2 * (sk_a2 + 3 * sk_r ^ 2) + x2 * (-sk_r ^ 4 + sk_a2 * sk_r ^ 2))) / (2 * sk_a2 * sk_r ^ 4 + sk_r ^ 6 + sk_a2 ^ 2 * sk_r ^ 2). (* Kerr.c:562-568 *)
Definition sk_dl22 : R := (sk_aS2 ^ 2 + sk_r ^ 2) / (sk_a2 * sk_r + sk_r ^ 3) + (sk_dr2 * (2 * sk_acrossx2 * sk_r ^ 3 - sk_adotx * sk_aS2 * (sk_a2 + 3 * sk_r ^ 2) + x2 * (-sk_r ^ 4 + sk_a2 * sk_r ^ 2))) / (2 * sk_a2 * sk_r ^ 4 + sk_r ^ 6 + sk_a2 ^ 2 * sk_r ^ 2). (* Kerr.c:570-576 *)
Definition sk_dl23 : R := (sk_aS2 * sk_aS3 - sk_ahat23 * sk_r) / (sk_a2 * sk_r + sk_r ^ 3) + (sk_dr3 * (2 * sk_acrossx2 * sk_r ^ 3 - sk_adotx * sk_aS2 * (sk_a2 + 3 * sk_r ^ 2) + x2 * (-sk_r ^ 4 + sk_a2 * sk_r ^ 2))) / (2 * sk_a2 * sk_r ^ 4 + sk_r ^ 6 + sk_a2 ^ 2 * sk_r ^ 2). (* Kerr.c:578-584 *)
Definition sk_dl31 : R := (sk_aS1 * sk_aS3 + sk_ahat13 * sk_r) / (sk_a2 * sk_r + sk_r ^ 3) + (sk_dr1 * (2 * sk_acrossx3 * sk_r ^ 3 - sk_adotx * sk_aS3 * (sk_a2 + 3 * sk_r ^ 2) + x3 * (-sk_r ^ 4 + sk_a2 * sk_r ^ 2))) / (2 * sk_a2 * sk_r ^ 4 + sk_r ^ 6 + sk_a2 ^ 2 * sk_r ^ 2). (* Kerr.c:594-600 *)
Definition sk_dl32 : R := (sk_aS2 * sk_aS3 + sk_ahat23 * sk_r) / (sk_a2 * sk_r + sk_r ^ 3) + (sk_dr2 * (2 * sk_acrossx3 * sk_r ^ 3 - sk_adotx * sk_aS3 * (sk_a2 + 3 * sk_r ^ 2) + x3 * (-sk_r ^ 4 + sk_a2 * sk_r ^ 2))) / (2 * sk_a2 * sk_r ^ 4 + sk_r ^ 6 + sk_a2 ^ 2 * sk_r ^ 2). (* Kerr.c:602-608 *)
Definition sk_dl33 : R := (sk_aS3 ^ 2 + sk_r ^ 2) / (sk_a2 * sk_r + sk_r ^ 3) + (sk_dr3 * (2 * sk_acrossx3 * sk_r ^ 3 - sk_adotx * sk_aS3 * (sk_a2 + 3 * sk_r ^ 2) + x3 * (-sk_r ^ 4 + sk_a2 * sk_r ^ 2))) / (2 * sk_a2 * sk_r ^ 4 + sk_r ^ 6 + sk_a2 ^ 2 * sk_r ^ 2). (* Kerr.c:610-616 *)
Definition sk_dl00 : R := 0. (* Kerr.c:618-621; overwrites 490-496 *)
Definition sk_dl01 : R := 0. (* Kerr.c:623-626; overwrites 498-504 *)
Definition sk_dl02 : R := 0. (* Kerr.c:628-631; overwrites 506-512 *)
Definition sk_dl03 : R := 0. (* Kerr.c:633-636; overwrites 514-520 *)
Definition sk_dl10 : R := 0. (* Kerr.c:638-641; overwrites 522-528 *)
Definition sk_dl20 : R := 0. (* Kerr.c:643-646; overwrites 554-560 *)
Definition sk_dl30 : R := 0. (* Kerr.c:648-651; overwrites 586-592 *)
Definition sk_g00 : R := -1 + 2 * sk_H * sk_l0 ^ 2. (* Kerr.c:653-656 *)
Definition sk_g01 : R := 2 * sk_H * sk_l0 * sk_l1. (* Kerr.c:658-661 *)
Definition sk_g02 : R := 2 * sk_H * sk_l0 * sk_l2. (* Kerr.c:663-666 *)
Definition sk_g03 : R := 2 * sk_H * sk_l0 * sk_l3. (* Kerr.c:668-671 *)
Definition sk_g11 : R := 1 + 2 * sk_H * sk_l1 ^ 2. (* Kerr.c:673-676 *)
Definition sk_g12 : R := 2 * sk_H * sk_l1 * sk_l2. (* Kerr.c:678-681 *)
Definition sk_g13 : R := 2 * sk_H * sk_l1 * sk_l3. (* Kerr.c:683-686 *)
Definition sk_g22 : R := 1 + 2 * sk_H * sk_l2 ^ 2. (* Kerr.c:688-691 *)
Definition sk_g23 : R := 2 * sk_H * sk_l2 * sk_l3. (* Kerr.c:693-696 *)
Definition sk_g33 : R := 1 + 2 * sk_H * sk_l3 ^ 2. (* Kerr.c:698-701 *)
Definition sk_gup00 : R := -1 - 2 * sk_H * sk_lup0 ^ 2. (* Kerr.c:703-706 *)
Definition sk_gup01 : R := -2 * sk_H * sk_lup0 * sk_lup1. (* Kerr.c:708-711 *)
Definition sk_gup02 : R := -2 * sk_H * sk_lup0 * sk_lup2. (* Kerr.c:713-716 *)
Definition sk_gup03 : R := -2 * sk_H * sk_lup0 * sk_lup3. (* Kerr.c:718-721 *)
Definition sk_gup11 : R := 1 - 2 * sk_H * sk_lup1 ^ 2. (* Kerr.c:723-726 *)
Definition sk_gup12 : R := -2 * sk_H * sk_lup1 * sk_lup2. (* Kerr.c:728-731 *)
Definition sk_gup13 : R := -2 * sk_H * sk_lup1 * sk_lup3. (* Kerr.c:733-736 *)
Definition sk_gup22 : R := 1 - 2 * sk_H * sk_lup2 ^ 2. (* Kerr.c:738-741 *)
Definition sk_gup23 : R := -2 * sk_H * sk_lup2 * sk_lup3. (* Kerr.c:743-746 *)
Definition sk_gup33 : R := 1 - 2 * sk_H * sk_lup3 ^ 2. (* Kerr.c:748-751 *)
Definition sk_dg000 : R := 4 * sk_dl00 * sk_H * sk_l0 + 2 * sk_dH0 * sk_l0 ^ 2. (* Kerr.c:753-756 *)
Definition sk_dg001 : R := 4 * sk_dl01 * sk_H * sk_l0 + 2 * sk_dH1 * sk_l0 ^ 2. (* Kerr.c:758-761 *)
Definition sk_dg002 : R := 4 * sk_dl02 * sk_H * sk_l0 + 2 * sk_dH2 * sk_l0 ^ 2. (* Kerr.c:763-766 *)
Definition sk_dg003 : R := 4 * sk_dl03 * sk_H * sk_l0 + 2 * sk_dH3 * sk_l0 ^ 2. (* Kerr.c:768-771 *)
Definition sk_dg010 : R := 2 * (sk_dH0 * sk_l0 * sk_l1 + sk_H * (sk_dl10 * sk_l0 + sk_dl00 * sk_l1)). (* Kerr.c:773-776 *)
Definition sk_dg011 : R := 2 * (sk_dH1 * sk_l0 * sk_l1 + sk_H * (sk_dl11 * sk_l0 + sk_dl01 * sk_l1)). (* Kerr.c:778-781 *)
Definition sk_dg012 : R := 2 * (sk_dH2 * sk_l0 * sk_l1 + sk_H * (sk_dl12 * sk_l0 + sk_dl02 * sk_l1)). (* Kerr.c:783-786 *)
Definition sk_dg013 : R := 2 * (sk_dH3 * sk_l0 * sk_l1 + sk_H * (sk_dl13 * sk_l0 + sk_dl03 * sk_l1)). (* Kerr.c:788-791 *)
Definition sk_dg020 : R := 2 * (sk_dH0 * sk_l0 * sk_l2 + sk_H * (sk_dl20 * sk_l0 + sk_dl00 * sk_l2)). (* Kerr.c:793-796 *)
Definition sk_dg021 : R := 2 * (sk_dH1 * sk_l0 * sk_l2 + sk_H * (sk_dl21 * sk_l0 + sk_dl01 * sk_l2)). (* Kerr.c:798-801 *)
Definition sk_dg022 : R := 2 * (sk_dH2 * sk_l0 * sk_l2 + sk_H * (sk_dl22 * sk_l0 + sk_dl02 * sk_l2)). (* Kerr.c:803-806 *)
Definition sk_dg023 : R := 2 * (sk_dH3 * sk_l0 * sk_l2 + sk_H * (sk_dl23 * sk_l0 + sk_dl03 * sk_l2)). (* Kerr.c:808-811 *)
Definition sk_dg030 : R := 2 * (sk_dH0 * sk_l0 * sk_l3 + sk_H * (sk_dl30 * sk_l0 + sk_dl00 * sk_l3)). (* Kerr.c:813-816 *)
Definition sk_dg031 : R := 2 * (sk_dH1 * sk_l0 * sk_l3 + sk_H * (sk_dl31 * sk_l0 + sk_dl01 * sk_l3)). (* Kerr.c:818-821 *)
Definition sk_dg032 : R := 2 * (sk_dH2 * sk_l0 * sk_l3 + sk_H * (sk_dl32 * sk_l0 + sk_dl02 * sk_l3)). (* Kerr.c:823-826 *)
Definition sk_dg033 : R := 2 * (sk_dH3 * sk_l0 * sk_l3 + sk_H * (sk_dl33 * sk_l0 + sk_dl03 * sk_l3)). (* Kerr.c:828-831 *)
Definition sk_dg110 : R := 4 * sk_dl10 * sk_H * sk_l1 + 2 * sk_dH0 * sk_l1 ^ 2. (* Kerr.c:833-836 *)
Definition sk_dg111 : R := 4 * sk_dl11 * sk_H * sk_l1 + 2 * sk_dH1 * sk_l1 ^ 2. (* Kerr.c:838-841 *)
Definition sk_dg112 : R := 4 * sk_dl12 * sk_H * sk_l1 + 2 * sk_dH2 * sk_l1 ^ 2. (* Kerr.c:843-846 *)
Definition sk_dg113 : R := 4 * sk_dl13 * sk_H * sk_l1 + 2 * sk_dH3 * sk_l1 ^ 2. (* Kerr.c:848-851 *)
Definition sk_dg120 : R := 2 * (sk_dH0 * sk_l1 * sk_l2 + sk_H * (sk_dl20 * sk_l1 + sk_dl10 * sk_l2)). (* Kerr.c:853-856 *)
Definition sk_dg121 : R := 2 * (sk_dH1 * sk_l1 * sk_l2 + sk_H * (sk_dl21 * sk_l1 + sk_dl11 * sk_l2)). (* Kerr.c:858-861 *)
Definition sk_dg122 : R := 2 * (sk_dH2 * sk_l1 * sk_l2 + sk_H * (sk_dl22 * sk_l1 + sk_dl12 * sk_l2)). (* Kerr.c:863-866 *)
Definition sk_dg123 : R := 2 * (sk_dH3 * sk_l1 * sk_l2 + sk_H * (sk_dl23 * sk_l1 + sk_dl13 * sk_l2)). (* Kerr.c:868-871 *)
Definition sk_dg130 : R := 2 * (sk_dH0 * sk_l1 * sk_l3 + sk_H * (sk_dl30 * sk_l1 + sk_dl10 * sk_l3)). (* Kerr.c:873-876 *)
Definition sk_dg131 : R := 2 * (sk_dH1 * sk_l1 * sk_l3 + sk_H * (sk_dl31 * sk_l1 + sk_dl11 * sk_l3)). (* Kerr.c:878-881 *)
Definition sk_dg132 : R := 2 * (sk_dH2 * sk_l1 * sk_l3 + sk_H * (sk_dl32 * sk_l1 + sk_dl12 * sk_l3)). (* Kerr.c:883-886 *)
Definition sk_dg133 : R := 2 * (sk_dH3 * sk_l1 * sk_l3 + sk_H * (sk_dl33 * sk_l1 + sk_dl13 * sk_l3)). (* Kerr.c:888-891 *)
Definition sk_dg220 : R := 4 * sk_dl20 * sk_H * sk_l2 + 2 * sk_dH0 * sk_l2 ^ 2. (* Kerr.c:893-896 *)
Definition sk_dg221 : R := 4 * sk_dl21 * sk_H * sk_l2 + 2 * sk_dH1 * sk_l2 ^ 2. (* Kerr.c:898-901 *)
Definition sk_dg222 : R := 4 * sk_dl22 * sk_H * sk_l2 + 2 * sk_dH2 * sk_l2 ^ 2. (* Kerr.c:903-906 *)
Definition sk_dg223 : R := 4 * sk_dl23 * sk_H * sk_l2 + 2 * sk_dH3 * sk_l2 ^ 2. (* Kerr.c:908-911 *)
Definition sk_dg230 : R := 2 * (sk_dH0 * sk_l2 * sk_l3 + sk_H * (sk_dl30 * sk_l2 + sk_dl20 * sk_l3)). (* Kerr.c:913-916 *)
Definition sk_dg231 : R := 2 * (sk_dH1 * sk_l2 * sk_l3 + sk_H * (sk_dl31 * sk_l2 + sk_dl21 * sk_l3)). (* Kerr.c:918-921 *)
Definition sk_dg232 : R := 2 * (sk_dH2 * sk_l2 * sk_l3 + sk_H * (sk_dl32 * sk_l2 + sk_dl22 * sk_l3)). (* Kerr.c:923-926 *)
Definition sk_dg233 : R := 2 * (sk_dH3 * sk_l2 * sk_l3 + sk_H * (sk_dl33 * sk_l2 + sk_dl23 * sk_l3)). (* Kerr.c:928-931 *)
Definition sk_dg330 : R := 4 * sk_dl30 * sk_H * sk_l3 + 2 * sk_dH0 * sk_l3 ^ 2. (* Kerr.c:933-936 *)
Definition sk_dg331 : R := 4 * sk_dl31 * sk_H * sk_l3 + 2 * sk_dH1 * sk_l3 ^ 2. (* Kerr.c:938-941 *)
Definition sk_dg332 : R := 4 * sk_dl32 * sk_H * sk_l3 + 2 * sk_dH2 * sk_l3 ^ 2. (* Kerr.c:943-946 *)
Definition sk_dg333 : R := 4 * sk_dl33 * sk_H * sk_l3 + 2 * sk_dH3 * sk_l3 ^ 2. (* Kerr.c:948-951 *)
Definition sk_Gamdo000 : R := (1 / 2) * sk_dg000. (* Kerr.c:953-956 *)
Definition sk_Gamdo001 : R := (1 / 2) * sk_dg001. (* Kerr.c:958-961 *)
Definition sk_Gamdo002 : R := (1 / 2) * sk_dg002. (* Kerr.c:963-966 *)
Definition sk_Gamdo003 : R := (1 / 2) * sk_dg003. (* Kerr.c:968-971 *)
Definition sk_Gamdo011 : R := sk_dg011 - (1 / 2) * sk_dg110. (* Kerr.c:973-976 *)
Definition sk_Gamdo012 : R := (1 / 2) * (sk_dg012 + sk_dg021 - sk_dg120). (* Kerr.c:978-981 *)
Definition sk_Gamdo013 : R := (1 / 2) * (sk_dg013 + sk_dg031 - sk_dg130). (* Kerr.c:983-986 *)
Definition sk_Gamdo022 : R := sk_dg022 - (1 / 2) * sk_dg220. (* Kerr.c:988-991 *)
Definition sk_Gamdo023 : R := (1 / 2) * (sk_dg023 + sk_dg032 - sk_dg230). (* Kerr.c:993-996 *)
Definition sk_Gamdo033 : R := sk_dg033 - (1 / 2) * sk_dg330. (* Kerr.c:998-1001 *)
Definition sk_Gamdo100 : R := -(1 / 2) * sk_dg001 + sk_dg010. (* Kerr.c:1003-1006 *)
Definition sk_Gamdo101 : R := (1 / 2) * sk_dg110. (* Kerr.c:1008-1011 *)
Definition sk_Gamdo102 : R := (1 / 2) * (sk_dg012 - sk_dg021 + sk_dg120). (* Kerr.c:1013-1016 *)
Definition sk_Gamdo103 : R := (1 / 2) * (sk_dg013 - sk_dg031 + sk_dg130). (* Kerr.c:1018-1021 *)
Definition sk_Gamdo111 : R := (1 / 2) * sk_dg111. (* Kerr.c:1023-1026 *)
Definition sk_Gamdo112 : R := (1 / 2) * sk_dg112. (* Kerr.c:1028-1031 *)
Definition sk_Gamdo113 : R := (1 / 2) * sk_dg113. (* Kerr.c:1033-1036 *)
Definition sk_Gamdo122 : R := sk_dg122 - (1 / 2) * sk_dg221. (* Kerr.c:1038-1041 *)
Definition sk_Gamdo123 : R := (1 / 2) * (sk_dg123 + sk_dg132 - sk_dg231). (* Kerr.c:1043-1046 *)
Definition sk_Gamdo133 : R := sk_dg133 - (1 / 2) * sk_dg331. (* Kerr.c:1048-1051 *)
Definition sk_Gamdo200 : R := -(1 / 2) * sk_dg002 + sk_dg020. (* Kerr.c:1053-1056 *)
Definition sk_Gamdo201 : R := (1 / 2) * (-sk_dg012 + sk_dg021 + sk_dg120). (* Kerr.c:1058-1061 *)
Definition sk_Gamdo202 : R := (1 / 2) * sk_dg220. (* Kerr.c:1063-1066 *)
Definition sk_Gamdo203 : R := (1 / 2) * (sk_dg023 - sk_dg032 + sk_dg230). (* Kerr.c:1068-1071 *)
Definition sk_Gamdo211 : R := -(1 / 2) * sk_dg112 + sk_dg121. (* Kerr.c:1073-1076 *)
Definition sk_Gamdo212 : R := (1 / 2) * sk_dg221. (* Kerr.c:1078-1081 *)
Definition sk_Gamdo213 : R := (1 / 2) * (sk_dg123 - sk_dg132 + sk_dg231). (* Kerr.c:1083-1086 *)
Definition sk_Gamdo222 : R := (1 / 2) * sk_dg222. (* Kerr.c:1088-1091 *)
Definition sk_Gamdo223 : R := (1 / 2) * sk_dg223. (* Kerr.c:1093-1096 *)
Definition sk_Gamdo233 : R := sk_dg233 - (1 / 2) * sk_dg332. (* Kerr.c:1098-1101 *)
Definition sk_Gamdo300 : R := -(1 / 2) * sk_dg003 + sk_dg030. (* Kerr.c:1103-1106 *)
Definition sk_Gamdo301 : R := (1 / 2) * (-sk_dg013 + sk_dg031 + sk_dg130). (* Kerr.c:1108-1111 *)
Definition sk_Gamdo302 : R := (1 / 2) * (-sk_dg023 + sk_dg032 + sk_dg230). (* Kerr.c:1113-1116 *)
Definition sk_Gamdo303 : R := (1 / 2) * sk_dg330. (* Kerr.c:1118-1121 *)
Definition sk_Gamdo311 : R := -(1 / 2) * sk_dg113 + sk_dg131. (* Kerr.c:1123-1126 *)
Definition sk_Gamdo312 : R := (1 / 2) * (-sk_dg123 + sk_dg132 + sk_dg231). (* Kerr.c:1128-1131 *)
Definition sk_Gamdo313 : R := (1 / 2) * sk_dg331. (* Kerr.c:1133-1136 *)
Definition sk_Gamdo322 : R := -(1 / 2) * sk_dg223 + sk_dg232. (* Kerr.c:1138-1141 *)
Definition sk_Gamdo323 : R := (1 / 2) * sk_dg332. (* Kerr.c:1143-1146 *)
Definition sk_Gamdo333 : R := (1 / 2) * sk_dg333. (* Kerr.c:1148-1151 *)
Definition sk_Gam000 : R := sk_Gamdo000 * sk_gup00 + sk_Gamdo100 * sk_gup01 + sk_Gamdo200 * sk_gup02 + sk_Gamdo300 * sk_gup03. (* Kerr.c:1153-1157 *)
Definition sk_Gam001 : R := sk_Gamdo001 * sk_gup00 + sk_Gamdo101 * sk_gup01 + sk_Gamdo201 * sk_gup02 + sk_Gamdo301 * sk_gup03. (* Kerr.c:1159-1163 *)
Definition sk_Gam002 : R := sk_Gamdo002 * sk_gup00 + sk_Gamdo102 * sk_gup01 + sk_Gamdo202 * sk_gup02 + sk_Gamdo302 * sk_gup03. (* Kerr.c:1165-1169 *)
Definition sk_Gam003 : R := sk_Gamdo003 * sk_gup00 + sk_Gamdo103 * sk_gup01 + sk_Gamdo203 * sk_gup02 + sk_Gamdo303 * sk_gup03. (* Kerr.c:1171-1175 *)
Definition sk_Gam011 : R := sk_Gamdo011 * sk_gup00 + sk_Gamdo111 * sk_gup01 + sk_Gamdo211 * sk_gup02 + sk_Gamdo311 * sk_gup03. (* Kerr.c:1177-1181 *)
Definition sk_Gam012 : R := sk_Gamdo012 * sk_gup00 + sk_Gamdo112 * sk_gup01 + sk_Gamdo212 * sk_gup02 + sk_Gamdo312 * sk_gup03. (* Kerr.c:1183-1187 *)
Definition sk_Gam013 : R := sk_Gamdo013 * sk_gup00 + sk_Gamdo113 * sk_gup01 + sk_Gamdo213 * sk_gup02 + sk_Gamdo313 * sk_gup03. (* Kerr.c:1189-1193 *)
Definition sk_Gam022 : R := sk_Gamdo022 * sk_gup00 + sk_Gamdo122 * sk_gup01 + sk_Gamdo222 * sk_gup02 + sk_Gamdo322 * sk_gup03. (* Kerr.c:1195-1199 *)
Definition sk_Gam023 : R := sk_Gamdo023 * sk_gup00 + sk_Gamdo123 * sk_gup01 + sk_Gamdo223 * sk_gup02 + sk_Gamdo323 * sk_gup03. (* Kerr.c:1201-1205 *)
Definition sk_Gam033 : R := sk_Gamdo033 * sk_gup00 + sk_Gamdo133 * sk_gup01 + sk_Gamdo233 * sk_gup02 + sk_Gamdo333 * sk_gup03. (* Kerr.c:1207-1211 *)
Definition sk_Gam100 : R := sk_Gamdo000 * sk_gup01 + sk_Gamdo100 * sk_gup11 + sk_Gamdo200 * sk_gup12 + sk_Gamdo300 * sk_gup13. (* Kerr.c:1213-1217 *)
Definition sk_Gam101 : R := sk_Gamdo001 * sk_gup01 + sk_Gamdo101 * sk_gup11 + sk_Gamdo201 * sk_gup12 + sk_Gamdo301 * sk_gup13. (* Kerr.c:1219-1223 *)
Definition sk_Gam102 : R := sk_Gamdo002 * sk_gup01 + sk_Gamdo102 * sk_gup11 + sk_Gamdo202 * sk_gup12 + sk_Gamdo302 * sk_gup13. (* Kerr.c:1225-1229 *)
Definition sk_Gam103 : R := sk_Gamdo003 * sk_gup01 + sk_Gamdo103 * sk_gup11 + sk_Gamdo203 * sk_gup12 + sk_Gamdo303 * sk_gup13. (* Kerr.c:1231-1235 *)
Definition sk_Gam111 : R := sk_Gamdo011 * sk_gup01 + sk_Gamdo111 * sk_gup11 + sk_Gamdo211 * sk_gup12 + sk_Gamdo311 * sk_gup13. (* Kerr.c:1237-1241 *)
Definition sk_Gam112 : R := sk_Gamdo012 * sk_gup01 + sk_Gamdo112 * sk_gup11 + sk_Gamdo212 * sk_gup12 + sk_Gamdo312 * sk_gup13. (* Kerr.c:1243-1247 *)
Definition sk_Gam113 : R := sk_Gamdo013 * sk_gup01 + sk_Gamdo113 * sk_gup11 + sk_Gamdo213 * sk_gup12 + sk_Gamdo313 * sk_gup13. (* Kerr.c:1249-1253 *)
Definition sk_Gam122 : R := sk_Gamdo022 * sk_gup01 + sk_Gamdo122 * sk_gup11 + sk_Gamdo222 * sk_gup12 + sk_Gamdo322 * sk_gup13. (* Kerr.c:1255-1259 *)
Definition sk_Gam123 : R := sk_Gamdo023 * sk_gup01 + sk_Gamdo123 * sk_gup11 + sk_Gamdo223 * sk_gup12 + sk_Gamdo323 * sk_gup13. (* Kerr.c:1261-1265 *)
Definition sk_Gam133 : R := sk_Gamdo033 * sk_gup01 + sk_Gamdo133 * sk_gup11 + sk_Gamdo233 * sk_gup12 + sk_Gamdo333 * sk_gup13. (* Kerr.c:1267-1271 *)
Definition sk_Gam200 : R := sk_Gamdo000 * sk_gup02 + sk_Gamdo100 * sk_gup12 + sk_Gamdo200 * sk_gup22 + sk_Gamdo300 * sk_gup23. (* Kerr.c:1273-1277 *)
Definition sk_Gam201 : R := sk_Gamdo001 * sk_gup02 + sk_Gamdo101 * sk_gup12 + sk_Gamdo201 * sk_gup22 + sk_Gamdo301 * sk_gup23. (* Kerr.c:1279-1283 *)
Definition sk_Gam202 : R := sk_Gamdo002 * sk_gup02 + sk_Gamdo102 * sk_gup12 + sk_Gamdo202 * sk_gup22 + sk_Gamdo302 * sk_gup23. (* Kerr.c:1285-1289 *)
Definition sk_Gam203 : R := sk_Gamdo003 * sk_gup02 + sk_Gamdo103 * sk_gup12 + sk_Gamdo203 * sk_gup22 + sk_Gamdo303 * sk_gup23. (* Kerr.c:1291-1295 *)
Definition sk_Gam211 : R := sk_Gamdo011 * sk_gup02 + sk_Gamdo111 * sk_gup12 + sk_Gamdo211 * sk_gup22 + sk_Gamdo311 * sk_gup23. (* Kerr.c:1297-1301 *)
Definition sk_Gam212 : R := sk_Gamdo012 * sk_gup02 + sk_Gamdo112 * sk_gup12 + sk_Gamdo212 * sk_gup22 + sk_Gamdo312 * sk_gup23. (* Kerr.c:1303-1307 *)
Definition sk_Gam213 : R := sk_Gamdo013 * sk_gup02 + sk_Gamdo113 * sk_gup12 + sk_Gamdo213 * sk_gup22 + sk_Gamdo313 * sk_gup23. (* Kerr.c:1309-1313 *)
Definition sk_Gam222 : R := sk_Gamdo022 * sk_gup02 + sk_Gamdo122 * sk_gup12 + sk_Gamdo222 * sk_gup22 + sk_Gamdo322 * sk_gup23. (* Kerr.c:1315-1319 *)
Definition sk_Gam223 : R := sk_Gamdo023 * sk_gup02 + sk_Gamdo123 * sk_gup12 + sk_Gamdo223 * sk_gup22 + sk_Gamdo323 * sk_gup23. (* Kerr.c:1321-1325 *)
Definition sk_Gam233 : R := sk_Gamdo033 * sk_gup02 + sk_Gamdo133 * sk_gup12 + sk_Gamdo233 * sk_gup22 + sk_Gamdo333 * sk_gup23. (* Kerr.c:1327-1331 *)
Definition sk_Gam300 : R := sk_Gamdo000 * sk_gup03 + sk_Gamdo100 * sk_gup13 + sk_Gamdo200 * sk_gup23 + sk_Gamdo300 * sk_gup33. (* Kerr.c:1333-1337 *)
Definition sk_Gam301 : R := sk_Gamdo001 * sk_gup03 + sk_Gamdo101 * sk_gup13 + sk_Gamdo201 * sk_gup23 + sk_Gamdo301 * sk_gup33. (* Kerr.c:1339-1343 *)
Definition sk_Gam302 : R := sk_Gamdo002 * sk_gup03 + sk_Gamdo102 * sk_gup13 + sk_Gamdo202 * sk_gup23 + sk_Gamdo302 * sk_gup33. (* Kerr.c:1345-1349 *)
Definition sk_Gam303 : R := sk_Gamdo003 * sk_gup03 + sk_Gamdo103 * sk_gup13 + sk_Gamdo203 * sk_gup23 + sk_Gamdo303 * sk_gup33. (* Kerr.c:1351-1355 *)
Definition sk_Gam311 : R := sk_Gamdo011 * sk_gup03 + sk_Gamdo111 * sk_gup13 + sk_Gamdo211 * sk_gup23 + sk_Gamdo311 * sk_gup33. (* Kerr.c:1357-1361 *)
Definition sk_Gam312 : R := sk_Gamdo012 * sk_gup03 + sk_Gamdo112 * sk_gup13 + sk_Gamdo212 * sk_gup23 + sk_Gamdo312 * sk_gup33. (* Kerr.c:1363-1367 *)
Definition sk_Gam313 : R := sk_Gamdo013 * sk_gup03 + sk_Gamdo113 * sk_gup13 + sk_Gamdo213 * sk_gup23 + sk_Gamdo313 * sk_gup33. (* Kerr.c:1369-1373 *)
Definition sk_Gam322 : R := sk_Gamdo022 * sk_gup03 + sk_Gamdo122 * sk_gup13 + sk_Gamdo222 * sk_gup23 + sk_Gamdo322 * sk_gup33. (* Kerr.c:1375-1379 *)
Definition sk_Gam323 : R := sk_Gamdo023 * sk_gup03 + sk_Gamdo123 * sk_gup13 + sk_Gamdo223 * sk_gup23 + sk_Gamdo323 * sk_gup33. (* Kerr.c:1381-1385 *)
Definition sk_Gam333 : R := sk_Gamdo033 * sk_gup03 + sk_Gamdo133 * sk_gup13 + sk_Gamdo233 * sk_gup23 + sk_Gamdo333 * sk_gup33. (* Kerr.c:1387-1391 *)
Definition sk_G0 : R := sk_Gam000 * sk_gup00 + sk_Gam011 * sk_gup11 + sk_Gam022 * sk_gup22 + 2 * (sk_Gam001 * sk_gup01 + sk_Gam002 * sk_gup02 + sk_Gam003 * sk_gup03 + sk_Gam012 * sk_gup12 + sk_Gam013 * sk_gup13 + sk_Gam023 * sk_gup23) + sk_Gam033 * sk_gup33. (* Kerr.c:1393-1400 *)
Definition sk_G1 : R := sk_Gam100 * sk_gup00 + sk_Gam111 * sk_gup11 + sk_Gam122 * sk_gup22 + 2 * (sk_Gam101 * sk_gup01 + sk_Gam102 * sk_gup02 + sk_Gam103 * sk_gup03 + sk_Gam112 * sk_gup12 + sk_Gam113 * sk_gup13 + sk_Gam123 * sk_gup23) + sk_Gam133 * sk_gup33. (* Kerr.c:1402-1409 *)
Definition sk_G2 : R := sk_Gam200 * sk_gup00 + sk_Gam211 * sk_gup11 + sk_Gam222 * sk_gup22 + 2 * (sk_Gam201 * sk_gup01 + sk_Gam202 * sk_gup02 + sk_Gam203 * sk_gup03 + sk_Gam212 * sk_gup12 + sk_Gam213 * sk_gup13 + sk_Gam223 * sk_gup23) + sk_Gam233 * sk_gup33. (* Kerr.c:1411-1418 *)
Definition sk_G3 : R := sk_Gam300 * sk_gup00 + sk_Gam311 * sk_gup11 + sk_Gam322 * sk_gup22 + 2 * (sk_Gam301 * sk_gup01 + sk_Gam302 * sk_gup02 + sk_Gam303 * sk_gup03 + sk_Gam312 * sk_gup12 + sk_Gam313 * sk_gup13 + sk_Gam323 * sk_gup23) + sk_Gam333 * sk_gup33. (* Kerr.c:1420-1427 *)
(** the variables written at the point, in the order of their indices from i_g, i_gup, i_Gam and i_G: Kerr.c:36-99 *)
Definition kerr_g (n : nat) : R := match n with 0 => sk_g00 | 1 => sk_g01 | 2 => sk_g02 | 3 => sk_g03 | 4 => sk_g11 | 5 => sk_g12 | 6 => sk_g13 | 7 => sk_g22 | 8 => sk_g23 | 9 => sk_g33 | _ => R0 end%nat.
Definition kerr_gup (n : nat) : R := match n with 0 => sk_gup00 | 1 => sk_gup01 | 2 => sk_gup02 | 3 => sk_gup03 | 4 => sk_gup11 | 5 => sk_gup12 | 6 => sk_gup13 | 7 => sk_gup22 | 8 => sk_gup23 | 9 => sk_gup33 | _ => R0 end%nat.
Definition kerr_Gam (n : nat) : R := match n with 0 => sk_Gam000 | 1 => sk_Gam001 | 2 => sk_Gam002 | 3 => sk_Gam003 | 4 => sk_Gam011 | 5 => sk_Gam012 | 6 => sk_Gam013 | 7 => sk_Gam022 | 8 => sk_Gam023 | 9 => sk_Gam033 | 10 => sk_Gam100 | 11 => sk_Gam101 | 12 => sk_Gam102 | 13 => sk_Gam103 | 14 => sk_Gam111 | 15 => sk_Gam112 | 16 => sk_Gam113 | 17 => sk_Gam122 | 18 => sk_Gam123 | 19 => sk_Gam133 | 20 => sk_Gam200 | 21 => sk_Gam201 | 22 => sk_Gam202 | 23 => sk_Gam203 | 24 => sk_Gam211 | 25 => sk_Gam212 | 26 => sk_Gam213 | 27 => sk_Gam222 | 28 => sk_Gam223 | 29 => sk_Gam233 | 30 => sk_Gam300 | 31 => sk_Gam301 | 32 => sk_Gam302 | 33 => sk_Gam303 | 34 => sk_Gam311 | 35 => sk_Gam312 | 36 => sk_Gam313 | 37 => sk_Gam322 | 38 => sk_Gam323 | 39 => sk_Gam333 | _ => R0 end%nat.
Definition kerr_G (n : nat) : R := match n with 0 => sk_G0 | 1 => sk_G1 | 2 => sk_G2 | 3 => sk_G3 | _ => R0 end%nat.
End SK.
