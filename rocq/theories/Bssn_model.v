(** Model of src/physics/BSSN/BSSN_rhs.c: one time step, or the right hand sides, of the BSSN evolution equations at one grid point.
    One definition for each assignment of the straight-line C code, in the same order, with the same expression and the lines it comes from; a variable that is assigned again becomes a new definition with a number at the end of its name, and after a conditional there is a definition that chooses between the two.
    Simplifications: the values at one point, as real numbers; the derivatives (BSSN_rhs.c:656-703) are inputs; the literals 0.333..., 0.666...7 and 0.1666...7 with 16 or more digits are 1/3, 2/3, 1/6; pow with a real exponent is Rpower, which agrees with it for a positive base; usepsi is 1 (22), so 2179 is always true; the errorexit at 3366 is bs_error. *)
From Verif Require Import Rutil Adm_model.
Local Open Scope R_scope.
(** the parameters that are switches, BSSN_rhs.c:21-46 *)
Inductive bflag := FrecomputeAzz | Frecomputegzz | FsubtractA | Fnormalizedetg | FGReplacedBydg | FGentlePhiRHS | FdensitizedLapse | FdensitizedoplogWithoutShift | FevolveGamma | Fnonconstantlapse | Foploglapse | Foploglapse2 | Foplogwithshift | Fharmoniclapse | FsubtractK0 | Faddliealpha | FaddalphaRHSterm | FforceKzerofactor | Fgamma0factor | Fgamma2factor | Fevolveshift.
(** the numerical parameters, 29-52 *)
Inductive bpar := PYoTermFactor | PRtoRminusHfactor | PalphaDensityWeight | Plapsepsipower | Plapseharmonicf | Pshiftpsipower | Pshiftalphapower | Pshiftgammacoeff | Pshiftdriver.
(** The values at the point: K_initial, psiandderivs, ucur, upre, the derivatives of g, A, phi, G, K, alpha, beta, the term alphaRHS, and dt (BSSN_rhs.c:64-317) *)
Record bs_in := MkBs { s_K0 : R; s_psi : nat -> R; s_u : nat -> R; s_pre : nat -> R; s_dg : nat -> R; s_ddg : nat -> R; s_dA : nat -> R; s_dphi : nat -> R; s_ddphi : nat -> R; s_dG : nat -> R; s_dK : nat -> R;
  s_dalp : nat -> R; s_ddalp : nat -> R; s_dbeta : nat -> R; s_ddbeta : nat -> R; s_rhs : R; s_dt : R; s_flag : bflag -> bool; s_par : bpar -> R }.
(** BSSN_rhs.c:21 *)
Definition bs_addlinear (a : bs_in) : bool := if Req_EM_T (s_dt a) 0 then false else true.
Definition bs_evolveGamma (a : bs_in) : R := if s_flag a FevolveGamma then 1 else 0. (* BSSN_rhs.c:32 *)
Definition bs_nonconstantlapse (a : bs_in) : R := if s_flag a Fnonconstantlapse then 1 else 0. (* BSSN_rhs.c:35 *)
Definition bs_oploglapse (a : bs_in) : R := if s_flag a Foploglapse then 1 else 0. (* BSSN_rhs.c:36 *)
Definition bs_oploglapse2 (a : bs_in) : R := if s_flag a Foploglapse2 then 1 else 0. (* BSSN_rhs.c:37 *)
Definition bs_oplogwithshift (a : bs_in) : R := if s_flag a Foplogwithshift then 1 else 0. (* BSSN_rhs.c:38 *)
Definition bs_harmoniclapse (a : bs_in) : R := if s_flag a Fharmoniclapse then 1 else 0. (* BSSN_rhs.c:39 *)
Definition bs_subtractK0 (a : bs_in) : R := if s_flag a FsubtractK0 then 1 else 0. (* BSSN_rhs.c:40 *)
Definition bs_addliealpha (a : bs_in) : R := if s_flag a Faddliealpha then 1 else 0. (* BSSN_rhs.c:41 *)
Definition bs_addalphaRHSterm (a : bs_in) : R := if s_flag a FaddalphaRHSterm then 1 else 0. (* BSSN_rhs.c:42 *)
Definition bs_forceKzerofactor (a : bs_in) : R := if s_flag a FforceKzerofactor then 1 else 0. (* BSSN_rhs.c:25 *)
Definition bs_gamma0factor (a : bs_in) : R := if s_flag a Fgamma0factor then 1 else 0. (* BSSN_rhs.c:46 *)
Definition bs_gamma2factor (a : bs_in) : R := if s_flag a Fgamma2factor then 1 else 0. (* BSSN_rhs.c:47 *)
Definition bs_evolveshift (a : bs_in) : R := if s_flag a Fevolveshift then 1 else 0. (* BSSN_rhs.c:49 *)
Definition bs_YoTermFactor (a : bs_in) : R := s_par a PYoTermFactor. (* BSSN_rhs.c:31 *)
Definition bs_RtoRminusHfactor (a : bs_in) : R := s_par a PRtoRminusHfactor. (* BSSN_rhs.c:33 *)
Definition bs_alphaDensityWeight (a : bs_in) : R := s_par a PalphaDensityWeight. (* BSSN_rhs.c:45 *)
Definition bs_lapsepsipower (a : bs_in) : R := s_par a Plapsepsipower. (* BSSN_rhs.c:50 *)
Definition bs_lapseharmonicf (a : bs_in) : R := s_par a Plapseharmonicf. (* BSSN_rhs.c:51 *)
Definition bs_shiftpsipower (a : bs_in) : R := s_par a Pshiftpsipower. (* BSSN_rhs.c:52 *)
Definition bs_shiftalphapower (a : bs_in) : R := s_par a Pshiftalphapower. (* BSSN_rhs.c:53 *)
Definition bs_shiftgammacoeff (a : bs_in) : R := s_par a Pshiftgammacoeff. (* BSSN_rhs.c:54 *)
Definition bs_shiftdriver (a : bs_in) : R := s_par a Pshiftdriver. (* BSSN_rhs.c:55 *)
Definition bs_dt (a : bs_in) : R := s_dt a. (* BSSN_rhs.c:17 *)
Definition bs_K0 (a : bs_in) : R := s_K0 a. (* BSSN_rhs.c:64 *)
Definition bs_psi (a : bs_in) : R := s_psi a 0. (* BSSN_rhs.c:65 *)
Definition bs_dpop1 (a : bs_in) : R := s_psi a 1. (* BSSN_rhs.c:66 *)
Definition bs_dpop2 (a : bs_in) : R := s_psi a 2. (* BSSN_rhs.c:67 *)
Definition bs_dpop3 (a : bs_in) : R := s_psi a 3. (* BSSN_rhs.c:68 *)
Definition bs_ddpop11 (a : bs_in) : R := s_psi a 4. (* BSSN_rhs.c:69 *)
Definition bs_ddpop12 (a : bs_in) : R := s_psi a 5. (* BSSN_rhs.c:70 *)
Definition bs_ddpop13 (a : bs_in) : R := s_psi a 6. (* BSSN_rhs.c:71 *)
Definition bs_ddpop22 (a : bs_in) : R := s_psi a 7. (* BSSN_rhs.c:72 *)
Definition bs_ddpop23 (a : bs_in) : R := s_psi a 8. (* BSSN_rhs.c:73 *)
Definition bs_ddpop33 (a : bs_in) : R := s_psi a 9. (* BSSN_rhs.c:74 *)
Definition bs_g11 (a : bs_in) : R := s_u a 0. (* BSSN_rhs.c:75 *)
Definition bs_g12 (a : bs_in) : R := s_u a 1. (* BSSN_rhs.c:76 *)
Definition bs_g13 (a : bs_in) : R := s_u a 2. (* BSSN_rhs.c:77 *)
Definition bs_g22 (a : bs_in) : R := s_u a 3. (* BSSN_rhs.c:78 *)
Definition bs_g23 (a : bs_in) : R := s_u a 4. (* BSSN_rhs.c:79 *)
Definition bs_g33 (a : bs_in) : R := s_u a 5. (* BSSN_rhs.c:80 *)
Definition bs_phi (a : bs_in) : R := s_u a 6. (* BSSN_rhs.c:81 *)
Definition bs_A11 (a : bs_in) : R := s_u a 7. (* BSSN_rhs.c:82 *)
Definition bs_A12 (a : bs_in) : R := s_u a 8. (* BSSN_rhs.c:83 *)
Definition bs_A13 (a : bs_in) : R := s_u a 9. (* BSSN_rhs.c:84 *)
Definition bs_A22 (a : bs_in) : R := s_u a 10. (* BSSN_rhs.c:85 *)
Definition bs_A23 (a : bs_in) : R := s_u a 11. (* BSSN_rhs.c:86 *)
Definition bs_A33 (a : bs_in) : R := s_u a 12. (* BSSN_rhs.c:87 *)
Definition bs_K (a : bs_in) : R := s_u a 13. (* BSSN_rhs.c:88 *)
Definition bs_G1 (a : bs_in) : R := s_u a 14. (* BSSN_rhs.c:89 *)
Definition bs_G2 (a : bs_in) : R := s_u a 15. (* BSSN_rhs.c:90 *)
Definition bs_G3 (a : bs_in) : R := s_u a 16. (* BSSN_rhs.c:91 *)
Definition bs_alpha (a : bs_in) : R := s_u a 17. (* BSSN_rhs.c:92 *)
Definition bs_beta1 (a : bs_in) : R := s_u a 18. (* BSSN_rhs.c:93 *)
Definition bs_beta2 (a : bs_in) : R := s_u a 19. (* BSSN_rhs.c:94 *)
Definition bs_beta3 (a : bs_in) : R := s_u a 20. (* BSSN_rhs.c:95 *)
Definition bs_B1 (a : bs_in) : R := s_u a 21. (* BSSN_rhs.c:96 *)
Definition bs_B2 (a : bs_in) : R := s_u a 22. (* BSSN_rhs.c:97 *)
Definition bs_B3 (a : bs_in) : R := s_u a 23. (* BSSN_rhs.c:98 *)
Definition bs_alphaDensity (a : bs_in) : R := s_u a 24. (* BSSN_rhs.c:99 *)
Definition bs_pg11 (a : bs_in) : R := s_pre a 0. (* BSSN_rhs.c:125 *)
Definition bs_pg12 (a : bs_in) : R := s_pre a 1. (* BSSN_rhs.c:126 *)
Definition bs_pg13 (a : bs_in) : R := s_pre a 2. (* BSSN_rhs.c:127 *)
Definition bs_pg22 (a : bs_in) : R := s_pre a 3. (* BSSN_rhs.c:128 *)
Definition bs_pg23 (a : bs_in) : R := s_pre a 4. (* BSSN_rhs.c:129 *)
Definition bs_pg33 (a : bs_in) : R := s_pre a 5. (* BSSN_rhs.c:130 *)
Definition bs_pphi (a : bs_in) : R := s_pre a 6. (* BSSN_rhs.c:131 *)
Definition bs_pA11 (a : bs_in) : R := s_pre a 7. (* BSSN_rhs.c:132 *)
Definition bs_pA12 (a : bs_in) : R := s_pre a 8. (* BSSN_rhs.c:133 *)
Definition bs_pA13 (a : bs_in) : R := s_pre a 9. (* BSSN_rhs.c:134 *)
Definition bs_pA22 (a : bs_in) : R := s_pre a 10. (* BSSN_rhs.c:135 *)
Definition bs_pA23 (a : bs_in) : R := s_pre a 11. (* BSSN_rhs.c:136 *)
Definition bs_pA33 (a : bs_in) : R := s_pre a 12. (* BSSN_rhs.c:137 *)
Definition bs_pK (a : bs_in) : R := s_pre a 13. (* BSSN_rhs.c:138 *)
Definition bs_pG1 (a : bs_in) : R := s_pre a 14. (* BSSN_rhs.c:139 *)
Definition bs_pG2 (a : bs_in) : R := s_pre a 15. (* BSSN_rhs.c:140 *)
Definition bs_pG3 (a : bs_in) : R := s_pre a 16. (* BSSN_rhs.c:141 *)
Definition bs_palpha (a : bs_in) : R := s_pre a 17. (* BSSN_rhs.c:142 *)
Definition bs_pbeta1 (a : bs_in) : R := s_pre a 18. (* BSSN_rhs.c:143 *)
Definition bs_pbeta2 (a : bs_in) : R := s_pre a 19. (* BSSN_rhs.c:144 *)
Definition bs_pbeta3 (a : bs_in) : R := s_pre a 20. (* BSSN_rhs.c:145 *)
Definition bs_pB1 (a : bs_in) : R := s_pre a 21. (* BSSN_rhs.c:146 *)
Definition bs_pB2 (a : bs_in) : R := s_pre a 22. (* BSSN_rhs.c:147 *)
Definition bs_pB3 (a : bs_in) : R := s_pre a 23. (* BSSN_rhs.c:148 *)
Definition bs_palphaDensity (a : bs_in) : R := s_pre a 24. (* BSSN_rhs.c:149 *)
Definition bs_dgt111 (a : bs_in) : R := s_dg a 0. (* BSSN_rhs.c:176 *)
Definition bs_dgt112 (a : bs_in) : R := s_dg a 1. (* BSSN_rhs.c:177 *)
Definition bs_dgt113 (a : bs_in) : R := s_dg a 2. (* BSSN_rhs.c:178 *)
Definition bs_dgt121 (a : bs_in) : R := s_dg a 3. (* BSSN_rhs.c:179 *)
Definition bs_dgt122 (a : bs_in) : R := s_dg a 4. (* BSSN_rhs.c:180 *)
Definition bs_dgt123 (a : bs_in) : R := s_dg a 5. (* BSSN_rhs.c:181 *)
Definition bs_dgt131 (a : bs_in) : R := s_dg a 6. (* BSSN_rhs.c:182 *)
Definition bs_dgt132 (a : bs_in) : R := s_dg a 7. (* BSSN_rhs.c:183 *)
Definition bs_dgt133 (a : bs_in) : R := s_dg a 8. (* BSSN_rhs.c:184 *)
Definition bs_dgt221 (a : bs_in) : R := s_dg a 9. (* BSSN_rhs.c:185 *)
Definition bs_dgt222 (a : bs_in) : R := s_dg a 10. (* BSSN_rhs.c:186 *)
Definition bs_dgt223 (a : bs_in) : R := s_dg a 11. (* BSSN_rhs.c:187 *)
Definition bs_dgt231 (a : bs_in) : R := s_dg a 12. (* BSSN_rhs.c:188 *)
Definition bs_dgt232 (a : bs_in) : R := s_dg a 13. (* BSSN_rhs.c:189 *)
Definition bs_dgt233 (a : bs_in) : R := s_dg a 14. (* BSSN_rhs.c:190 *)
Definition bs_dgt331 (a : bs_in) : R := s_dg a 15. (* BSSN_rhs.c:191 *)
Definition bs_dgt332 (a : bs_in) : R := s_dg a 16. (* BSSN_rhs.c:192 *)
Definition bs_dgt333 (a : bs_in) : R := s_dg a 17. (* BSSN_rhs.c:193 *)
Definition bs_ddgt1111 (a : bs_in) : R := s_ddg a 0. (* BSSN_rhs.c:195 *)
Definition bs_ddgt1112 (a : bs_in) : R := s_ddg a 1. (* BSSN_rhs.c:196 *)
Definition bs_ddgt1113 (a : bs_in) : R := s_ddg a 2. (* BSSN_rhs.c:197 *)
Definition bs_ddgt1122 (a : bs_in) : R := s_ddg a 3. (* BSSN_rhs.c:198 *)
Definition bs_ddgt1123 (a : bs_in) : R := s_ddg a 4. (* BSSN_rhs.c:199 *)
Definition bs_ddgt1133 (a : bs_in) : R := s_ddg a 5. (* BSSN_rhs.c:200 *)
Definition bs_ddgt1211 (a : bs_in) : R := s_ddg a 6. (* BSSN_rhs.c:201 *)
Definition bs_ddgt1212 (a : bs_in) : R := s_ddg a 7. (* BSSN_rhs.c:202 *)
Definition bs_ddgt1213 (a : bs_in) : R := s_ddg a 8. (* BSSN_rhs.c:203 *)
Definition bs_ddgt1222 (a : bs_in) : R := s_ddg a 9. (* BSSN_rhs.c:204 *)
Definition bs_ddgt1223 (a : bs_in) : R := s_ddg a 10. (* BSSN_rhs.c:205 *)
Definition bs_ddgt1233 (a : bs_in) : R := s_ddg a 11. (* BSSN_rhs.c:206 *)
Definition bs_ddgt1311 (a : bs_in) : R := s_ddg a 12. (* BSSN_rhs.c:207 *)
Definition bs_ddgt1312 (a : bs_in) : R := s_ddg a 13. (* BSSN_rhs.c:208 *)
Definition bs_ddgt1313 (a : bs_in) : R := s_ddg a 14. (* BSSN_rhs.c:209 *)
Definition bs_ddgt1322 (a : bs_in) : R := s_ddg a 15. (* BSSN_rhs.c:210 *)
Definition bs_ddgt1323 (a : bs_in) : R := s_ddg a 16. (* BSSN_rhs.c:211 *)
Definition bs_ddgt1333 (a : bs_in) : R := s_ddg a 17. (* BSSN_rhs.c:212 *)
Definition bs_ddgt2211 (a : bs_in) : R := s_ddg a 18. (* BSSN_rhs.c:213 *)
Definition bs_ddgt2212 (a : bs_in) : R := s_ddg a 19. (* BSSN_rhs.c:214 *)
Definition bs_ddgt2213 (a : bs_in) : R := s_ddg a 20. (* BSSN_rhs.c:215 *)
Definition bs_ddgt2222 (a : bs_in) : R := s_ddg a 21. (* BSSN_rhs.c:216 *)
Definition bs_ddgt2223 (a : bs_in) : R := s_ddg a 22. (* BSSN_rhs.c:217 *)
Definition bs_ddgt2233 (a : bs_in) : R := s_ddg a 23. (* BSSN_rhs.c:218 *)
Definition bs_ddgt2311 (a : bs_in) : R := s_ddg a 24. (* BSSN_rhs.c:219 *)
Definition bs_ddgt2312 (a : bs_in) : R := s_ddg a 25. (* BSSN_rhs.c:220 *)
Definition bs_ddgt2313 (a : bs_in) : R := s_ddg a 26. (* BSSN_rhs.c:221 *)
Definition bs_ddgt2322 (a : bs_in) : R := s_ddg a 27. (* BSSN_rhs.c:222 *)
Definition bs_ddgt2323 (a : bs_in) : R := s_ddg a 28. (* BSSN_rhs.c:223 *)
Definition bs_ddgt2333 (a : bs_in) : R := s_ddg a 29. (* BSSN_rhs.c:224 *)
Definition bs_ddgt3311 (a : bs_in) : R := s_ddg a 30. (* BSSN_rhs.c:225 *)
Definition bs_ddgt3312 (a : bs_in) : R := s_ddg a 31. (* BSSN_rhs.c:226 *)
Definition bs_ddgt3313 (a : bs_in) : R := s_ddg a 32. (* BSSN_rhs.c:227 *)
Definition bs_ddgt3322 (a : bs_in) : R := s_ddg a 33. (* BSSN_rhs.c:228 *)
Definition bs_ddgt3323 (a : bs_in) : R := s_ddg a 34. (* BSSN_rhs.c:229 *)
Definition bs_ddgt3333 (a : bs_in) : R := s_ddg a 35. (* BSSN_rhs.c:230 *)
Definition bs_dAt111 (a : bs_in) : R := s_dA a 0. (* BSSN_rhs.c:232 *)
Definition bs_dAt112 (a : bs_in) : R := s_dA a 1. (* BSSN_rhs.c:233 *)
Definition bs_dAt113 (a : bs_in) : R := s_dA a 2. (* BSSN_rhs.c:234 *)
Definition bs_dAt121 (a : bs_in) : R := s_dA a 3. (* BSSN_rhs.c:235 *)
Definition bs_dAt122 (a : bs_in) : R := s_dA a 4. (* BSSN_rhs.c:236 *)
Definition bs_dAt123 (a : bs_in) : R := s_dA a 5. (* BSSN_rhs.c:237 *)
Definition bs_dAt131 (a : bs_in) : R := s_dA a 6. (* BSSN_rhs.c:238 *)
Definition bs_dAt132 (a : bs_in) : R := s_dA a 7. (* BSSN_rhs.c:239 *)
Definition bs_dAt133 (a : bs_in) : R := s_dA a 8. (* BSSN_rhs.c:240 *)
Definition bs_dAt221 (a : bs_in) : R := s_dA a 9. (* BSSN_rhs.c:241 *)
Definition bs_dAt222 (a : bs_in) : R := s_dA a 10. (* BSSN_rhs.c:242 *)
Definition bs_dAt223 (a : bs_in) : R := s_dA a 11. (* BSSN_rhs.c:243 *)
Definition bs_dAt231 (a : bs_in) : R := s_dA a 12. (* BSSN_rhs.c:244 *)
Definition bs_dAt232 (a : bs_in) : R := s_dA a 13. (* BSSN_rhs.c:245 *)
Definition bs_dAt233 (a : bs_in) : R := s_dA a 14. (* BSSN_rhs.c:246 *)
Definition bs_dAt331 (a : bs_in) : R := s_dA a 15. (* BSSN_rhs.c:247 *)
Definition bs_dAt332 (a : bs_in) : R := s_dA a 16. (* BSSN_rhs.c:248 *)
Definition bs_dAt333 (a : bs_in) : R := s_dA a 17. (* BSSN_rhs.c:249 *)
Definition bs_dphi1 (a : bs_in) : R := s_dphi a 0. (* BSSN_rhs.c:251 *)
Definition bs_dphi2 (a : bs_in) : R := s_dphi a 1. (* BSSN_rhs.c:252 *)
Definition bs_dphi3 (a : bs_in) : R := s_dphi a 2. (* BSSN_rhs.c:253 *)
Definition bs_ddphi11 (a : bs_in) : R := s_ddphi a 0. (* BSSN_rhs.c:255 *)
Definition bs_ddphi12 (a : bs_in) : R := s_ddphi a 1. (* BSSN_rhs.c:256 *)
Definition bs_ddphi13 (a : bs_in) : R := s_ddphi a 2. (* BSSN_rhs.c:257 *)
Definition bs_ddphi22 (a : bs_in) : R := s_ddphi a 3. (* BSSN_rhs.c:258 *)
Definition bs_ddphi23 (a : bs_in) : R := s_ddphi a 4. (* BSSN_rhs.c:259 *)
Definition bs_ddphi33 (a : bs_in) : R := s_ddphi a 5. (* BSSN_rhs.c:260 *)
Definition bs_dGt11 (a : bs_in) : R := s_dG a 0. (* BSSN_rhs.c:262 *)
Definition bs_dGt12 (a : bs_in) : R := s_dG a 1. (* BSSN_rhs.c:263 *)
Definition bs_dGt13 (a : bs_in) : R := s_dG a 2. (* BSSN_rhs.c:264 *)
Definition bs_dGt21 (a : bs_in) : R := s_dG a 3. (* BSSN_rhs.c:265 *)
Definition bs_dGt22 (a : bs_in) : R := s_dG a 4. (* BSSN_rhs.c:266 *)
Definition bs_dGt23 (a : bs_in) : R := s_dG a 5. (* BSSN_rhs.c:267 *)
Definition bs_dGt31 (a : bs_in) : R := s_dG a 6. (* BSSN_rhs.c:268 *)
Definition bs_dGt32 (a : bs_in) : R := s_dG a 7. (* BSSN_rhs.c:269 *)
Definition bs_dGt33 (a : bs_in) : R := s_dG a 8. (* BSSN_rhs.c:270 *)
Definition bs_dK1 (a : bs_in) : R := s_dK a 0. (* BSSN_rhs.c:272 *)
Definition bs_dK2 (a : bs_in) : R := s_dK a 1. (* BSSN_rhs.c:273 *)
Definition bs_dK3 (a : bs_in) : R := s_dK a 2. (* BSSN_rhs.c:274 *)
Definition bs_dalp1 (a : bs_in) : R := s_dalp a 0. (* BSSN_rhs.c:276 *)
Definition bs_dalp2 (a : bs_in) : R := s_dalp a 1. (* BSSN_rhs.c:277 *)
Definition bs_dalp3 (a : bs_in) : R := s_dalp a 2. (* BSSN_rhs.c:278 *)
Definition bs_ddalp11 (a : bs_in) : R := s_ddalp a 0. (* BSSN_rhs.c:280 *)
Definition bs_ddalp12 (a : bs_in) : R := s_ddalp a 1. (* BSSN_rhs.c:281 *)
Definition bs_ddalp13 (a : bs_in) : R := s_ddalp a 2. (* BSSN_rhs.c:282 *)
Definition bs_ddalp22 (a : bs_in) : R := s_ddalp a 3. (* BSSN_rhs.c:283 *)
Definition bs_ddalp23 (a : bs_in) : R := s_ddalp a 4. (* BSSN_rhs.c:284 *)
Definition bs_ddalp33 (a : bs_in) : R := s_ddalp a 5. (* BSSN_rhs.c:285 *)
Definition bs_dbeta11 (a : bs_in) : R := s_dbeta a 0. (* BSSN_rhs.c:287 *)
Definition bs_dbeta12 (a : bs_in) : R := s_dbeta a 1. (* BSSN_rhs.c:288 *)
Definition bs_dbeta13 (a : bs_in) : R := s_dbeta a 2. (* BSSN_rhs.c:289 *)
Definition bs_dbeta21 (a : bs_in) : R := s_dbeta a 3. (* BSSN_rhs.c:290 *)
Definition bs_dbeta22 (a : bs_in) : R := s_dbeta a 4. (* BSSN_rhs.c:291 *)
Definition bs_dbeta23 (a : bs_in) : R := s_dbeta a 5. (* BSSN_rhs.c:292 *)
Definition bs_dbeta31 (a : bs_in) : R := s_dbeta a 6. (* BSSN_rhs.c:293 *)
Definition bs_dbeta32 (a : bs_in) : R := s_dbeta a 7. (* BSSN_rhs.c:294 *)
Definition bs_dbeta33 (a : bs_in) : R := s_dbeta a 8. (* BSSN_rhs.c:295 *)
Definition bs_ddbeta111 (a : bs_in) : R := s_ddbeta a 0. (* BSSN_rhs.c:297 *)
Definition bs_ddbeta112 (a : bs_in) : R := s_ddbeta a 1. (* BSSN_rhs.c:298 *)
Definition bs_ddbeta113 (a : bs_in) : R := s_ddbeta a 2. (* BSSN_rhs.c:299 *)
Definition bs_ddbeta122 (a : bs_in) : R := s_ddbeta a 3. (* BSSN_rhs.c:300 *)
Definition bs_ddbeta123 (a : bs_in) : R := s_ddbeta a 4. (* BSSN_rhs.c:301 *)
Definition bs_ddbeta133 (a : bs_in) : R := s_ddbeta a 5. (* BSSN_rhs.c:302 *)
Definition bs_ddbeta211 (a : bs_in) : R := s_ddbeta a 6. (* BSSN_rhs.c:303 *)
Definition bs_ddbeta212 (a : bs_in) : R := s_ddbeta a 7. (* BSSN_rhs.c:304 *)
Definition bs_ddbeta213 (a : bs_in) : R := s_ddbeta a 8. (* BSSN_rhs.c:305 *)
Definition bs_ddbeta222 (a : bs_in) : R := s_ddbeta a 9. (* BSSN_rhs.c:306 *)
Definition bs_ddbeta223 (a : bs_in) : R := s_ddbeta a 10. (* BSSN_rhs.c:307 *)
Definition bs_ddbeta233 (a : bs_in) : R := s_ddbeta a 11. (* BSSN_rhs.c:308 *)
Definition bs_ddbeta311 (a : bs_in) : R := s_ddbeta a 12. (* BSSN_rhs.c:309 *)
Definition bs_ddbeta312 (a : bs_in) : R := s_ddbeta a 13. (* BSSN_rhs.c:310 *)
Definition bs_ddbeta313 (a : bs_in) : R := s_ddbeta a 14. (* BSSN_rhs.c:311 *)
Definition bs_ddbeta322 (a : bs_in) : R := s_ddbeta a 15. (* BSSN_rhs.c:312 *)
Definition bs_ddbeta323 (a : bs_in) : R := s_ddbeta a 16. (* BSSN_rhs.c:313 *)
Definition bs_ddbeta333 (a : bs_in) : R := s_ddbeta a 17. (* BSSN_rhs.c:314 *)
Definition bs_alphaRHS (a : bs_in) : R := s_rhs a. (* BSSN_rhs.c:316 *)
Definition bs_df1 (a : bs_in) : R := (bs_dphi1 a). (* BSSN_rhs.c:710-713 *)
Definition bs_df2 (a : bs_in) : R := (bs_dphi2 a). (* BSSN_rhs.c:715-718 *)
Definition bs_df3 (a : bs_in) : R := (bs_dphi3 a). (* BSSN_rhs.c:720-723 *)
Definition bs_ddf11 (a : bs_in) : R := (bs_ddphi11 a). (* BSSN_rhs.c:725-728 *)
Definition bs_ddf12 (a : bs_in) : R := (bs_ddphi12 a). (* BSSN_rhs.c:730-733 *)
Definition bs_ddf13 (a : bs_in) : R := (bs_ddphi13 a). (* BSSN_rhs.c:735-738 *)
Definition bs_ddf22 (a : bs_in) : R := (bs_ddphi22 a). (* BSSN_rhs.c:740-743 *)
Definition bs_ddf23 (a : bs_in) : R := (bs_ddphi23 a). (* BSSN_rhs.c:745-748 *)
Definition bs_ddf33 (a : bs_in) : R := (bs_ddphi33 a). (* BSSN_rhs.c:750-753 *)
Definition bs_da1 (a : bs_in) : R := (bs_dalp1 a). (* BSSN_rhs.c:755-758 *)
Definition bs_da2 (a : bs_in) : R := (bs_dalp2 a). (* BSSN_rhs.c:760-763 *)
Definition bs_da3 (a : bs_in) : R := (bs_dalp3 a). (* BSSN_rhs.c:765-768 *)
Definition bs_dda11 (a : bs_in) : R := (bs_ddalp11 a). (* BSSN_rhs.c:770-773 *)
Definition bs_dda12 (a : bs_in) : R := (bs_ddalp12 a). (* BSSN_rhs.c:775-778 *)
Definition bs_dda13 (a : bs_in) : R := (bs_ddalp13 a). (* BSSN_rhs.c:780-783 *)
Definition bs_dda22 (a : bs_in) : R := (bs_ddalp22 a). (* BSSN_rhs.c:785-788 *)
Definition bs_dda23 (a : bs_in) : R := (bs_ddalp23 a). (* BSSN_rhs.c:790-793 *)
Definition bs_dda33 (a : bs_in) : R := (bs_ddalp33 a). (* BSSN_rhs.c:795-798 *)
Definition bs_db11 (a : bs_in) : R := (bs_dbeta11 a). (* BSSN_rhs.c:800-803 *)
Definition bs_db12 (a : bs_in) : R := (bs_dbeta21 a). (* BSSN_rhs.c:805-808 *)
Definition bs_db13 (a : bs_in) : R := (bs_dbeta31 a). (* BSSN_rhs.c:810-813 *)
Definition bs_db21 (a : bs_in) : R := (bs_dbeta12 a). (* BSSN_rhs.c:815-818 *)
Definition bs_db22 (a : bs_in) : R := (bs_dbeta22 a). (* BSSN_rhs.c:820-823 *)
Definition bs_db23 (a : bs_in) : R := (bs_dbeta32 a). (* BSSN_rhs.c:825-828 *)
Definition bs_db31 (a : bs_in) : R := (bs_dbeta13 a). (* BSSN_rhs.c:830-833 *)
Definition bs_db32 (a : bs_in) : R := (bs_dbeta23 a). (* BSSN_rhs.c:835-838 *)
Definition bs_db33 (a : bs_in) : R := (bs_dbeta33 a). (* BSSN_rhs.c:840-843 *)
Definition bs_ddb111 (a : bs_in) : R := (bs_ddbeta111 a). (* BSSN_rhs.c:845-848 *)
Definition bs_ddb112 (a : bs_in) : R := (bs_ddbeta211 a). (* BSSN_rhs.c:850-853 *)
Definition bs_ddb113 (a : bs_in) : R := (bs_ddbeta311 a). (* BSSN_rhs.c:855-858 *)
Definition bs_ddb121 (a : bs_in) : R := (bs_ddbeta112 a). (* BSSN_rhs.c:860-863 *)
Definition bs_ddb122 (a : bs_in) : R := (bs_ddbeta212 a). (* BSSN_rhs.c:865-868 *)
Definition bs_ddb123 (a : bs_in) : R := (bs_ddbeta312 a). (* BSSN_rhs.c:870-873 *)
Definition bs_ddb131 (a : bs_in) : R := (bs_ddbeta113 a). (* BSSN_rhs.c:875-878 *)
Definition bs_ddb132 (a : bs_in) : R := (bs_ddbeta213 a). (* BSSN_rhs.c:880-883 *)
Definition bs_ddb133 (a : bs_in) : R := (bs_ddbeta313 a). (* BSSN_rhs.c:885-888 *)
Definition bs_ddb221 (a : bs_in) : R := (bs_ddbeta122 a). (* BSSN_rhs.c:890-893 *)
Definition bs_ddb222 (a : bs_in) : R := (bs_ddbeta222 a). (* BSSN_rhs.c:895-898 *)
Definition bs_ddb223 (a : bs_in) : R := (bs_ddbeta322 a). (* BSSN_rhs.c:900-903 *)
Definition bs_ddb231 (a : bs_in) : R := (bs_ddbeta123 a). (* BSSN_rhs.c:905-908 *)
Definition bs_ddb232 (a : bs_in) : R := (bs_ddbeta223 a). (* BSSN_rhs.c:910-913 *)
Definition bs_ddb233 (a : bs_in) : R := (bs_ddbeta323 a). (* BSSN_rhs.c:915-918 *)
Definition bs_ddb331 (a : bs_in) : R := (bs_ddbeta133 a). (* BSSN_rhs.c:920-923 *)
Definition bs_ddb332 (a : bs_in) : R := (bs_ddbeta233 a). (* BSSN_rhs.c:925-928 *)
Definition bs_ddb333 (a : bs_in) : R := (bs_ddbeta333 a). (* BSSN_rhs.c:930-933 *)
Definition bs_delg111 (a : bs_in) : R := (bs_dgt111 a). (* BSSN_rhs.c:935-938 *)
Definition bs_delg112 (a : bs_in) : R := (bs_dgt121 a). (* BSSN_rhs.c:940-943 *)
Definition bs_delg113 (a : bs_in) : R := (bs_dgt131 a). (* BSSN_rhs.c:945-948 *)
Definition bs_delg122 (a : bs_in) : R := (bs_dgt221 a). (* BSSN_rhs.c:950-953 *)
Definition bs_delg123 (a : bs_in) : R := (bs_dgt231 a). (* BSSN_rhs.c:955-958 *)
Definition bs_delg133 (a : bs_in) : R := (bs_dgt331 a). (* BSSN_rhs.c:960-963 *)
Definition bs_delg211 (a : bs_in) : R := (bs_dgt112 a). (* BSSN_rhs.c:965-968 *)
Definition bs_delg212 (a : bs_in) : R := (bs_dgt122 a). (* BSSN_rhs.c:970-973 *)
Definition bs_delg213 (a : bs_in) : R := (bs_dgt132 a). (* BSSN_rhs.c:975-978 *)
Definition bs_delg222 (a : bs_in) : R := (bs_dgt222 a). (* BSSN_rhs.c:980-983 *)
Definition bs_delg223 (a : bs_in) : R := (bs_dgt232 a). (* BSSN_rhs.c:985-988 *)
Definition bs_delg233 (a : bs_in) : R := (bs_dgt332 a). (* BSSN_rhs.c:990-993 *)
Definition bs_delg311 (a : bs_in) : R := (bs_dgt113 a). (* BSSN_rhs.c:995-998 *)
Definition bs_delg312 (a : bs_in) : R := (bs_dgt123 a). (* BSSN_rhs.c:1000-1003 *)
Definition bs_delg313 (a : bs_in) : R := (bs_dgt133 a). (* BSSN_rhs.c:1005-1008 *)
Definition bs_delg322 (a : bs_in) : R := (bs_dgt223 a). (* BSSN_rhs.c:1010-1013 *)
Definition bs_delg323 (a : bs_in) : R := (bs_dgt233 a). (* BSSN_rhs.c:1015-1018 *)
Definition bs_delg333 (a : bs_in) : R := (bs_dgt333 a). (* BSSN_rhs.c:1020-1023 *)
Definition bs_deldelg1111 (a : bs_in) : R := (bs_ddgt1111 a). (* BSSN_rhs.c:1025-1028 *)
Definition bs_deldelg1112 (a : bs_in) : R := (bs_ddgt1211 a). (* BSSN_rhs.c:1030-1033 *)
Definition bs_deldelg1113 (a : bs_in) : R := (bs_ddgt1311 a). (* BSSN_rhs.c:1035-1038 *)
Definition bs_deldelg1122 (a : bs_in) : R := (bs_ddgt2211 a). (* BSSN_rhs.c:1040-1043 *)
Definition bs_deldelg1123 (a : bs_in) : R := (bs_ddgt2311 a). (* BSSN_rhs.c:1045-1048 *)
Definition bs_deldelg1133 (a : bs_in) : R := (bs_ddgt3311 a). (* BSSN_rhs.c:1050-1053 *)
Definition bs_deldelg1211 (a : bs_in) : R := (bs_ddgt1112 a). (* BSSN_rhs.c:1055-1058 *)
Definition bs_deldelg1212 (a : bs_in) : R := (bs_ddgt1212 a). (* BSSN_rhs.c:1060-1063 *)
Definition bs_deldelg1213 (a : bs_in) : R := (bs_ddgt1312 a). (* BSSN_rhs.c:1065-1068 *)
Definition bs_deldelg1222 (a : bs_in) : R := (bs_ddgt2212 a). (* BSSN_rhs.c:1070-1073 *)
Definition bs_deldelg1223 (a : bs_in) : R := (bs_ddgt2312 a). (* BSSN_rhs.c:1075-1078 *)
Definition bs_deldelg1233 (a : bs_in) : R := (bs_ddgt3312 a). (* BSSN_rhs.c:1080-1083 *)
Definition bs_deldelg1311 (a : bs_in) : R := (bs_ddgt1113 a). (* BSSN_rhs.c:1085-1088 *)
Definition bs_deldelg1312 (a : bs_in) : R := (bs_ddgt1213 a). (* BSSN_rhs.c:1090-1093 *)
Definition bs_deldelg1313 (a : bs_in) : R := (bs_ddgt1313 a). (* BSSN_rhs.c:1095-1098 *)
Definition bs_deldelg1322 (a : bs_in) : R := (bs_ddgt2213 a). (* BSSN_rhs.c:1100-1103 *)
Definition bs_deldelg1323 (a : bs_in) : R := (bs_ddgt2313 a). (* BSSN_rhs.c:1105-1108 *)
Definition bs_deldelg1333 (a : bs_in) : R := (bs_ddgt3313 a). (* BSSN_rhs.c:1110-1113 *)
Definition bs_deldelg2211 (a : bs_in) : R := (bs_ddgt1122 a). (* BSSN_rhs.c:1115-1118 *)
Definition bs_deldelg2212 (a : bs_in) : R := (bs_ddgt1222 a). (* BSSN_rhs.c:1120-1123 *)
Definition bs_deldelg2213 (a : bs_in) : R := (bs_ddgt1322 a). (* BSSN_rhs.c:1125-1128 *)
Definition bs_deldelg2222 (a : bs_in) : R := (bs_ddgt2222 a). (* BSSN_rhs.c:1130-1133 *)
Definition bs_deldelg2223 (a : bs_in) : R := (bs_ddgt2322 a). (* BSSN_rhs.c:1135-1138 *)
Definition bs_deldelg2233 (a : bs_in) : R := (bs_ddgt3322 a). (* BSSN_rhs.c:1140-1143 *)
Definition bs_deldelg2311 (a : bs_in) : R := (bs_ddgt1123 a). (* BSSN_rhs.c:1145-1148 *)
Definition bs_deldelg2312 (a : bs_in) : R := (bs_ddgt1223 a). (* BSSN_rhs.c:1150-1153 *)
Definition bs_deldelg2313 (a : bs_in) : R := (bs_ddgt1323 a). (* BSSN_rhs.c:1155-1158 *)
Definition bs_deldelg2322 (a : bs_in) : R := (bs_ddgt2223 a). (* BSSN_rhs.c:1160-1163 *)
Definition bs_deldelg2323 (a : bs_in) : R := (bs_ddgt2323 a). (* BSSN_rhs.c:1165-1168 *)
Definition bs_deldelg2333 (a : bs_in) : R := (bs_ddgt3323 a). (* BSSN_rhs.c:1170-1173 *)
Definition bs_deldelg3311 (a : bs_in) : R := (bs_ddgt1133 a). (* BSSN_rhs.c:1175-1178 *)
Definition bs_deldelg3312 (a : bs_in) : R := (bs_ddgt1233 a). (* BSSN_rhs.c:1180-1183 *)
Definition bs_deldelg3313 (a : bs_in) : R := (bs_ddgt1333 a). (* BSSN_rhs.c:1185-1188 *)
Definition bs_deldelg3322 (a : bs_in) : R := (bs_ddgt2233 a). (* BSSN_rhs.c:1190-1193 *)
Definition bs_deldelg3323 (a : bs_in) : R := (bs_ddgt2333 a). (* BSSN_rhs.c:1195-1198 *)
Definition bs_deldelg3333 (a : bs_in) : R := (bs_ddgt3333 a). (* BSSN_rhs.c:1200-1203 *)
Definition bs_delG11 (a : bs_in) : R := (bs_dGt11 a). (* BSSN_rhs.c:1205-1208 *)
Definition bs_delG12 (a : bs_in) : R := (bs_dGt21 a). (* BSSN_rhs.c:1210-1213 *)
Definition bs_delG13 (a : bs_in) : R := (bs_dGt31 a). (* BSSN_rhs.c:1215-1218 *)
Definition bs_delG21 (a : bs_in) : R := (bs_dGt12 a). (* BSSN_rhs.c:1220-1223 *)
Definition bs_delG22 (a : bs_in) : R := (bs_dGt22 a). (* BSSN_rhs.c:1225-1228 *)
Definition bs_delG23 (a : bs_in) : R := (bs_dGt32 a). (* BSSN_rhs.c:1230-1233 *)
Definition bs_delG31 (a : bs_in) : R := (bs_dGt13 a). (* BSSN_rhs.c:1235-1238 *)
Definition bs_delG32 (a : bs_in) : R := (bs_dGt23 a). (* BSSN_rhs.c:1240-1243 *)
Definition bs_delG33 (a : bs_in) : R := (bs_dGt33 a). (* BSSN_rhs.c:1245-1248 *)
Definition bs_dA111 (a : bs_in) : R := (bs_dAt111 a). (* BSSN_rhs.c:1250-1253 *)
Definition bs_dA112 (a : bs_in) : R := (bs_dAt121 a). (* BSSN_rhs.c:1255-1258 *)
Definition bs_dA113 (a : bs_in) : R := (bs_dAt131 a). (* BSSN_rhs.c:1260-1263 *)
Definition bs_dA122 (a : bs_in) : R := (bs_dAt221 a). (* BSSN_rhs.c:1265-1268 *)
Definition bs_dA123 (a : bs_in) : R := (bs_dAt231 a). (* BSSN_rhs.c:1270-1273 *)
Definition bs_dA133 (a : bs_in) : R := (bs_dAt331 a). (* BSSN_rhs.c:1275-1278 *)
Definition bs_dA211 (a : bs_in) : R := (bs_dAt112 a). (* BSSN_rhs.c:1280-1283 *)
Definition bs_dA212 (a : bs_in) : R := (bs_dAt122 a). (* BSSN_rhs.c:1285-1288 *)
Definition bs_dA213 (a : bs_in) : R := (bs_dAt132 a). (* BSSN_rhs.c:1290-1293 *)
Definition bs_dA222 (a : bs_in) : R := (bs_dAt222 a). (* BSSN_rhs.c:1295-1298 *)
Definition bs_dA223 (a : bs_in) : R := (bs_dAt232 a). (* BSSN_rhs.c:1300-1303 *)
Definition bs_dA233 (a : bs_in) : R := (bs_dAt332 a). (* BSSN_rhs.c:1305-1308 *)
Definition bs_dA311 (a : bs_in) : R := (bs_dAt113 a). (* BSSN_rhs.c:1310-1313 *)
Definition bs_dA312 (a : bs_in) : R := (bs_dAt123 a). (* BSSN_rhs.c:1315-1318 *)
Definition bs_dA313 (a : bs_in) : R := (bs_dAt133 a). (* BSSN_rhs.c:1320-1323 *)
Definition bs_dA322 (a : bs_in) : R := (bs_dAt223 a). (* BSSN_rhs.c:1325-1328 *)
Definition bs_dA323 (a : bs_in) : R := (bs_dAt233 a). (* BSSN_rhs.c:1330-1333 *)
Definition bs_dA333 (a : bs_in) : R := (bs_dAt333 a). (* BSSN_rhs.c:1335-1338 *)
Definition bs_betadf (a : bs_in) : R := (bs_beta1 a) * (bs_dphi1 a) + (bs_beta2 a) * (bs_dphi2 a) + (bs_beta3 a) * (bs_dphi3 a). (* BSSN_rhs.c:1340-1343 *)
Definition bs_betadg11 (a : bs_in) : R := (bs_beta1 a) * (bs_dgt111 a) + (bs_beta2 a) * (bs_dgt112 a) + (bs_beta3 a) * (bs_dgt113 a). (* BSSN_rhs.c:1345-1348 *)
Definition bs_betadg12 (a : bs_in) : R := (bs_beta1 a) * (bs_dgt121 a) + (bs_beta2 a) * (bs_dgt122 a) + (bs_beta3 a) * (bs_dgt123 a). (* BSSN_rhs.c:1350-1353 *)
Definition bs_betadg13 (a : bs_in) : R := (bs_beta1 a) * (bs_dgt131 a) + (bs_beta2 a) * (bs_dgt132 a) + (bs_beta3 a) * (bs_dgt133 a). (* BSSN_rhs.c:1355-1358 *)
Definition bs_betadg21 (a : bs_in) : R := (bs_beta1 a) * (bs_dgt121 a) + (bs_beta2 a) * (bs_dgt122 a) + (bs_beta3 a) * (bs_dgt123 a). (* BSSN_rhs.c:1360-1363 *)
Definition bs_betadg22 (a : bs_in) : R := (bs_beta1 a) * (bs_dgt221 a) + (bs_beta2 a) * (bs_dgt222 a) + (bs_beta3 a) * (bs_dgt223 a). (* BSSN_rhs.c:1365-1368 *)
Definition bs_betadg23 (a : bs_in) : R := (bs_beta1 a) * (bs_dgt231 a) + (bs_beta2 a) * (bs_dgt232 a) + (bs_beta3 a) * (bs_dgt233 a). (* BSSN_rhs.c:1370-1373 *)
Definition bs_betadg31 (a : bs_in) : R := (bs_beta1 a) * (bs_dgt131 a) + (bs_beta2 a) * (bs_dgt132 a) + (bs_beta3 a) * (bs_dgt133 a). (* BSSN_rhs.c:1375-1378 *)
Definition bs_betadg32 (a : bs_in) : R := (bs_beta1 a) * (bs_dgt231 a) + (bs_beta2 a) * (bs_dgt232 a) + (bs_beta3 a) * (bs_dgt233 a). (* BSSN_rhs.c:1380-1383 *)
Definition bs_betadg33 (a : bs_in) : R := (bs_beta1 a) * (bs_dgt331 a) + (bs_beta2 a) * (bs_dgt332 a) + (bs_beta3 a) * (bs_dgt333 a). (* BSSN_rhs.c:1385-1388 *)
Definition bs_betadA11 (a : bs_in) : R := (bs_beta1 a) * (bs_dAt111 a) + (bs_beta2 a) * (bs_dAt112 a) + (bs_beta3 a) * (bs_dAt113 a). (* BSSN_rhs.c:1390-1393 *)
Definition bs_betadA12 (a : bs_in) : R := (bs_beta1 a) * (bs_dAt121 a) + (bs_beta2 a) * (bs_dAt122 a) + (bs_beta3 a) * (bs_dAt123 a). (* BSSN_rhs.c:1395-1398 *)
Definition bs_betadA13 (a : bs_in) : R := (bs_beta1 a) * (bs_dAt131 a) + (bs_beta2 a) * (bs_dAt132 a) + (bs_beta3 a) * (bs_dAt133 a). (* BSSN_rhs.c:1400-1403 *)
Definition bs_betadA21 (a : bs_in) : R := (bs_beta1 a) * (bs_dAt121 a) + (bs_beta2 a) * (bs_dAt122 a) + (bs_beta3 a) * (bs_dAt123 a). (* BSSN_rhs.c:1405-1408 *)
Definition bs_betadA22 (a : bs_in) : R := (bs_beta1 a) * (bs_dAt221 a) + (bs_beta2 a) * (bs_dAt222 a) + (bs_beta3 a) * (bs_dAt223 a). (* BSSN_rhs.c:1410-1413 *)
Definition bs_betadA23 (a : bs_in) : R := (bs_beta1 a) * (bs_dAt231 a) + (bs_beta2 a) * (bs_dAt232 a) + (bs_beta3 a) * (bs_dAt233 a). (* BSSN_rhs.c:1415-1418 *)
Definition bs_betadA31 (a : bs_in) : R := (bs_beta1 a) * (bs_dAt131 a) + (bs_beta2 a) * (bs_dAt132 a) + (bs_beta3 a) * (bs_dAt133 a). (* BSSN_rhs.c:1420-1423 *)
Definition bs_betadA32 (a : bs_in) : R := (bs_beta1 a) * (bs_dAt231 a) + (bs_beta2 a) * (bs_dAt232 a) + (bs_beta3 a) * (bs_dAt233 a). (* BSSN_rhs.c:1425-1428 *)
Definition bs_betadA33 (a : bs_in) : R := (bs_beta1 a) * (bs_dAt331 a) + (bs_beta2 a) * (bs_dAt332 a) + (bs_beta3 a) * (bs_dAt333 a). (* BSSN_rhs.c:1430-1433 *)
Definition bs_betadK (a : bs_in) : R := (bs_beta1 a) * (bs_dK1 a) + (bs_beta2 a) * (bs_dK2 a) + (bs_beta3 a) * (bs_dK3 a). (* BSSN_rhs.c:1435-1438 *)
Definition bs_betadG1 (a : bs_in) : R := (bs_beta1 a) * (bs_dGt11 a) + (bs_beta2 a) * (bs_dGt12 a) + (bs_beta3 a) * (bs_dGt13 a). (* BSSN_rhs.c:1440-1443 *)
Definition bs_betadG2 (a : bs_in) : R := (bs_beta1 a) * (bs_dGt21 a) + (bs_beta2 a) * (bs_dGt22 a) + (bs_beta3 a) * (bs_dGt23 a). (* BSSN_rhs.c:1445-1448 *)
Definition bs_betadG3 (a : bs_in) : R := (bs_beta1 a) * (bs_dGt31 a) + (bs_beta2 a) * (bs_dGt32 a) + (bs_beta3 a) * (bs_dGt33 a). (* BSSN_rhs.c:1450-1453 *)
Definition bs_betadalp (a : bs_in) : R := (bs_beta1 a) * (bs_dalp1 a) + (bs_beta2 a) * (bs_dalp2 a) + (bs_beta3 a) * (bs_dalp3 a). (* BSSN_rhs.c:1455-1458 *)
Definition bs_detginv (a : bs_in) : R := 1 / (2 * (bs_g12 a) * (bs_g13 a) * (bs_g23 a) + (bs_g11 a) * (bs_g22 a) * (bs_g33 a) - (bs_g33 a) * pow2 ((bs_g12 a)) - (bs_g22 a) * pow2 ((bs_g13 a)) - (bs_g11 a) * pow2 ((bs_g23 a))). (* BSSN_rhs.c:1460-1465 *)
Definition bs_ginv11 (a : bs_in) : R := (bs_detginv a) * ((bs_g22 a) * (bs_g33 a) - pow2 ((bs_g23 a))). (* BSSN_rhs.c:1467-1470 *)
Definition bs_ginv12 (a : bs_in) : R := (bs_detginv a) * ((bs_g13 a) * (bs_g23 a) - (bs_g12 a) * (bs_g33 a)). (* BSSN_rhs.c:1472-1475 *)
Definition bs_ginv13 (a : bs_in) : R := (bs_detginv a) * ((- ((bs_g13 a) * (bs_g22 a))) + (bs_g12 a) * (bs_g23 a)). (* BSSN_rhs.c:1477-1480 *)
Definition bs_ginv22 (a : bs_in) : R := (bs_detginv a) * ((bs_g11 a) * (bs_g33 a) - pow2 ((bs_g13 a))). (* BSSN_rhs.c:1482-1485 *)
Definition bs_ginv23 (a : bs_in) : R := (bs_detginv a) * ((bs_g12 a) * (bs_g13 a) - (bs_g11 a) * (bs_g23 a)). (* BSSN_rhs.c:1487-1490 *)
Definition bs_ginv33 (a : bs_in) : R := (bs_detginv a) * ((bs_g11 a) * (bs_g22 a) - pow2 ((bs_g12 a))). (* BSSN_rhs.c:1492-1495 *)
Definition bs_dginv111 (a : bs_in) : R := (- 2) * ((bs_delg123 a) * (bs_ginv12 a) * (bs_ginv13 a) + (bs_ginv11 a) * ((bs_delg112 a) * (bs_ginv12 a) + (bs_delg113 a) * (bs_ginv13 a))) - (bs_delg111 a) * pow2 ((bs_ginv11 a)) - (bs_delg122 a) * pow2 ((bs_ginv12 a)) - (bs_delg133 a) * pow2 ((bs_ginv13 a)). (* BSSN_rhs.c:1497-1501 *)
Definition bs_dginv112 (a : bs_in) : R := (- ((bs_ginv11 a) * ((bs_delg111 a) * (bs_ginv12 a) + (bs_delg112 a) * (bs_ginv22 a) + (bs_delg113 a) * (bs_ginv23 a)))) - (bs_ginv12 a) * ((bs_delg113 a) * (bs_ginv13 a) + (bs_delg122 a) * (bs_ginv22 a) + (bs_delg123 a) * (bs_ginv23 a)) - (bs_ginv13 a) * ((bs_delg123 a) * (bs_ginv22 a) + (bs_delg133 a) * (bs_ginv23 a)) - (bs_delg112 a) * pow2 ((bs_ginv12 a)). (* BSSN_rhs.c:1503-1508 *)
Definition bs_dginv113 (a : bs_in) : R := (- ((bs_ginv11 a) * ((bs_delg111 a) * (bs_ginv13 a) + (bs_delg112 a) * (bs_ginv23 a) + (bs_delg113 a) * (bs_ginv33 a)))) - (bs_ginv12 a) * ((bs_delg112 a) * (bs_ginv13 a) + (bs_delg122 a) * (bs_ginv23 a) + (bs_delg123 a) * (bs_ginv33 a)) - (bs_ginv13 a) * ((bs_delg123 a) * (bs_ginv23 a) + (bs_delg133 a) * (bs_ginv33 a)) - (bs_delg113 a) * pow2 ((bs_ginv13 a)). (* BSSN_rhs.c:1510-1515 *)
Definition bs_dginv122 (a : bs_in) : R := (- 2) * ((bs_delg123 a) * (bs_ginv22 a) * (bs_ginv23 a) + (bs_ginv12 a) * ((bs_delg112 a) * (bs_ginv22 a) + (bs_delg113 a) * (bs_ginv23 a))) - (bs_delg111 a) * pow2 ((bs_ginv12 a)) - (bs_delg122 a) * pow2 ((bs_ginv22 a)) - (bs_delg133 a) * pow2 ((bs_ginv23 a)). (* BSSN_rhs.c:1517-1521 *)
Definition bs_dginv123 (a : bs_in) : R := (- ((bs_ginv13 a) * ((bs_delg112 a) * (bs_ginv22 a) + (bs_delg113 a) * (bs_ginv23 a)))) - (bs_delg133 a) * (bs_ginv23 a) * (bs_ginv33 a) - (bs_ginv12 a) * ((bs_delg111 a) * (bs_ginv13 a) + (bs_delg112 a) * (bs_ginv23 a) + (bs_delg113 a) * (bs_ginv33 a)) - (bs_ginv22 a) * ((bs_delg122 a) * (bs_ginv23 a) + (bs_delg123 a) * (bs_ginv33 a)) - (bs_delg123 a) * pow2 ((bs_ginv23 a)). (* BSSN_rhs.c:1523-1528 *)
Definition bs_dginv133 (a : bs_in) : R := (- 2) * ((bs_delg123 a) * (bs_ginv23 a) * (bs_ginv33 a) + (bs_ginv13 a) * ((bs_delg112 a) * (bs_ginv23 a) + (bs_delg113 a) * (bs_ginv33 a))) - (bs_delg111 a) * pow2 ((bs_ginv13 a)) - (bs_delg122 a) * pow2 ((bs_ginv23 a)) - (bs_delg133 a) * pow2 ((bs_ginv33 a)). (* BSSN_rhs.c:1530-1534 *)
Definition bs_dginv211 (a : bs_in) : R := (- 2) * ((bs_delg223 a) * (bs_ginv12 a) * (bs_ginv13 a) + (bs_ginv11 a) * ((bs_delg212 a) * (bs_ginv12 a) + (bs_delg213 a) * (bs_ginv13 a))) - (bs_delg211 a) * pow2 ((bs_ginv11 a)) - (bs_delg222 a) * pow2 ((bs_ginv12 a)) - (bs_delg233 a) * pow2 ((bs_ginv13 a)). (* BSSN_rhs.c:1536-1540 *)
Definition bs_dginv212 (a : bs_in) : R := (- ((bs_ginv11 a) * ((bs_delg211 a) * (bs_ginv12 a) + (bs_delg212 a) * (bs_ginv22 a) + (bs_delg213 a) * (bs_ginv23 a)))) - (bs_ginv12 a) * ((bs_delg213 a) * (bs_ginv13 a) + (bs_delg222 a) * (bs_ginv22 a) + (bs_delg223 a) * (bs_ginv23 a)) - (bs_ginv13 a) * ((bs_delg223 a) * (bs_ginv22 a) + (bs_delg233 a) * (bs_ginv23 a)) - (bs_delg212 a) * pow2 ((bs_ginv12 a)). (* BSSN_rhs.c:1542-1547 *)
Definition bs_dginv213 (a : bs_in) : R := (- ((bs_ginv11 a) * ((bs_delg211 a) * (bs_ginv13 a) + (bs_delg212 a) * (bs_ginv23 a) + (bs_delg213 a) * (bs_ginv33 a)))) - (bs_ginv12 a) * ((bs_delg212 a) * (bs_ginv13 a) + (bs_delg222 a) * (bs_ginv23 a) + (bs_delg223 a) * (bs_ginv33 a)) - (bs_ginv13 a) * ((bs_delg223 a) * (bs_ginv23 a) + (bs_delg233 a) * (bs_ginv33 a)) - (bs_delg213 a) * pow2 ((bs_ginv13 a)). (* BSSN_rhs.c:1549-1554 *)
Definition bs_dginv222 (a : bs_in) : R := (- 2) * ((bs_delg223 a) * (bs_ginv22 a) * (bs_ginv23 a) + (bs_ginv12 a) * ((bs_delg212 a) * (bs_ginv22 a) + (bs_delg213 a) * (bs_ginv23 a))) - (bs_delg211 a) * pow2 ((bs_ginv12 a)) - (bs_delg222 a) * pow2 ((bs_ginv22 a)) - (bs_delg233 a) * pow2 ((bs_ginv23 a)). (* BSSN_rhs.c:1556-1560 *)
Definition bs_dginv223 (a : bs_in) : R := (- ((bs_ginv13 a) * ((bs_delg212 a) * (bs_ginv22 a) + (bs_delg213 a) * (bs_ginv23 a)))) - (bs_delg233 a) * (bs_ginv23 a) * (bs_ginv33 a) - (bs_ginv12 a) * ((bs_delg211 a) * (bs_ginv13 a) + (bs_delg212 a) * (bs_ginv23 a) + (bs_delg213 a) * (bs_ginv33 a)) - (bs_ginv22 a) * ((bs_delg222 a) * (bs_ginv23 a) + (bs_delg223 a) * (bs_ginv33 a)) - (bs_delg223 a) * pow2 ((bs_ginv23 a)). (* BSSN_rhs.c:1562-1567 *)
Definition bs_dginv233 (a : bs_in) : R := (- 2) * ((bs_delg223 a) * (bs_ginv23 a) * (bs_ginv33 a) + (bs_ginv13 a) * ((bs_delg212 a) * (bs_ginv23 a) + (bs_delg213 a) * (bs_ginv33 a))) - (bs_delg211 a) * pow2 ((bs_ginv13 a)) - (bs_delg222 a) * pow2 ((bs_ginv23 a)) - (bs_delg233 a) * pow2 ((bs_ginv33 a)). (* BSSN_rhs.c:1569-1573 *)
Definition bs_dginv311 (a : bs_in) : R := (- 2) * ((bs_delg323 a) * (bs_ginv12 a) * (bs_ginv13 a) + (bs_ginv11 a) * ((bs_delg312 a) * (bs_ginv12 a) + (bs_delg313 a) * (bs_ginv13 a))) - (bs_delg311 a) * pow2 ((bs_ginv11 a)) - (bs_delg322 a) * pow2 ((bs_ginv12 a)) - (bs_delg333 a) * pow2 ((bs_ginv13 a)). (* BSSN_rhs.c:1575-1579 *)
Definition bs_dginv312 (a : bs_in) : R := (- ((bs_ginv11 a) * ((bs_delg311 a) * (bs_ginv12 a) + (bs_delg312 a) * (bs_ginv22 a) + (bs_delg313 a) * (bs_ginv23 a)))) - (bs_ginv12 a) * ((bs_delg313 a) * (bs_ginv13 a) + (bs_delg322 a) * (bs_ginv22 a) + (bs_delg323 a) * (bs_ginv23 a)) - (bs_ginv13 a) * ((bs_delg323 a) * (bs_ginv22 a) + (bs_delg333 a) * (bs_ginv23 a)) - (bs_delg312 a) * pow2 ((bs_ginv12 a)). (* BSSN_rhs.c:1581-1586 *)
Definition bs_dginv313 (a : bs_in) : R := (- ((bs_ginv11 a) * ((bs_delg311 a) * (bs_ginv13 a) + (bs_delg312 a) * (bs_ginv23 a) + (bs_delg313 a) * (bs_ginv33 a)))) - (bs_ginv12 a) * ((bs_delg312 a) * (bs_ginv13 a) + (bs_delg322 a) * (bs_ginv23 a) + (bs_delg323 a) * (bs_ginv33 a)) - (bs_ginv13 a) * ((bs_delg323 a) * (bs_ginv23 a) + (bs_delg333 a) * (bs_ginv33 a)) - (bs_delg313 a) * pow2 ((bs_ginv13 a)). (* BSSN_rhs.c:1588-1593 *)
Definition bs_dginv322 (a : bs_in) : R := (- 2) * ((bs_delg323 a) * (bs_ginv22 a) * (bs_ginv23 a) + (bs_ginv12 a) * ((bs_delg312 a) * (bs_ginv22 a) + (bs_delg313 a) * (bs_ginv23 a))) - (bs_delg311 a) * pow2 ((bs_ginv12 a)) - (bs_delg322 a) * pow2 ((bs_ginv22 a)) - (bs_delg333 a) * pow2 ((bs_ginv23 a)). (* BSSN_rhs.c:1595-1599 *)
Definition bs_dginv323 (a : bs_in) : R := (- ((bs_ginv13 a) * ((bs_delg312 a) * (bs_ginv22 a) + (bs_delg313 a) * (bs_ginv23 a)))) - (bs_delg333 a) * (bs_ginv23 a) * (bs_ginv33 a) - (bs_ginv12 a) * ((bs_delg311 a) * (bs_ginv13 a) + (bs_delg312 a) * (bs_ginv23 a) + (bs_delg313 a) * (bs_ginv33 a)) - (bs_ginv22 a) * ((bs_delg322 a) * (bs_ginv23 a) + (bs_delg323 a) * (bs_ginv33 a)) - (bs_delg323 a) * pow2 ((bs_ginv23 a)). (* BSSN_rhs.c:1601-1606 *)
Definition bs_dginv333 (a : bs_in) : R := (- 2) * ((bs_delg323 a) * (bs_ginv23 a) * (bs_ginv33 a) + (bs_ginv13 a) * ((bs_delg312 a) * (bs_ginv23 a) + (bs_delg313 a) * (bs_ginv33 a))) - (bs_delg311 a) * pow2 ((bs_ginv13 a)) - (bs_delg322 a) * pow2 ((bs_ginv23 a)) - (bs_delg333 a) * pow2 ((bs_ginv33 a)). (* BSSN_rhs.c:1608-1612 *)
Definition bs_gammado111 (a : bs_in) : R := (1 / 2) * (bs_delg111 a). (* BSSN_rhs.c:1614-1617 *)
Definition bs_gammado112 (a : bs_in) : R := (1 / 2) * (bs_delg211 a). (* BSSN_rhs.c:1619-1622 *)
Definition bs_gammado113 (a : bs_in) : R := (1 / 2) * (bs_delg311 a). (* BSSN_rhs.c:1624-1627 *)
Definition bs_gammado122 (a : bs_in) : R := (- (1 / 2)) * (bs_delg122 a) + (bs_delg212 a). (* BSSN_rhs.c:1629-1632 *)
Definition bs_gammado123 (a : bs_in) : R := (1 / 2) * ((- (bs_delg123 a)) + (bs_delg213 a) + (bs_delg312 a)). (* BSSN_rhs.c:1634-1637 *)
Definition bs_gammado133 (a : bs_in) : R := (- (1 / 2)) * (bs_delg133 a) + (bs_delg313 a). (* BSSN_rhs.c:1639-1642 *)
Definition bs_gammado211 (a : bs_in) : R := (bs_delg112 a) - (1 / 2) * (bs_delg211 a). (* BSSN_rhs.c:1644-1647 *)
Definition bs_gammado212 (a : bs_in) : R := (1 / 2) * (bs_delg122 a). (* BSSN_rhs.c:1649-1652 *)
Definition bs_gammado213 (a : bs_in) : R := (1 / 2) * ((bs_delg123 a) - (bs_delg213 a) + (bs_delg312 a)). (* BSSN_rhs.c:1654-1657 *)
Definition bs_gammado222 (a : bs_in) : R := (1 / 2) * (bs_delg222 a). (* BSSN_rhs.c:1659-1662 *)
Definition bs_gammado223 (a : bs_in) : R := (1 / 2) * (bs_delg322 a). (* BSSN_rhs.c:1664-1667 *)
Definition bs_gammado233 (a : bs_in) : R := (- (1 / 2)) * (bs_delg233 a) + (bs_delg323 a). (* BSSN_rhs.c:1669-1672 *)
Definition bs_gammado311 (a : bs_in) : R := (bs_delg113 a) - (1 / 2) * (bs_delg311 a). (* BSSN_rhs.c:1674-1677 *)
Definition bs_gammado312 (a : bs_in) : R := (1 / 2) * ((bs_delg123 a) + (bs_delg213 a) - (bs_delg312 a)). (* BSSN_rhs.c:1679-1682 *)
Definition bs_gammado313 (a : bs_in) : R := (1 / 2) * (bs_delg133 a). (* BSSN_rhs.c:1684-1687 *)
Definition bs_gammado322 (a : bs_in) : R := (bs_delg223 a) - (1 / 2) * (bs_delg322 a). (* BSSN_rhs.c:1689-1692 *)
Definition bs_gammado323 (a : bs_in) : R := (1 / 2) * (bs_delg233 a). (* BSSN_rhs.c:1694-1697 *)
Definition bs_gammado333 (a : bs_in) : R := (1 / 2) * (bs_delg333 a). (* BSSN_rhs.c:1699-1702 *)
Definition bs_gamma111 (a : bs_in) : R := (bs_gammado111 a) * (bs_ginv11 a) + (bs_gammado211 a) * (bs_ginv12 a) + (bs_gammado311 a) * (bs_ginv13 a). (* BSSN_rhs.c:1704-1707 *)
Definition bs_gamma112 (a : bs_in) : R := (bs_gammado112 a) * (bs_ginv11 a) + (bs_gammado212 a) * (bs_ginv12 a) + (bs_gammado312 a) * (bs_ginv13 a). (* BSSN_rhs.c:1709-1712 *)
Definition bs_gamma113 (a : bs_in) : R := (bs_gammado113 a) * (bs_ginv11 a) + (bs_gammado213 a) * (bs_ginv12 a) + (bs_gammado313 a) * (bs_ginv13 a). (* BSSN_rhs.c:1714-1717 *)
Definition bs_gamma122 (a : bs_in) : R := (bs_gammado122 a) * (bs_ginv11 a) + (bs_gammado222 a) * (bs_ginv12 a) + (bs_gammado322 a) * (bs_ginv13 a). (* BSSN_rhs.c:1719-1722 *)
Definition bs_gamma123 (a : bs_in) : R := (bs_gammado123 a) * (bs_ginv11 a) + (bs_gammado223 a) * (bs_ginv12 a) + (bs_gammado323 a) * (bs_ginv13 a). (* BSSN_rhs.c:1724-1727 *)
Definition bs_gamma133 (a : bs_in) : R := (bs_gammado133 a) * (bs_ginv11 a) + (bs_gammado233 a) * (bs_ginv12 a) + (bs_gammado333 a) * (bs_ginv13 a). (* BSSN_rhs.c:1729-1732 *)
Definition bs_gamma211 (a : bs_in) : R := (bs_gammado111 a) * (bs_ginv12 a) + (bs_gammado211 a) * (bs_ginv22 a) + (bs_gammado311 a) * (bs_ginv23 a). (* BSSN_rhs.c:1734-1737 *)
Definition bs_gamma212 (a : bs_in) : R := (bs_gammado112 a) * (bs_ginv12 a) + (bs_gammado212 a) * (bs_ginv22 a) + (bs_gammado312 a) * (bs_ginv23 a). (* BSSN_rhs.c:1739-1742 *)
Definition bs_gamma213 (a : bs_in) : R := (bs_gammado113 a) * (bs_ginv12 a) + (bs_gammado213 a) * (bs_ginv22 a) + (bs_gammado313 a) * (bs_ginv23 a). (* BSSN_rhs.c:1744-1747 *)
Definition bs_gamma222 (a : bs_in) : R := (bs_gammado122 a) * (bs_ginv12 a) + (bs_gammado222 a) * (bs_ginv22 a) + (bs_gammado322 a) * (bs_ginv23 a). (* BSSN_rhs.c:1749-1752 *)
Definition bs_gamma223 (a : bs_in) : R := (bs_gammado123 a) * (bs_ginv12 a) + (bs_gammado223 a) * (bs_ginv22 a) + (bs_gammado323 a) * (bs_ginv23 a). (* BSSN_rhs.c:1754-1757 *)
Definition bs_gamma233 (a : bs_in) : R := (bs_gammado133 a) * (bs_ginv12 a) + (bs_gammado233 a) * (bs_ginv22 a) + (bs_gammado333 a) * (bs_ginv23 a). (* BSSN_rhs.c:1759-1762 *)
Definition bs_gamma311 (a : bs_in) : R := (bs_gammado111 a) * (bs_ginv13 a) + (bs_gammado211 a) * (bs_ginv23 a) + (bs_gammado311 a) * (bs_ginv33 a). (* BSSN_rhs.c:1764-1767 *)
Definition bs_gamma312 (a : bs_in) : R := (bs_gammado112 a) * (bs_ginv13 a) + (bs_gammado212 a) * (bs_ginv23 a) + (bs_gammado312 a) * (bs_ginv33 a). (* BSSN_rhs.c:1769-1772 *)
Definition bs_gamma313 (a : bs_in) : R := (bs_gammado113 a) * (bs_ginv13 a) + (bs_gammado213 a) * (bs_ginv23 a) + (bs_gammado313 a) * (bs_ginv33 a). (* BSSN_rhs.c:1774-1777 *)
Definition bs_gamma322 (a : bs_in) : R := (bs_gammado122 a) * (bs_ginv13 a) + (bs_gammado222 a) * (bs_ginv23 a) + (bs_gammado322 a) * (bs_ginv33 a). (* BSSN_rhs.c:1779-1782 *)
Definition bs_gamma323 (a : bs_in) : R := (bs_gammado123 a) * (bs_ginv13 a) + (bs_gammado223 a) * (bs_ginv23 a) + (bs_gammado323 a) * (bs_ginv33 a). (* BSSN_rhs.c:1784-1787 *)
Definition bs_gamma333 (a : bs_in) : R := (bs_gammado133 a) * (bs_ginv13 a) + (bs_gammado233 a) * (bs_ginv23 a) + (bs_gammado333 a) * (bs_ginv33 a). (* BSSN_rhs.c:1789-1792 *)
Definition bs_Gfromg1 (a : bs_in) : R := (bs_gamma111 a) * (bs_ginv11 a) + (bs_gamma122 a) * (bs_ginv22 a) + 2 * ((bs_gamma112 a) * (bs_ginv12 a) + (bs_gamma113 a) * (bs_ginv13 a) + (bs_gamma123 a) * (bs_ginv23 a)) + (bs_gamma133 a) * (bs_ginv33 a). (* BSSN_rhs.c:1794-1798 *)
Definition bs_Gfromg2 (a : bs_in) : R := (bs_gamma211 a) * (bs_ginv11 a) + (bs_gamma222 a) * (bs_ginv22 a) + 2 * ((bs_gamma212 a) * (bs_ginv12 a) + (bs_gamma213 a) * (bs_ginv13 a) + (bs_gamma223 a) * (bs_ginv23 a)) + (bs_gamma233 a) * (bs_ginv33 a). (* BSSN_rhs.c:1800-1804 *)
Definition bs_Gfromg3 (a : bs_in) : R := (bs_gamma311 a) * (bs_ginv11 a) + (bs_gamma322 a) * (bs_ginv22 a) + 2 * ((bs_gamma312 a) * (bs_ginv12 a) + (bs_gamma313 a) * (bs_ginv13 a) + (bs_gamma323 a) * (bs_ginv23 a)) + (bs_gamma333 a) * (bs_ginv33 a). (* BSSN_rhs.c:1806-1810 *)
Definition bs_undiffdG1 (a : bs_in) : R := (bs_Gfromg1 a). (* BSSN_rhs.c:1817-1820 *)
Definition bs_undiffdG2 (a : bs_in) : R := (bs_Gfromg2 a). (* BSSN_rhs.c:1822-1825 *)
Definition bs_undiffdG3 (a : bs_in) : R := (bs_Gfromg3 a). (* BSSN_rhs.c:1827-1830 *)
Definition bs_undiffdG1_2 (a : bs_in) : R := (bs_G1 a). (* BSSN_rhs.c:1835-1838 *)
Definition bs_undiffdG2_2 (a : bs_in) : R := (bs_G2 a). (* BSSN_rhs.c:1840-1843 *)
Definition bs_undiffdG3_2 (a : bs_in) : R := (bs_G3 a). (* BSSN_rhs.c:1845-1848 *)
Definition bs_undiffdG1_3 (a : bs_in) : R := if s_flag a FGReplacedBydg then bs_undiffdG1 a else bs_undiffdG1_2 a. (* BSSN_rhs.c:1815 *)
Definition bs_undiffdG2_3 (a : bs_in) : R := if s_flag a FGReplacedBydg then bs_undiffdG2 a else bs_undiffdG2_2 a. (* BSSN_rhs.c:1815 *)
Definition bs_undiffdG3_3 (a : bs_in) : R := if s_flag a FGReplacedBydg then bs_undiffdG3 a else bs_undiffdG3_2 a. (* BSSN_rhs.c:1815 *)
Definition bs_R11 (a : bs_in) : R := ((- (1 / 2)) * (bs_deldelg1111 a) + 3 * (bs_gamma111 a) * (bs_gammado111 a) + 2 * ((bs_gamma211 a) * (bs_gammado112 a) + (bs_gamma311 a) * (bs_gammado113 a)) + (bs_gamma211 a) * (bs_gammado211 a) + (bs_gamma311 a) * (bs_gammado311 a)) * (bs_ginv11 a) + ((- (bs_deldelg1211 a)) + 3 * ((bs_gamma112 a) * (bs_gammado111 a) + (bs_gamma111 a) * (bs_gammado112 a)) + 2 * ((bs_gamma212 a) * (bs_gammado112 a) + (bs_gamma312 a) * (bs_gammado113 a) + (bs_gamma211 a) * (bs_gammado122 a) + (bs_gamma311 a) * (bs_gammado123 a)) + (bs_gamma212 a) * (bs_gammado211 a) + (bs_gamma211 a) * (bs_gammado212 a) + (bs_gamma312 a) * (bs_gammado311 a) + (bs_gamma311 a) * (bs_gammado312 a)) * (bs_ginv12 a) + ((- (bs_deldelg1311 a)) + 3 * ((bs_gamma113 a) * (bs_gammado111 a) + (bs_gamma111 a) * (bs_gammado113 a)) + 2 * ((bs_gamma213 a) * (bs_gammado112 a) + (bs_gamma313 a) * (bs_gammado113 a) + (bs_gamma211 a) * (bs_gammado123 a) + (bs_gamma311 a) * (bs_gammado133 a)) + (bs_gamma213 a) * (bs_gammado211 a) + (bs_gamma211 a) * (bs_gammado213 a) + (bs_gamma313 a) * (bs_gammado311 a) + (bs_gamma311 a) * (bs_gammado313 a)) * (bs_ginv13 a) + ((- (1 / 2)) * (bs_deldelg2211 a) + 3 * (bs_gamma112 a) * (bs_gammado112 a) + 2 * ((bs_gamma212 a) * (bs_gammado122 a) + (bs_gamma312 a) * (bs_gammado123 a)) + (bs_gamma212 a) * (bs_gammado212 a) + (bs_gamma312 a) * (bs_gammado312 a)) * (bs_ginv22 a) + ((- (bs_deldelg2311 a)) + 3 * ((bs_gamma113 a) * (bs_gammado112 a) + (bs_gamma112 a) * (bs_gammado113 a)) + 2 * ((bs_gamma213 a) * (bs_gammado122 a) + ((bs_gamma212 a) + (bs_gamma313 a)) * (bs_gammado123 a) + (bs_gamma312 a) * (bs_gammado133 a)) + (bs_gamma213 a) * (bs_gammado212 a) + (bs_gamma212 a) * (bs_gammado213 a) + (bs_gamma313 a) * (bs_gammado312 a) + (bs_gamma312 a) * (bs_gammado313 a)) * (bs_ginv23 a) + ((- (1 / 2)) * (bs_deldelg3311 a) + 3 * (bs_gamma113 a) * (bs_gammado113 a) + 2 * ((bs_gamma213 a) * (bs_gammado123 a) + (bs_gamma313 a) * (bs_gammado133 a)) + (bs_gamma213 a) * (bs_gammado213 a) + (bs_gamma313 a) * (bs_gammado313 a)) * (bs_ginv33 a) + (bs_gammado111 a) * (bs_undiffdG1_3 a) + (bs_gammado112 a) * (bs_undiffdG2_3 a) + (bs_gammado113 a) * (bs_undiffdG3_3 a) + (bs_delG11 a) * (bs_g11 a) + (bs_delG12 a) * (bs_g12 a) + (bs_delG13 a) * (bs_g13 a). (* BSSN_rhs.c:1854-1879 *)
Definition bs_R12 (a : bs_in) : R := ((- (1 / 2)) * (bs_deldelg1112 a) + 2 * (bs_gamma112 a) * (bs_gammado111 a) + (bs_gamma111 a) * (bs_gammado211 a) + (bs_gamma212 a) * ((bs_gammado112 a) + (bs_gammado211 a)) + (bs_gamma211 a) * (bs_gammado212 a) + (bs_gamma311 a) * (bs_gammado213 a) + (bs_gamma312 a) * ((bs_gammado113 a) + (bs_gammado311 a))) * (bs_ginv11 a) + ((- (bs_deldelg1212 a)) + (bs_gamma212 a) * (bs_gammado122 a) + (bs_gamma112 a) * (bs_gammado211 a) + (bs_gamma222 a) * ((bs_gammado112 a) + (bs_gammado211 a)) + (bs_gamma111 a) * (bs_gammado212 a) + 2 * ((bs_gamma122 a) * (bs_gammado111 a) + (bs_gamma112 a) * (bs_gammado112 a) + (bs_gamma212 a) * (bs_gammado212 a)) + (bs_gamma211 a) * (bs_gammado222 a) + (bs_gamma311 a) * (bs_gammado223 a) + (bs_gamma322 a) * ((bs_gammado113 a) + (bs_gammado311 a)) + (bs_gamma312 a) * ((bs_gammado123 a) + (bs_gammado213 a) + (bs_gammado312 a))) * (bs_ginv12 a) + ((- (bs_deldelg1312 a)) + 2 * ((bs_gamma123 a) * (bs_gammado111 a) + (bs_gamma112 a) * (bs_gammado113 a)) + (bs_gamma113 a) * (bs_gammado211 a) + (bs_gamma223 a) * ((bs_gammado112 a) + (bs_gammado211 a)) + (bs_gamma213 a) * (bs_gammado212 a) + ((bs_gamma111 a) + (bs_gamma313 a)) * (bs_gammado213 a) + (bs_gamma212 a) * ((bs_gammado123 a) + (bs_gammado213 a)) + (bs_gamma211 a) * (bs_gammado223 a) + (bs_gamma311 a) * (bs_gammado233 a) + (bs_gamma323 a) * ((bs_gammado113 a) + (bs_gammado311 a)) + (bs_gamma312 a) * ((bs_gammado133 a) + (bs_gammado313 a))) * (bs_ginv13 a) + ((- (1 / 2)) * (bs_deldelg2212 a) + 2 * (bs_gamma122 a) * (bs_gammado112 a) + (bs_gamma112 a) * (bs_gammado212 a) + (bs_gamma222 a) * ((bs_gammado122 a) + (bs_gammado212 a)) + (bs_gamma212 a) * (bs_gammado222 a) + (bs_gamma312 a) * (bs_gammado223 a) + (bs_gamma322 a) * ((bs_gammado123 a) + (bs_gammado312 a))) * (bs_ginv22 a) + ((- (bs_deldelg2312 a)) + 2 * ((bs_gamma123 a) * (bs_gammado112 a) + (bs_gamma122 a) * (bs_gammado113 a)) + ((bs_gamma222 a) + (bs_gamma323 a)) * (bs_gammado123 a) + (bs_gamma113 a) * (bs_gammado212 a) + (bs_gamma223 a) * ((bs_gammado122 a) + (bs_gammado212 a)) + ((bs_gamma112 a) + (bs_gamma222 a)) * (bs_gammado213 a) + (bs_gamma213 a) * (bs_gammado222 a) + ((bs_gamma212 a) + (bs_gamma313 a)) * (bs_gammado223 a) + (bs_gamma312 a) * (bs_gammado233 a) + (bs_gamma323 a) * (bs_gammado312 a) + (bs_gamma322 a) * ((bs_gammado133 a) + (bs_gammado313 a))) * (bs_ginv23 a) + ((- (1 / 2)) * (bs_deldelg3312 a) + 2 * (bs_gamma123 a) * (bs_gammado113 a) + (bs_gamma113 a) * (bs_gammado213 a) + (bs_gamma223 a) * ((bs_gammado123 a) + (bs_gammado213 a)) + (bs_gamma213 a) * (bs_gammado223 a) + (bs_gamma313 a) * (bs_gammado233 a) + (bs_gamma323 a) * ((bs_gammado133 a) + (bs_gammado313 a))) * (bs_ginv33 a) + (1 / 2) * (((bs_gammado112 a) + (bs_gammado211 a)) * (bs_undiffdG1_3 a) + ((bs_gammado122 a) + (bs_gammado212 a)) * (bs_undiffdG2_3 a) + ((bs_gammado123 a) + (bs_gammado213 a)) * (bs_undiffdG3_3 a) + (bs_delG21 a) * (bs_g11 a) + ((bs_delG11 a) + (bs_delG22 a)) * (bs_g12 a) + (bs_delG23 a) * (bs_g13 a) + (bs_delG12 a) * (bs_g22 a) + (bs_delG13 a) * (bs_g23 a)). (* BSSN_rhs.c:1881-1915 *)
Definition bs_R12_2 (a : bs_in) : R := ((- (1 / 2)) * (bs_deldelg1112 a) + (bs_gamma112 a) * (bs_gammado111 a) + ((bs_gamma111 a) + (bs_gamma212 a)) * (bs_gammado112 a) + (bs_gamma312 a) * (bs_gammado113 a) + (bs_gamma111 a) * (bs_gammado211 a) + 2 * (bs_gamma211 a) * (bs_gammado212 a) + (bs_gamma311 a) * ((bs_gammado213 a) + (bs_gammado312 a))) * (bs_ginv11 a) + ((- (bs_deldelg1212 a)) + (bs_gamma122 a) * (bs_gammado111 a) + (2 * (bs_gamma112 a) + (bs_gamma222 a)) * (bs_gammado112 a) + (bs_gamma322 a) * (bs_gammado113 a) + ((bs_gamma111 a) + (bs_gamma212 a)) * (bs_gammado122 a) + (bs_gamma112 a) * (bs_gammado211 a) + ((bs_gamma111 a) + 2 * (bs_gamma212 a)) * (bs_gammado212 a) + 2 * (bs_gamma211 a) * (bs_gammado222 a) + (bs_gamma312 a) * ((bs_gammado123 a) + (bs_gammado213 a) + (bs_gammado312 a)) + (bs_gamma311 a) * ((bs_gammado223 a) + (bs_gammado322 a))) * (bs_ginv12 a) + ((- (bs_deldelg1312 a)) + (bs_gamma123 a) * (bs_gammado111 a) + ((bs_gamma113 a) + (bs_gamma223 a)) * (bs_gammado112 a) + ((bs_gamma112 a) + (bs_gamma323 a)) * (bs_gammado113 a) + ((bs_gamma111 a) + (bs_gamma212 a)) * (bs_gammado123 a) + (bs_gamma312 a) * (bs_gammado133 a) + (bs_gamma113 a) * (bs_gammado211 a) + ((bs_gamma111 a) + (bs_gamma313 a)) * (bs_gammado213 a) + 2 * ((bs_gamma213 a) * (bs_gammado212 a) + (bs_gamma211 a) * (bs_gammado223 a)) + (bs_gamma313 a) * (bs_gammado312 a) + (bs_gamma311 a) * ((bs_gammado233 a) + (bs_gammado323 a))) * (bs_ginv13 a) + ((- (1 / 2)) * (bs_deldelg2212 a) + (bs_gamma122 a) * (bs_gammado112 a) + ((bs_gamma112 a) + (bs_gamma222 a)) * (bs_gammado122 a) + (bs_gamma322 a) * (bs_gammado123 a) + (bs_gamma112 a) * (bs_gammado212 a) + 2 * (bs_gamma212 a) * (bs_gammado222 a) + (bs_gamma312 a) * ((bs_gammado223 a) + (bs_gammado322 a))) * (bs_ginv22 a) + ((- (bs_deldelg2312 a)) + (bs_gamma123 a) * (bs_gammado112 a) + (bs_gamma122 a) * (bs_gammado113 a) + ((bs_gamma113 a) + (bs_gamma223 a)) * (bs_gammado122 a) + ((bs_gamma112 a) + (bs_gamma222 a) + (bs_gamma323 a)) * (bs_gammado123 a) + (bs_gamma322 a) * (bs_gammado133 a) + (bs_gamma113 a) * (bs_gammado212 a) + (bs_gamma112 a) * (bs_gammado213 a) + 2 * ((bs_gamma213 a) * (bs_gammado222 a) + (bs_gamma212 a) * (bs_gammado223 a)) + (bs_gamma313 a) * ((bs_gammado223 a) + (bs_gammado322 a)) + (bs_gamma312 a) * ((bs_gammado233 a) + (bs_gammado323 a))) * (bs_ginv23 a) + ((- (1 / 2)) * (bs_deldelg3312 a) + (bs_gamma123 a) * (bs_gammado113 a) + ((bs_gamma113 a) + (bs_gamma223 a)) * (bs_gammado123 a) + (bs_gamma323 a) * (bs_gammado133 a) + (bs_gamma113 a) * (bs_gammado213 a) + 2 * (bs_gamma213 a) * (bs_gammado223 a) + (bs_gamma313 a) * ((bs_gammado233 a) + (bs_gammado323 a))) * (bs_ginv33 a) + (1 / 2) * (((bs_gammado112 a) + (bs_gammado211 a)) * (bs_undiffdG1_3 a) + ((bs_gammado122 a) + (bs_gammado212 a)) * (bs_undiffdG2_3 a) + ((bs_gammado123 a) + (bs_gammado213 a)) * (bs_undiffdG3_3 a) + (bs_delG21 a) * (bs_g11 a) + ((bs_delG11 a) + (bs_delG22 a)) * (bs_g12 a) + (bs_delG23 a) * (bs_g13 a) + (bs_delG12 a) * (bs_g22 a) + (bs_delG13 a) * (bs_g23 a)). (* BSSN_rhs.c:1917-1955 *)
Definition bs_R13 (a : bs_in) : R := ((- (1 / 2)) * (bs_deldelg1113 a) + 2 * (bs_gamma113 a) * (bs_gammado111 a) + (bs_gamma213 a) * ((bs_gammado112 a) + (bs_gammado211 a)) + (bs_gamma111 a) * (bs_gammado311 a) + (bs_gamma313 a) * ((bs_gammado113 a) + (bs_gammado311 a)) + (bs_gamma211 a) * (bs_gammado312 a) + (bs_gamma311 a) * (bs_gammado313 a)) * (bs_ginv11 a) + ((- (bs_deldelg1213 a)) + 2 * ((bs_gamma123 a) * (bs_gammado111 a) + (bs_gamma113 a) * (bs_gammado112 a)) + (bs_gamma223 a) * ((bs_gammado112 a) + (bs_gammado211 a)) + (bs_gamma213 a) * ((bs_gammado122 a) + (bs_gammado212 a)) + (bs_gamma112 a) * (bs_gammado311 a) + (bs_gamma323 a) * ((bs_gammado113 a) + (bs_gammado311 a)) + ((bs_gamma111 a) + (bs_gamma212 a)) * (bs_gammado312 a) + (bs_gamma313 a) * ((bs_gammado123 a) + (bs_gammado312 a)) + (bs_gamma312 a) * (bs_gammado313 a) + (bs_gamma211 a) * (bs_gammado322 a) + (bs_gamma311 a) * (bs_gammado323 a)) * (bs_ginv12 a) + ((- (bs_deldelg1313 a)) + (bs_gamma313 a) * (bs_gammado133 a) + (bs_gamma233 a) * ((bs_gammado112 a) + (bs_gammado211 a)) + (bs_gamma113 a) * (bs_gammado311 a) + (bs_gamma333 a) * ((bs_gammado113 a) + (bs_gammado311 a)) + (bs_gamma213 a) * ((bs_gammado123 a) + (bs_gammado213 a) + (bs_gammado312 a)) + (bs_gamma111 a) * (bs_gammado313 a) + 2 * ((bs_gamma133 a) * (bs_gammado111 a) + (bs_gamma113 a) * (bs_gammado113 a) + (bs_gamma313 a) * (bs_gammado313 a)) + (bs_gamma211 a) * (bs_gammado323 a) + (bs_gamma311 a) * (bs_gammado333 a)) * (bs_ginv13 a) + ((- (1 / 2)) * (bs_deldelg2213 a) + 2 * (bs_gamma123 a) * (bs_gammado112 a) + (bs_gamma223 a) * ((bs_gammado122 a) + (bs_gammado212 a)) + (bs_gamma112 a) * (bs_gammado312 a) + (bs_gamma323 a) * ((bs_gammado123 a) + (bs_gammado312 a)) + (bs_gamma212 a) * (bs_gammado322 a) + (bs_gamma312 a) * (bs_gammado323 a)) * (bs_ginv22 a) + ((- (bs_deldelg2313 a)) + 2 * ((bs_gamma133 a) * (bs_gammado112 a) + (bs_gamma123 a) * (bs_gammado113 a)) + ((bs_gamma223 a) + (bs_gamma333 a)) * (bs_gammado123 a) + (bs_gamma233 a) * ((bs_gammado122 a) + (bs_gammado212 a)) + (bs_gamma223 a) * (bs_gammado213 a) + ((bs_gamma113 a) + (bs_gamma333 a)) * (bs_gammado312 a) + (bs_gamma112 a) * (bs_gammado313 a) + (bs_gamma323 a) * ((bs_gammado133 a) + (bs_gammado313 a)) + (bs_gamma213 a) * (bs_gammado322 a) + ((bs_gamma212 a) + (bs_gamma313 a)) * (bs_gammado323 a) + (bs_gamma312 a) * (bs_gammado333 a)) * (bs_ginv23 a) + ((- (1 / 2)) * (bs_deldelg3313 a) + 2 * (bs_gamma133 a) * (bs_gammado113 a) + (bs_gamma233 a) * ((bs_gammado123 a) + (bs_gammado213 a)) + (bs_gamma113 a) * (bs_gammado313 a) + (bs_gamma333 a) * ((bs_gammado133 a) + (bs_gammado313 a)) + (bs_gamma213 a) * (bs_gammado323 a) + (bs_gamma313 a) * (bs_gammado333 a)) * (bs_ginv33 a) + (1 / 2) * (((bs_gammado113 a) + (bs_gammado311 a)) * (bs_undiffdG1_3 a) + ((bs_gammado123 a) + (bs_gammado312 a)) * (bs_undiffdG2_3 a) + ((bs_gammado133 a) + (bs_gammado313 a)) * (bs_undiffdG3_3 a) + (bs_delG31 a) * (bs_g11 a) + (bs_delG32 a) * (bs_g12 a) + ((bs_delG11 a) + (bs_delG33 a)) * (bs_g13 a) + (bs_delG12 a) * (bs_g23 a) + (bs_delG13 a) * (bs_g33 a)). (* BSSN_rhs.c:1957-1996 *)
Definition bs_R13_2 (a : bs_in) : R := ((- (1 / 2)) * (bs_deldelg1113 a) + (bs_gamma113 a) * (bs_gammado111 a) + (bs_gamma213 a) * (bs_gammado112 a) + ((bs_gamma111 a) + (bs_gamma313 a)) * (bs_gammado113 a) + (bs_gamma111 a) * (bs_gammado311 a) + (bs_gamma211 a) * ((bs_gammado213 a) + (bs_gammado312 a)) + 2 * (bs_gamma311 a) * (bs_gammado313 a)) * (bs_ginv11 a) + ((- (bs_deldelg1213 a)) + (bs_gamma123 a) * (bs_gammado111 a) + ((bs_gamma113 a) + (bs_gamma223 a)) * (bs_gammado112 a) + ((bs_gamma112 a) + (bs_gamma323 a)) * (bs_gammado113 a) + (bs_gamma213 a) * (bs_gammado122 a) + ((bs_gamma111 a) + (bs_gamma313 a)) * (bs_gammado123 a) + (bs_gamma112 a) * (bs_gammado311 a) + (bs_gamma111 a) * (bs_gammado312 a) + (bs_gamma212 a) * ((bs_gammado213 a) + (bs_gammado312 a)) + (bs_gamma211 a) * ((bs_gammado223 a) + (bs_gammado322 a)) + 2 * ((bs_gamma312 a) * (bs_gammado313 a) + (bs_gamma311 a) * (bs_gammado323 a))) * (bs_ginv12 a) + ((- (bs_deldelg1313 a)) + (bs_gamma133 a) * (bs_gammado111 a) + (bs_gamma233 a) * (bs_gammado112 a) + (2 * (bs_gamma113 a) + (bs_gamma333 a)) * (bs_gammado113 a) + ((bs_gamma111 a) + (bs_gamma313 a)) * (bs_gammado133 a) + (bs_gamma113 a) * (bs_gammado311 a) + (bs_gamma213 a) * ((bs_gammado123 a) + (bs_gammado213 a) + (bs_gammado312 a)) + ((bs_gamma111 a) + 2 * (bs_gamma313 a)) * (bs_gammado313 a) + (bs_gamma211 a) * ((bs_gammado233 a) + (bs_gammado323 a)) + 2 * (bs_gamma311 a) * (bs_gammado333 a)) * (bs_ginv13 a) + ((- (1 / 2)) * (bs_deldelg2213 a) + (bs_gamma123 a) * (bs_gammado112 a) + (bs_gamma223 a) * (bs_gammado122 a) + ((bs_gamma112 a) + (bs_gamma323 a)) * (bs_gammado123 a) + (bs_gamma112 a) * (bs_gammado312 a) + (bs_gamma212 a) * ((bs_gammado223 a) + (bs_gammado322 a)) + 2 * (bs_gamma312 a) * (bs_gammado323 a)) * (bs_ginv22 a) + ((- (bs_deldelg2313 a)) + (bs_gamma133 a) * (bs_gammado112 a) + (bs_gamma123 a) * (bs_gammado113 a) + (bs_gamma233 a) * (bs_gammado122 a) + ((bs_gamma113 a) + (bs_gamma223 a) + (bs_gamma333 a)) * (bs_gammado123 a) + ((bs_gamma112 a) + (bs_gamma323 a)) * (bs_gammado133 a) + (bs_gamma113 a) * (bs_gammado312 a) + (bs_gamma112 a) * (bs_gammado313 a) + (bs_gamma213 a) * ((bs_gammado223 a) + (bs_gammado322 a)) + (bs_gamma212 a) * ((bs_gammado233 a) + (bs_gammado323 a)) + 2 * ((bs_gamma313 a) * (bs_gammado323 a) + (bs_gamma312 a) * (bs_gammado333 a))) * (bs_ginv23 a) + ((- (1 / 2)) * (bs_deldelg3313 a) + (bs_gamma133 a) * (bs_gammado113 a) + (bs_gamma233 a) * (bs_gammado123 a) + ((bs_gamma113 a) + (bs_gamma333 a)) * (bs_gammado133 a) + (bs_gamma113 a) * (bs_gammado313 a) + (bs_gamma213 a) * ((bs_gammado233 a) + (bs_gammado323 a)) + 2 * (bs_gamma313 a) * (bs_gammado333 a)) * (bs_ginv33 a) + (1 / 2) * (((bs_gammado113 a) + (bs_gammado311 a)) * (bs_undiffdG1_3 a) + ((bs_gammado123 a) + (bs_gammado312 a)) * (bs_undiffdG2_3 a) + ((bs_gammado133 a) + (bs_gammado313 a)) * (bs_undiffdG3_3 a) + (bs_delG31 a) * (bs_g11 a) + (bs_delG32 a) * (bs_g12 a) + ((bs_delG11 a) + (bs_delG33 a)) * (bs_g13 a) + (bs_delG12 a) * (bs_g23 a) + (bs_delG13 a) * (bs_g33 a)). (* BSSN_rhs.c:1998-2032 *)
Definition bs_R22 (a : bs_in) : R := ((- (1 / 2)) * (bs_deldelg1122 a) + (bs_gamma112 a) * ((bs_gammado112 a) + 2 * (bs_gammado211 a)) + 3 * (bs_gamma212 a) * (bs_gammado212 a) + (bs_gamma312 a) * (2 * (bs_gammado213 a) + (bs_gammado312 a))) * (bs_ginv11 a) + ((- (bs_deldelg1222 a)) + (bs_gamma122 a) * ((bs_gammado112 a) + 2 * (bs_gammado211 a)) + (bs_gamma112 a) * ((bs_gammado122 a) + 2 * (bs_gammado212 a)) + 3 * ((bs_gamma222 a) * (bs_gammado212 a) + (bs_gamma212 a) * (bs_gammado222 a)) + 2 * ((bs_gamma322 a) * (bs_gammado213 a) + (bs_gamma312 a) * (bs_gammado223 a)) + (bs_gamma322 a) * (bs_gammado312 a) + (bs_gamma312 a) * (bs_gammado322 a)) * (bs_ginv12 a) + ((- (bs_deldelg1322 a)) + (bs_gamma123 a) * ((bs_gammado112 a) + 2 * (bs_gammado211 a)) + (bs_gamma112 a) * ((bs_gammado123 a) + 2 * (bs_gammado213 a)) + 3 * ((bs_gamma223 a) * (bs_gammado212 a) + (bs_gamma212 a) * (bs_gammado223 a)) + 2 * ((bs_gamma323 a) * (bs_gammado213 a) + (bs_gamma312 a) * (bs_gammado233 a)) + (bs_gamma323 a) * (bs_gammado312 a) + (bs_gamma312 a) * (bs_gammado323 a)) * (bs_ginv13 a) + ((- (1 / 2)) * (bs_deldelg2222 a) + (bs_gamma122 a) * ((bs_gammado122 a) + 2 * (bs_gammado212 a)) + 3 * (bs_gamma222 a) * (bs_gammado222 a) + (bs_gamma322 a) * (2 * (bs_gammado223 a) + (bs_gammado322 a))) * (bs_ginv22 a) + ((- (bs_deldelg2322 a)) + (bs_gamma123 a) * ((bs_gammado122 a) + 2 * (bs_gammado212 a)) + (bs_gamma122 a) * ((bs_gammado123 a) + 2 * (bs_gammado213 a)) + 3 * ((bs_gamma223 a) * (bs_gammado222 a) + (bs_gamma222 a) * (bs_gammado223 a)) + 2 * ((bs_gamma323 a) * (bs_gammado223 a) + (bs_gamma322 a) * (bs_gammado233 a)) + (bs_gamma323 a) * (bs_gammado322 a) + (bs_gamma322 a) * (bs_gammado323 a)) * (bs_ginv23 a) + ((- (1 / 2)) * (bs_deldelg3322 a) + (bs_gamma123 a) * ((bs_gammado123 a) + 2 * (bs_gammado213 a)) + 3 * (bs_gamma223 a) * (bs_gammado223 a) + (bs_gamma323 a) * (2 * (bs_gammado233 a) + (bs_gammado323 a))) * (bs_ginv33 a) + (bs_gammado212 a) * (bs_undiffdG1_3 a) + (bs_gammado222 a) * (bs_undiffdG2_3 a) + (bs_gammado223 a) * (bs_undiffdG3_3 a) + (bs_delG21 a) * (bs_g12 a) + (bs_delG22 a) * (bs_g22 a) + (bs_delG23 a) * (bs_g23 a). (* BSSN_rhs.c:2034-2059 *)
Definition bs_R23 (a : bs_in) : R := ((- (1 / 2)) * (bs_deldelg1123 a) + (bs_gamma113 a) * ((bs_gammado112 a) + (bs_gammado211 a)) + 2 * (bs_gamma213 a) * (bs_gammado212 a) + (bs_gamma112 a) * (bs_gammado311 a) + (bs_gamma212 a) * (bs_gammado312 a) + (bs_gamma313 a) * ((bs_gammado213 a) + (bs_gammado312 a)) + (bs_gamma312 a) * (bs_gammado313 a)) * (bs_ginv11 a) + ((- (bs_deldelg1223 a)) + (bs_gamma123 a) * ((bs_gammado112 a) + (bs_gammado211 a)) + (bs_gamma113 a) * ((bs_gammado122 a) + (bs_gammado212 a)) + 2 * ((bs_gamma223 a) * (bs_gammado212 a) + (bs_gamma213 a) * (bs_gammado222 a)) + (bs_gamma122 a) * (bs_gammado311 a) + ((bs_gamma112 a) + (bs_gamma222 a)) * (bs_gammado312 a) + (bs_gamma323 a) * ((bs_gammado213 a) + (bs_gammado312 a)) + (bs_gamma322 a) * (bs_gammado313 a) + (bs_gamma212 a) * (bs_gammado322 a) + (bs_gamma313 a) * ((bs_gammado223 a) + (bs_gammado322 a)) + (bs_gamma312 a) * (bs_gammado323 a)) * (bs_ginv12 a) + ((- (bs_deldelg1323 a)) + (bs_gamma133 a) * ((bs_gammado112 a) + (bs_gammado211 a)) + (bs_gamma113 a) * ((bs_gammado123 a) + (bs_gammado213 a)) + 2 * ((bs_gamma233 a) * (bs_gammado212 a) + (bs_gamma213 a) * (bs_gammado223 a)) + (bs_gamma123 a) * (bs_gammado311 a) + (bs_gamma223 a) * (bs_gammado312 a) + (bs_gamma333 a) * ((bs_gammado213 a) + (bs_gammado312 a)) + ((bs_gamma112 a) + (bs_gamma323 a)) * (bs_gammado313 a) + (bs_gamma212 a) * (bs_gammado323 a) + (bs_gamma313 a) * ((bs_gammado233 a) + (bs_gammado323 a)) + (bs_gamma312 a) * (bs_gammado333 a)) * (bs_ginv13 a) + ((- (1 / 2)) * (bs_deldelg2223 a) + (bs_gamma123 a) * ((bs_gammado122 a) + (bs_gammado212 a)) + 2 * (bs_gamma223 a) * (bs_gammado222 a) + (bs_gamma122 a) * (bs_gammado312 a) + (bs_gamma222 a) * (bs_gammado322 a) + (bs_gamma323 a) * ((bs_gammado223 a) + (bs_gammado322 a)) + (bs_gamma322 a) * (bs_gammado323 a)) * (bs_ginv22 a) + ((- (bs_deldelg2323 a)) + (bs_gamma133 a) * ((bs_gammado122 a) + (bs_gammado212 a)) + (bs_gamma323 a) * (bs_gammado233 a) + (bs_gamma123 a) * ((bs_gammado123 a) + (bs_gammado213 a) + (bs_gammado312 a)) + (bs_gamma122 a) * (bs_gammado313 a) + (bs_gamma223 a) * (bs_gammado322 a) + (bs_gamma333 a) * ((bs_gammado223 a) + (bs_gammado322 a)) + (bs_gamma222 a) * (bs_gammado323 a) + 2 * ((bs_gamma233 a) * (bs_gammado222 a) + (bs_gamma223 a) * (bs_gammado223 a) + (bs_gamma323 a) * (bs_gammado323 a)) + (bs_gamma322 a) * (bs_gammado333 a)) * (bs_ginv23 a) + ((- (1 / 2)) * (bs_deldelg3323 a) + (bs_gamma133 a) * ((bs_gammado123 a) + (bs_gammado213 a)) + 2 * (bs_gamma233 a) * (bs_gammado223 a) + (bs_gamma123 a) * (bs_gammado313 a) + (bs_gamma223 a) * (bs_gammado323 a) + (bs_gamma333 a) * ((bs_gammado233 a) + (bs_gammado323 a)) + (bs_gamma323 a) * (bs_gammado333 a)) * (bs_ginv33 a) + (1 / 2) * (((bs_gammado213 a) + (bs_gammado312 a)) * (bs_undiffdG1_3 a) + ((bs_gammado223 a) + (bs_gammado322 a)) * (bs_undiffdG2_3 a) + ((bs_gammado233 a) + (bs_gammado323 a)) * (bs_undiffdG3_3 a) + (bs_delG31 a) * (bs_g12 a) + (bs_delG21 a) * (bs_g13 a) + (bs_delG32 a) * (bs_g22 a) + ((bs_delG22 a) + (bs_delG33 a)) * (bs_g23 a) + (bs_delG23 a) * (bs_g33 a)). (* BSSN_rhs.c:2061-2098 *)
Definition bs_R23_2 (a : bs_in) : R := ((- (1 / 2)) * (bs_deldelg1123 a) + (bs_gamma113 a) * (bs_gammado211 a) + (bs_gamma213 a) * (bs_gammado212 a) + ((bs_gamma212 a) + (bs_gamma313 a)) * (bs_gammado213 a) + (bs_gamma112 a) * ((bs_gammado113 a) + (bs_gammado311 a)) + (bs_gamma212 a) * (bs_gammado312 a) + 2 * (bs_gamma312 a) * (bs_gammado313 a)) * (bs_ginv11 a) + ((- (bs_deldelg1223 a)) + (bs_gamma123 a) * (bs_gammado211 a) + ((bs_gamma113 a) + (bs_gamma223 a)) * (bs_gammado212 a) + ((bs_gamma222 a) + (bs_gamma323 a)) * (bs_gammado213 a) + (bs_gamma213 a) * (bs_gammado222 a) + ((bs_gamma212 a) + (bs_gamma313 a)) * (bs_gammado223 a) + (bs_gamma122 a) * ((bs_gammado113 a) + (bs_gammado311 a)) + (bs_gamma222 a) * (bs_gammado312 a) + (bs_gamma112 a) * ((bs_gammado123 a) + (bs_gammado312 a)) + (bs_gamma212 a) * (bs_gammado322 a) + 2 * ((bs_gamma322 a) * (bs_gammado313 a) + (bs_gamma312 a) * (bs_gammado323 a))) * (bs_ginv12 a) + ((- (bs_deldelg1323 a)) + (bs_gamma133 a) * (bs_gammado211 a) + (bs_gamma233 a) * (bs_gammado212 a) + ((bs_gamma113 a) + (bs_gamma223 a) + (bs_gamma333 a)) * (bs_gammado213 a) + (bs_gamma213 a) * (bs_gammado223 a) + ((bs_gamma212 a) + (bs_gamma313 a)) * (bs_gammado233 a) + (bs_gamma123 a) * ((bs_gammado113 a) + (bs_gammado311 a)) + (bs_gamma223 a) * (bs_gammado312 a) + (bs_gamma112 a) * ((bs_gammado133 a) + (bs_gammado313 a)) + (bs_gamma212 a) * (bs_gammado323 a) + 2 * ((bs_gamma323 a) * (bs_gammado313 a) + (bs_gamma312 a) * (bs_gammado333 a))) * (bs_ginv13 a) + ((- (1 / 2)) * (bs_deldelg2223 a) + (bs_gamma123 a) * (bs_gammado212 a) + (bs_gamma223 a) * (bs_gammado222 a) + ((bs_gamma222 a) + (bs_gamma323 a)) * (bs_gammado223 a) + (bs_gamma122 a) * ((bs_gammado123 a) + (bs_gammado312 a)) + (bs_gamma222 a) * (bs_gammado322 a) + 2 * (bs_gamma322 a) * (bs_gammado323 a)) * (bs_ginv22 a) + ((- (bs_deldelg2323 a)) + (bs_gamma133 a) * (bs_gammado212 a) + (bs_gamma233 a) * (bs_gammado222 a) + (2 * (bs_gamma223 a) + (bs_gamma333 a)) * (bs_gammado223 a) + ((bs_gamma222 a) + (bs_gamma323 a)) * (bs_gammado233 a) + (bs_gamma123 a) * ((bs_gammado123 a) + (bs_gammado213 a) + (bs_gammado312 a)) + (bs_gamma122 a) * ((bs_gammado133 a) + (bs_gammado313 a)) + (bs_gamma223 a) * (bs_gammado322 a) + ((bs_gamma222 a) + 2 * (bs_gamma323 a)) * (bs_gammado323 a) + 2 * (bs_gamma322 a) * (bs_gammado333 a)) * (bs_ginv23 a) + ((- (1 / 2)) * (bs_deldelg3323 a) + (bs_gamma133 a) * (bs_gammado213 a) + (bs_gamma233 a) * (bs_gammado223 a) + ((bs_gamma223 a) + (bs_gamma333 a)) * (bs_gammado233 a) + (bs_gamma123 a) * ((bs_gammado133 a) + (bs_gammado313 a)) + (bs_gamma223 a) * (bs_gammado323 a) + 2 * (bs_gamma323 a) * (bs_gammado333 a)) * (bs_ginv33 a) + (1 / 2) * (((bs_gammado213 a) + (bs_gammado312 a)) * (bs_undiffdG1_3 a) + ((bs_gammado223 a) + (bs_gammado322 a)) * (bs_undiffdG2_3 a) + ((bs_gammado233 a) + (bs_gammado323 a)) * (bs_undiffdG3_3 a) + (bs_delG31 a) * (bs_g12 a) + (bs_delG21 a) * (bs_g13 a) + (bs_delG32 a) * (bs_g22 a) + ((bs_delG22 a) + (bs_delG33 a)) * (bs_g23 a) + (bs_delG23 a) * (bs_g33 a)). (* BSSN_rhs.c:2100-2137 *)
Definition bs_R33 (a : bs_in) : R := ((- (1 / 2)) * (bs_deldelg1133 a) + (bs_gamma113 a) * ((bs_gammado113 a) + 2 * (bs_gammado311 a)) + (bs_gamma213 a) * ((bs_gammado213 a) + 2 * (bs_gammado312 a)) + 3 * (bs_gamma313 a) * (bs_gammado313 a)) * (bs_ginv11 a) + ((- (bs_deldelg1233 a)) + (bs_gamma123 a) * ((bs_gammado113 a) + 2 * (bs_gammado311 a)) + (bs_gamma113 a) * ((bs_gammado123 a) + 2 * (bs_gammado312 a)) + (bs_gamma223 a) * ((bs_gammado213 a) + 2 * (bs_gammado312 a)) + (bs_gamma213 a) * ((bs_gammado223 a) + 2 * (bs_gammado322 a)) + 3 * ((bs_gamma323 a) * (bs_gammado313 a) + (bs_gamma313 a) * (bs_gammado323 a))) * (bs_ginv12 a) + ((- (bs_deldelg1333 a)) + (bs_gamma133 a) * ((bs_gammado113 a) + 2 * (bs_gammado311 a)) + (bs_gamma233 a) * ((bs_gammado213 a) + 2 * (bs_gammado312 a)) + (bs_gamma113 a) * ((bs_gammado133 a) + 2 * (bs_gammado313 a)) + (bs_gamma213 a) * ((bs_gammado233 a) + 2 * (bs_gammado323 a)) + 3 * ((bs_gamma333 a) * (bs_gammado313 a) + (bs_gamma313 a) * (bs_gammado333 a))) * (bs_ginv13 a) + ((- (1 / 2)) * (bs_deldelg2233 a) + (bs_gamma123 a) * ((bs_gammado123 a) + 2 * (bs_gammado312 a)) + (bs_gamma223 a) * ((bs_gammado223 a) + 2 * (bs_gammado322 a)) + 3 * (bs_gamma323 a) * (bs_gammado323 a)) * (bs_ginv22 a) + ((- (bs_deldelg2333 a)) + (bs_gamma133 a) * ((bs_gammado123 a) + 2 * (bs_gammado312 a)) + (bs_gamma123 a) * ((bs_gammado133 a) + 2 * (bs_gammado313 a)) + (bs_gamma233 a) * ((bs_gammado223 a) + 2 * (bs_gammado322 a)) + (bs_gamma223 a) * ((bs_gammado233 a) + 2 * (bs_gammado323 a)) + 3 * ((bs_gamma333 a) * (bs_gammado323 a) + (bs_gamma323 a) * (bs_gammado333 a))) * (bs_ginv23 a) + ((- (1 / 2)) * (bs_deldelg3333 a) + (bs_gamma133 a) * ((bs_gammado133 a) + 2 * (bs_gammado313 a)) + (bs_gamma233 a) * ((bs_gammado233 a) + 2 * (bs_gammado323 a)) + 3 * (bs_gamma333 a) * (bs_gammado333 a)) * (bs_ginv33 a) + (bs_gammado313 a) * (bs_undiffdG1_3 a) + (bs_gammado323 a) * (bs_undiffdG2_3 a) + (bs_gammado333 a) * (bs_undiffdG3_3 a) + (bs_delG31 a) * (bs_g13 a) + (bs_delG32 a) * (bs_g23 a) + (bs_delG33 a) * (bs_g33 a). (* BSSN_rhs.c:2139-2164 *)
Definition bs_f (a : bs_in) : R := (bs_phi a). (* BSSN_rhs.c:2166-2169 *)
Definition bs_logpsi (a : bs_in) : R := 0. (* BSSN_rhs.c:2171-2174 *)
Definition bs_logpsi_2 (a : bs_in) : R := ln ((bs_psi a)). (* BSSN_rhs.c:2181-2184 *)
Definition bs_f_2 (a : bs_in) : R := (bs_f a) + (bs_logpsi_2 a). (* BSSN_rhs.c:2186-2189 *)
Definition bs_df1_2 (a : bs_in) : R := (bs_df1 a) + (bs_dpop1 a). (* BSSN_rhs.c:2191-2194 *)
Definition bs_df2_2 (a : bs_in) : R := (bs_df2 a) + (bs_dpop2 a). (* BSSN_rhs.c:2196-2199 *)
Definition bs_df3_2 (a : bs_in) : R := (bs_df3 a) + (bs_dpop3 a). (* BSSN_rhs.c:2201-2204 *)
Definition bs_ddf11_2 (a : bs_in) : R := (bs_ddf11 a) + (bs_ddpop11 a) - pow2 ((bs_dpop1 a)). (* BSSN_rhs.c:2206-2209 *)
Definition bs_ddf12_2 (a : bs_in) : R := (bs_ddf12 a) + (bs_ddpop12 a) - (bs_dpop1 a) * (bs_dpop2 a). (* BSSN_rhs.c:2211-2214 *)
Definition bs_ddf13_2 (a : bs_in) : R := (bs_ddf13 a) + (bs_ddpop13 a) - (bs_dpop1 a) * (bs_dpop3 a). (* BSSN_rhs.c:2216-2219 *)
Definition bs_ddf22_2 (a : bs_in) : R := (bs_ddf22 a) + (bs_ddpop22 a) - pow2 ((bs_dpop2 a)). (* BSSN_rhs.c:2221-2224 *)
Definition bs_ddf23_2 (a : bs_in) : R := (bs_ddf23 a) + (bs_ddpop23 a) - (bs_dpop2 a) * (bs_dpop3 a). (* BSSN_rhs.c:2226-2229 *)
Definition bs_ddf33_2 (a : bs_in) : R := (bs_ddf33 a) + (bs_ddpop33 a) - pow2 ((bs_dpop3 a)). (* BSSN_rhs.c:2231-2234 *)
Definition bs_betadf_2 (a : bs_in) : R := (bs_betadf a) + (bs_beta1 a) * (bs_dpop1 a) + (bs_beta2 a) * (bs_dpop2 a) + (bs_beta3 a) * (bs_dpop3 a). (* BSSN_rhs.c:2236-2240 *)
Definition bs_cddf11 (a : bs_in) : R := (bs_ddf11_2 a) - (bs_df1_2 a) * (bs_gamma111 a) - (bs_df2_2 a) * (bs_gamma211 a) - (bs_df3_2 a) * (bs_gamma311 a). (* BSSN_rhs.c:2246-2249 *)
Definition bs_cddf12 (a : bs_in) : R := (bs_ddf12_2 a) - (bs_df1_2 a) * (bs_gamma112 a) - (bs_df2_2 a) * (bs_gamma212 a) - (bs_df3_2 a) * (bs_gamma312 a). (* BSSN_rhs.c:2251-2254 *)
Definition bs_cddf13 (a : bs_in) : R := (bs_ddf13_2 a) - (bs_df1_2 a) * (bs_gamma113 a) - (bs_df2_2 a) * (bs_gamma213 a) - (bs_df3_2 a) * (bs_gamma313 a). (* BSSN_rhs.c:2256-2259 *)
Definition bs_cddf22 (a : bs_in) : R := (bs_ddf22_2 a) - (bs_df1_2 a) * (bs_gamma122 a) - (bs_df2_2 a) * (bs_gamma222 a) - (bs_df3_2 a) * (bs_gamma322 a). (* BSSN_rhs.c:2261-2264 *)
Definition bs_cddf23 (a : bs_in) : R := (bs_ddf23_2 a) - (bs_df1_2 a) * (bs_gamma123 a) - (bs_df2_2 a) * (bs_gamma223 a) - (bs_df3_2 a) * (bs_gamma323 a). (* BSSN_rhs.c:2266-2269 *)
Definition bs_cddf33 (a : bs_in) : R := (bs_ddf33_2 a) - (bs_df1_2 a) * (bs_gamma133 a) - (bs_df2_2 a) * (bs_gamma233 a) - (bs_df3_2 a) * (bs_gamma333 a). (* BSSN_rhs.c:2271-2274 *)
Definition bs_trcddf (a : bs_in) : R := (bs_cddf11 a) * (bs_ginv11 a) + (bs_cddf22 a) * (bs_ginv22 a) + 2 * ((bs_cddf12 a) * (bs_ginv12 a) + (bs_cddf13 a) * (bs_ginv13 a) + (bs_cddf23 a) * (bs_ginv23 a)) + (bs_cddf33 a) * (bs_ginv33 a). (* BSSN_rhs.c:2276-2280 *)
Definition bs_psim4 (a : bs_in) : R := exp ((- 4) * (bs_f_2 a)). (* BSSN_rhs.c:2282-2285 *)
Definition bs_Rphi11 (a : bs_in) : R := (- 2) * ((bs_cddf11 a) + (bs_trcddf a) * (bs_g11 a)) + (4 - 4 * (bs_ginv11 a) * (bs_g11 a)) * pow2 ((bs_df1_2 a)) - (bs_g11 a) * (8 * ((bs_df1_2 a) * ((bs_df2_2 a) * (bs_ginv12 a) + (bs_df3_2 a) * (bs_ginv13 a)) + (bs_df2_2 a) * (bs_df3_2 a) * (bs_ginv23 a)) + 4 * ((bs_ginv22 a) * pow2 ((bs_df2_2 a)) + (bs_ginv33 a) * pow2 ((bs_df3_2 a)))). (* BSSN_rhs.c:2287-2292 *)
Definition bs_Rphi12 (a : bs_in) : R := (bs_df1_2 a) * (bs_df2_2 a) * (4 - 8 * (bs_ginv12 a) * (bs_g12 a)) - 2 * ((bs_cddf12 a) + (bs_trcddf a) * (bs_g12 a)) - (bs_g12 a) * (8 * (bs_df3_2 a) * ((bs_df1_2 a) * (bs_ginv13 a) + (bs_df2_2 a) * (bs_ginv23 a)) + 4 * ((bs_ginv11 a) * pow2 ((bs_df1_2 a)) + (bs_ginv22 a) * pow2 ((bs_df2_2 a)) + (bs_ginv33 a) * pow2 ((bs_df3_2 a)))). (* BSSN_rhs.c:2294-2299 *)
Definition bs_Rphi13 (a : bs_in) : R := (bs_df1_2 a) * (4 * (bs_df3_2 a) - 8 * (bs_df2_2 a) * (bs_ginv12 a) * (bs_g13 a)) - 2 * ((bs_cddf13 a) + (bs_trcddf a) * (bs_g13 a)) - (bs_g13 a) * (8 * (bs_df3_2 a) * ((bs_df1_2 a) * (bs_ginv13 a) + (bs_df2_2 a) * (bs_ginv23 a)) + 4 * ((bs_ginv11 a) * pow2 ((bs_df1_2 a)) + (bs_ginv22 a) * pow2 ((bs_df2_2 a)) + (bs_ginv33 a) * pow2 ((bs_df3_2 a)))). (* BSSN_rhs.c:2301-2306 *)
Definition bs_Rphi22 (a : bs_in) : R := (- 2) * ((bs_cddf22 a) + (bs_trcddf a) * (bs_g22 a)) + (4 - 4 * (bs_ginv22 a) * (bs_g22 a)) * pow2 ((bs_df2_2 a)) - (bs_g22 a) * (8 * ((bs_df1_2 a) * ((bs_df2_2 a) * (bs_ginv12 a) + (bs_df3_2 a) * (bs_ginv13 a)) + (bs_df2_2 a) * (bs_df3_2 a) * (bs_ginv23 a)) + 4 * ((bs_ginv11 a) * pow2 ((bs_df1_2 a)) + (bs_ginv33 a) * pow2 ((bs_df3_2 a)))). (* BSSN_rhs.c:2308-2313 *)
Definition bs_Rphi23 (a : bs_in) : R := (bs_df2_2 a) * (4 * (bs_df3_2 a) - 8 * (bs_df1_2 a) * (bs_ginv12 a) * (bs_g23 a)) - 2 * ((bs_cddf23 a) + (bs_trcddf a) * (bs_g23 a)) - (bs_g23 a) * (8 * (bs_df3_2 a) * ((bs_df1_2 a) * (bs_ginv13 a) + (bs_df2_2 a) * (bs_ginv23 a)) + 4 * ((bs_ginv11 a) * pow2 ((bs_df1_2 a)) + (bs_ginv22 a) * pow2 ((bs_df2_2 a)) + (bs_ginv33 a) * pow2 ((bs_df3_2 a)))). (* BSSN_rhs.c:2315-2320 *)
Definition bs_Rphi33 (a : bs_in) : R := (- 2) * ((bs_cddf33 a) + (bs_trcddf a) * (bs_g33 a)) - (bs_g33 a) * (8 * ((bs_df1_2 a) * ((bs_df2_2 a) * (bs_ginv12 a) + (bs_df3_2 a) * (bs_ginv13 a)) + (bs_df2_2 a) * (bs_df3_2 a) * (bs_ginv23 a)) + 4 * ((bs_ginv11 a) * pow2 ((bs_df1_2 a)) + (bs_ginv22 a) * pow2 ((bs_df2_2 a)))) + (4 - 4 * (bs_ginv33 a) * (bs_g33 a)) * pow2 ((bs_df3_2 a)). (* BSSN_rhs.c:2322-2328 *)
Definition bs_cdda11 (a : bs_in) : R := (bs_dda11 a) - (bs_da2 a) * (bs_gamma211 a) - (bs_da3 a) * (bs_gamma311 a) + 2 * (((bs_da2 a) * (bs_df1_2 a) + (bs_da1 a) * (bs_df2_2 a)) * (bs_ginv12 a) + ((bs_da3 a) * (bs_df1_2 a) + (bs_da1 a) * (bs_df3_2 a)) * (bs_ginv13 a) + (bs_da2 a) * (bs_df2_2 a) * (bs_ginv22 a) + ((bs_da3 a) * (bs_df2_2 a) + (bs_da2 a) * (bs_df3_2 a)) * (bs_ginv23 a) + (bs_da3 a) * (bs_df3_2 a) * (bs_ginv33 a)) * (bs_g11 a) + (bs_da1 a) * ((- 4) * (bs_df1_2 a) - (bs_gamma111 a) + 2 * (bs_df1_2 a) * (bs_ginv11 a) * (bs_g11 a)). (* BSSN_rhs.c:2330-2336 *)
Definition bs_cdda12 (a : bs_in) : R := (bs_dda12 a) - 2 * ((bs_da2 a) * (bs_df1_2 a) + (bs_da1 a) * (bs_df2_2 a)) - (bs_da1 a) * (bs_gamma112 a) - (bs_da2 a) * (bs_gamma212 a) - (bs_da3 a) * (bs_gamma312 a) + 2 * ((bs_da1 a) * (bs_df1_2 a) * (bs_ginv11 a) + ((bs_da2 a) * (bs_df1_2 a) + (bs_da1 a) * (bs_df2_2 a)) * (bs_ginv12 a) + ((bs_da3 a) * (bs_df1_2 a) + (bs_da1 a) * (bs_df3_2 a)) * (bs_ginv13 a) + (bs_da2 a) * (bs_df2_2 a) * (bs_ginv22 a) + ((bs_da3 a) * (bs_df2_2 a) + (bs_da2 a) * (bs_df3_2 a)) * (bs_ginv23 a) + (bs_da3 a) * (bs_df3_2 a) * (bs_ginv33 a)) * (bs_g12 a). (* BSSN_rhs.c:2338-2344 *)
Definition bs_cdda13 (a : bs_in) : R := (bs_dda13 a) - 2 * ((bs_da3 a) * (bs_df1_2 a) + (bs_da1 a) * (bs_df3_2 a)) - (bs_da1 a) * (bs_gamma113 a) - (bs_da2 a) * (bs_gamma213 a) - (bs_da3 a) * (bs_gamma313 a) + 2 * ((bs_da1 a) * (bs_df1_2 a) * (bs_ginv11 a) + ((bs_da2 a) * (bs_df1_2 a) + (bs_da1 a) * (bs_df2_2 a)) * (bs_ginv12 a) + ((bs_da3 a) * (bs_df1_2 a) + (bs_da1 a) * (bs_df3_2 a)) * (bs_ginv13 a) + (bs_da2 a) * (bs_df2_2 a) * (bs_ginv22 a) + ((bs_da3 a) * (bs_df2_2 a) + (bs_da2 a) * (bs_df3_2 a)) * (bs_ginv23 a) + (bs_da3 a) * (bs_df3_2 a) * (bs_ginv33 a)) * (bs_g13 a). (* BSSN_rhs.c:2346-2352 *)
Definition bs_cdda22 (a : bs_in) : R := (bs_dda22 a) - (bs_da1 a) * (bs_gamma122 a) - (bs_da3 a) * (bs_gamma322 a) + 2 * ((bs_da1 a) * (bs_df1_2 a) * (bs_ginv11 a) + ((bs_da2 a) * (bs_df1_2 a) + (bs_da1 a) * (bs_df2_2 a)) * (bs_ginv12 a) + ((bs_da3 a) * (bs_df1_2 a) + (bs_da1 a) * (bs_df3_2 a)) * (bs_ginv13 a) + ((bs_da3 a) * (bs_df2_2 a) + (bs_da2 a) * (bs_df3_2 a)) * (bs_ginv23 a) + (bs_da3 a) * (bs_df3_2 a) * (bs_ginv33 a)) * (bs_g22 a) + (bs_da2 a) * ((- 4) * (bs_df2_2 a) - (bs_gamma222 a) + 2 * (bs_df2_2 a) * (bs_ginv22 a) * (bs_g22 a)). (* BSSN_rhs.c:2354-2361 *)
Definition bs_cdda23 (a : bs_in) : R := (bs_dda23 a) - 2 * ((bs_da3 a) * (bs_df2_2 a) + (bs_da2 a) * (bs_df3_2 a)) - (bs_da1 a) * (bs_gamma123 a) - (bs_da2 a) * (bs_gamma223 a) - (bs_da3 a) * (bs_gamma323 a) + 2 * ((bs_da1 a) * (bs_df1_2 a) * (bs_ginv11 a) + ((bs_da2 a) * (bs_df1_2 a) + (bs_da1 a) * (bs_df2_2 a)) * (bs_ginv12 a) + ((bs_da3 a) * (bs_df1_2 a) + (bs_da1 a) * (bs_df3_2 a)) * (bs_ginv13 a) + (bs_da2 a) * (bs_df2_2 a) * (bs_ginv22 a) + ((bs_da3 a) * (bs_df2_2 a) + (bs_da2 a) * (bs_df3_2 a)) * (bs_ginv23 a) + (bs_da3 a) * (bs_df3_2 a) * (bs_ginv33 a)) * (bs_g23 a). (* BSSN_rhs.c:2363-2369 *)
Definition bs_cdda33 (a : bs_in) : R := (bs_dda33 a) - (bs_da1 a) * (bs_gamma133 a) - (bs_da2 a) * (bs_gamma233 a) + 2 * ((bs_da1 a) * (bs_df1_2 a) * (bs_ginv11 a) + ((bs_da2 a) * (bs_df1_2 a) + (bs_da1 a) * (bs_df2_2 a)) * (bs_ginv12 a) + ((bs_da3 a) * (bs_df1_2 a) + (bs_da1 a) * (bs_df3_2 a)) * (bs_ginv13 a) + (bs_da2 a) * (bs_df2_2 a) * (bs_ginv22 a) + ((bs_da3 a) * (bs_df2_2 a) + (bs_da2 a) * (bs_df3_2 a)) * (bs_ginv23 a)) * (bs_g33 a) + (bs_da3 a) * ((- 4) * (bs_df3_2 a) - (bs_gamma333 a) + 2 * (bs_df3_2 a) * (bs_ginv33 a) * (bs_g33 a)). (* BSSN_rhs.c:2371-2378 *)
Definition bs_trcdda (a : bs_in) : R := ((bs_cdda11 a) * (bs_ginv11 a) + (bs_cdda22 a) * (bs_ginv22 a) + 2 * ((bs_cdda12 a) * (bs_ginv12 a) + (bs_cdda13 a) * (bs_ginv13 a) + (bs_cdda23 a) * (bs_ginv23 a)) + (bs_cdda33 a) * (bs_ginv33 a)) * (bs_psim4 a). (* BSSN_rhs.c:2380-2384 *)
Definition bs_K_2 (a : bs_in) : R := (bs_forceKzerofactor a) * (bs_K a). (* BSSN_rhs.c:2386-2389 *)
Definition bs_dK1_2 (a : bs_in) : R := (bs_forceKzerofactor a) * (bs_dK1 a). (* BSSN_rhs.c:2391-2394 *)
Definition bs_dK2_2 (a : bs_in) : R := (bs_forceKzerofactor a) * (bs_dK2 a). (* BSSN_rhs.c:2396-2399 *)
Definition bs_dK3_2 (a : bs_in) : R := (bs_forceKzerofactor a) * (bs_dK3 a). (* BSSN_rhs.c:2401-2404 *)
Definition bs_AA11 (a : bs_in) : R := 2 * ((bs_ginv23 a) * (bs_A12 a) * (bs_A13 a) + (bs_A11 a) * ((bs_ginv12 a) * (bs_A12 a) + (bs_ginv13 a) * (bs_A13 a))) + (bs_ginv11 a) * pow2 ((bs_A11 a)) + (bs_ginv22 a) * pow2 ((bs_A12 a)) + (bs_ginv33 a) * pow2 ((bs_A13 a)). (* BSSN_rhs.c:2406-2411 *)
Definition bs_AA12 (a : bs_in) : R := (bs_A12 a) * ((bs_ginv11 a) * (bs_A11 a) + (bs_ginv22 a) * (bs_A22 a)) + (bs_ginv33 a) * (bs_A13 a) * (bs_A23 a) + (bs_ginv13 a) * ((bs_A12 a) * (bs_A13 a) + (bs_A11 a) * (bs_A23 a)) + (bs_ginv23 a) * ((bs_A13 a) * (bs_A22 a) + (bs_A12 a) * (bs_A23 a)) + (bs_ginv12 a) * ((bs_A11 a) * (bs_A22 a) + pow2 ((bs_A12 a))). (* BSSN_rhs.c:2413-2419 *)
Definition bs_AA13 (a : bs_in) : R := (bs_ginv22 a) * (bs_A12 a) * (bs_A23 a) + (bs_ginv12 a) * ((bs_A12 a) * (bs_A13 a) + (bs_A11 a) * (bs_A23 a)) + (bs_A13 a) * ((bs_ginv11 a) * (bs_A11 a) + (bs_ginv33 a) * (bs_A33 a)) + (bs_ginv23 a) * ((bs_A13 a) * (bs_A23 a) + (bs_A12 a) * (bs_A33 a)) + (bs_ginv13 a) * ((bs_A11 a) * (bs_A33 a) + pow2 ((bs_A13 a))). (* BSSN_rhs.c:2421-2427 *)
Definition bs_AA22 (a : bs_in) : R := 2 * ((bs_ginv23 a) * (bs_A22 a) * (bs_A23 a) + (bs_A12 a) * ((bs_ginv12 a) * (bs_A22 a) + (bs_ginv13 a) * (bs_A23 a))) + (bs_ginv11 a) * pow2 ((bs_A12 a)) + (bs_ginv22 a) * pow2 ((bs_A22 a)) + (bs_ginv33 a) * pow2 ((bs_A23 a)). (* BSSN_rhs.c:2429-2434 *)
Definition bs_AA23 (a : bs_in) : R := (bs_ginv11 a) * (bs_A12 a) * (bs_A13 a) + (bs_ginv12 a) * ((bs_A13 a) * (bs_A22 a) + (bs_A12 a) * (bs_A23 a)) + (bs_A23 a) * ((bs_ginv22 a) * (bs_A22 a) + (bs_ginv33 a) * (bs_A33 a)) + (bs_ginv13 a) * ((bs_A13 a) * (bs_A23 a) + (bs_A12 a) * (bs_A33 a)) + (bs_ginv23 a) * ((bs_A22 a) * (bs_A33 a) + pow2 ((bs_A23 a))). (* BSSN_rhs.c:2436-2442 *)
Definition bs_AA33 (a : bs_in) : R := 2 * ((bs_ginv23 a) * (bs_A23 a) * (bs_A33 a) + (bs_A13 a) * ((bs_ginv12 a) * (bs_A23 a) + (bs_ginv13 a) * (bs_A33 a))) + (bs_ginv11 a) * pow2 ((bs_A13 a)) + (bs_ginv22 a) * pow2 ((bs_A23 a)) + (bs_ginv33 a) * pow2 ((bs_A33 a)). (* BSSN_rhs.c:2444-2449 *)
Definition bs_AA (a : bs_in) : R := (bs_AA11 a) * (bs_ginv11 a) + (bs_AA22 a) * (bs_ginv22 a) + 2 * ((bs_AA12 a) * (bs_ginv12 a) + (bs_AA13 a) * (bs_ginv13 a) + (bs_AA23 a) * (bs_ginv23 a)) + (bs_AA33 a) * (bs_ginv33 a). (* BSSN_rhs.c:2451-2455 *)
Definition bs_Ainv11 (a : bs_in) : R := 2 * ((bs_ginv11 a) * ((bs_ginv12 a) * (bs_A12 a) + (bs_ginv13 a) * (bs_A13 a)) + (bs_ginv12 a) * (bs_ginv13 a) * (bs_A23 a)) + (bs_A11 a) * pow2 ((bs_ginv11 a)) + (bs_A22 a) * pow2 ((bs_ginv12 a)) + (bs_A33 a) * pow2 ((bs_ginv13 a)). (* BSSN_rhs.c:2457-2461 *)
Definition bs_Ainv12 (a : bs_in) : R := (bs_ginv11 a) * ((bs_ginv12 a) * (bs_A11 a) + (bs_ginv22 a) * (bs_A12 a) + (bs_ginv23 a) * (bs_A13 a)) + (bs_ginv12 a) * ((bs_ginv13 a) * (bs_A13 a) + (bs_ginv22 a) * (bs_A22 a) + (bs_ginv23 a) * (bs_A23 a)) + (bs_ginv13 a) * ((bs_ginv22 a) * (bs_A23 a) + (bs_ginv23 a) * (bs_A33 a)) + (bs_A12 a) * pow2 ((bs_ginv12 a)). (* BSSN_rhs.c:2463-2468 *)
Definition bs_Ainv13 (a : bs_in) : R := (bs_ginv11 a) * ((bs_ginv13 a) * (bs_A11 a) + (bs_ginv23 a) * (bs_A12 a) + (bs_ginv33 a) * (bs_A13 a)) + (bs_ginv12 a) * ((bs_ginv13 a) * (bs_A12 a) + (bs_ginv23 a) * (bs_A22 a) + (bs_ginv33 a) * (bs_A23 a)) + (bs_ginv13 a) * ((bs_ginv23 a) * (bs_A23 a) + (bs_ginv33 a) * (bs_A33 a)) + (bs_A13 a) * pow2 ((bs_ginv13 a)). (* BSSN_rhs.c:2470-2475 *)
Definition bs_Ainv22 (a : bs_in) : R := 2 * ((bs_ginv12 a) * ((bs_ginv22 a) * (bs_A12 a) + (bs_ginv23 a) * (bs_A13 a)) + (bs_ginv22 a) * (bs_ginv23 a) * (bs_A23 a)) + (bs_A11 a) * pow2 ((bs_ginv12 a)) + (bs_A22 a) * pow2 ((bs_ginv22 a)) + (bs_A33 a) * pow2 ((bs_ginv23 a)). (* BSSN_rhs.c:2477-2481 *)
Definition bs_Ainv23 (a : bs_in) : R := (bs_ginv13 a) * ((bs_ginv22 a) * (bs_A12 a) + (bs_ginv23 a) * (bs_A13 a)) + (bs_ginv12 a) * ((bs_ginv13 a) * (bs_A11 a) + (bs_ginv23 a) * (bs_A12 a) + (bs_ginv33 a) * (bs_A13 a)) + (bs_ginv22 a) * ((bs_ginv23 a) * (bs_A22 a) + (bs_ginv33 a) * (bs_A23 a)) + (bs_ginv23 a) * (bs_ginv33 a) * (bs_A33 a) + (bs_A23 a) * pow2 ((bs_ginv23 a)). (* BSSN_rhs.c:2483-2489 *)
Definition bs_Ainv33 (a : bs_in) : R := 2 * ((bs_ginv13 a) * ((bs_ginv23 a) * (bs_A12 a) + (bs_ginv33 a) * (bs_A13 a)) + (bs_ginv23 a) * (bs_ginv33 a) * (bs_A23 a)) + (bs_A11 a) * pow2 ((bs_ginv13 a)) + (bs_A22 a) * pow2 ((bs_ginv23 a)) + (bs_A33 a) * pow2 ((bs_ginv33 a)). (* BSSN_rhs.c:2491-2495 *)
Definition bs_divAinv1 (a : bs_in) : R := (- 6) * ((bs_Ainv11 a) * (bs_df1_2 a) + (bs_Ainv12 a) * (bs_df2_2 a) + (bs_Ainv13 a) * (bs_df3_2 a)) - (bs_Ainv11 a) * (bs_gamma111 a) - (bs_Ainv22 a) * (bs_gamma122 a) - 2 * ((bs_Ainv12 a) * (bs_gamma112 a) + (bs_Ainv13 a) * (bs_gamma113 a) + (bs_Ainv23 a) * (bs_gamma123 a)) - (bs_Ainv33 a) * (bs_gamma133 a) + (2 / 3) * ((bs_ginv11 a) * (bs_dK1_2 a) + (bs_ginv12 a) * (bs_dK2_2 a) + (bs_ginv13 a) * (bs_dK3_2 a)). (* BSSN_rhs.c:2497-2504 *)
Definition bs_divAinv2 (a : bs_in) : R := (- 6) * ((bs_Ainv12 a) * (bs_df1_2 a) + (bs_Ainv22 a) * (bs_df2_2 a) + (bs_Ainv23 a) * (bs_df3_2 a)) - (bs_Ainv11 a) * (bs_gamma211 a) - (bs_Ainv22 a) * (bs_gamma222 a) - 2 * ((bs_Ainv12 a) * (bs_gamma212 a) + (bs_Ainv13 a) * (bs_gamma213 a) + (bs_Ainv23 a) * (bs_gamma223 a)) - (bs_Ainv33 a) * (bs_gamma233 a) + (2 / 3) * ((bs_ginv12 a) * (bs_dK1_2 a) + (bs_ginv22 a) * (bs_dK2_2 a) + (bs_ginv23 a) * (bs_dK3_2 a)). (* BSSN_rhs.c:2506-2513 *)
Definition bs_divAinv3 (a : bs_in) : R := (- 6) * ((bs_Ainv13 a) * (bs_df1_2 a) + (bs_Ainv23 a) * (bs_df2_2 a) + (bs_Ainv33 a) * (bs_df3_2 a)) - (bs_Ainv11 a) * (bs_gamma311 a) - (bs_Ainv22 a) * (bs_gamma322 a) - 2 * ((bs_Ainv12 a) * (bs_gamma312 a) + (bs_Ainv13 a) * (bs_gamma313 a) + (bs_Ainv23 a) * (bs_gamma323 a)) - (bs_Ainv33 a) * (bs_gamma333 a) + (2 / 3) * ((bs_ginv13 a) * (bs_dK1_2 a) + (bs_ginv23 a) * (bs_dK2_2 a) + (bs_ginv33 a) * (bs_dK3_2 a)). (* BSSN_rhs.c:2515-2522 *)
Definition bs_trRicci (a : bs_in) : R := (bs_psim4 a) * ((bs_ginv11 a) * ((bs_R11 a) + (bs_Rphi11 a)) + (bs_ginv22 a) * ((bs_R22 a) + (bs_Rphi22 a)) + 2 * ((bs_ginv12 a) * ((bs_R12_2 a) + (bs_Rphi12 a)) + (bs_ginv13 a) * ((bs_R13_2 a) + (bs_Rphi13 a)) + (bs_ginv23 a) * ((bs_R23_2 a) + (bs_Rphi23 a))) + (bs_ginv33 a) * ((bs_R33 a) + (bs_Rphi33 a))). (* BSSN_rhs.c:2524-2529 *)
Definition bs_KK (a : bs_in) : R := pow2 ((bs_K_2 a)). (* BSSN_rhs.c:2531-2534 *)
Definition bs_hamil (a : bs_in) : R := (- (bs_AA a)) + (2 / 3) * (bs_KK a) + (bs_trRicci a). (* BSSN_rhs.c:2536-2539 *)
Definition bs_Abshamil (a : bs_in) : R := Rabs ((bs_hamil a)). (* BSSN_rhs.c:2541-2544 *)
Definition bs_R (a : bs_in) : R := (- ((bs_hamil a) * (bs_RtoRminusHfactor a))) + (bs_trRicci a). (* BSSN_rhs.c:2546-2549 *)
Definition bs_divbeta (a : bs_in) : R := (bs_db11 a) + (bs_db22 a) + (bs_db33 a). (* BSSN_rhs.c:2551-2554 *)
Definition bs_totdivbeta (a : bs_in) : R := (2 / 3) * (bs_divbeta a). (* BSSN_rhs.c:2556-2559 *)
Definition bs_ootddivbeta1 (a : bs_in) : R := (1 / 3) * ((bs_ddb111 a) + (bs_ddb122 a) + (bs_ddb133 a)). (* BSSN_rhs.c:2561-2564 *)
Definition bs_ootddivbeta2 (a : bs_in) : R := (1 / 3) * ((bs_ddb121 a) + (bs_ddb222 a) + (bs_ddb233 a)). (* BSSN_rhs.c:2566-2569 *)
Definition bs_ootddivbeta3 (a : bs_in) : R := (1 / 3) * ((bs_ddb131 a) + (bs_ddb232 a) + (bs_ddb333 a)). (* BSSN_rhs.c:2571-2574 *)
Definition bs_lieg11 (a : bs_in) : R := (bs_betadg11 a) + (2 * (bs_db11 a) - (bs_totdivbeta a)) * (bs_g11 a) + 2 * ((bs_db12 a) * (bs_g12 a) + (bs_db13 a) * (bs_g13 a)). (* BSSN_rhs.c:2576-2580 *)
Definition bs_lieg12 (a : bs_in) : R := (bs_betadg12 a) + (bs_db21 a) * (bs_g11 a) + ((bs_db11 a) + (bs_db22 a) - (bs_totdivbeta a)) * (bs_g12 a) + (bs_db23 a) * (bs_g13 a) + (bs_db12 a) * (bs_g22 a) + (bs_db13 a) * (bs_g23 a). (* BSSN_rhs.c:2582-2586 *)
Definition bs_lieg12_2 (a : bs_in) : R := (bs_betadg21 a) + (bs_db21 a) * (bs_g11 a) + ((bs_db11 a) + (bs_db22 a) - (bs_totdivbeta a)) * (bs_g12 a) + (bs_db23 a) * (bs_g13 a) + (bs_db12 a) * (bs_g22 a) + (bs_db13 a) * (bs_g23 a). (* BSSN_rhs.c:2588-2592 *)
Definition bs_lieg13 (a : bs_in) : R := (bs_betadg13 a) + (bs_db31 a) * (bs_g11 a) + (bs_db32 a) * (bs_g12 a) + ((bs_db11 a) + (bs_db33 a) - (bs_totdivbeta a)) * (bs_g13 a) + (bs_db12 a) * (bs_g23 a) + (bs_db13 a) * (bs_g33 a). (* BSSN_rhs.c:2594-2598 *)
Definition bs_lieg13_2 (a : bs_in) : R := (bs_betadg31 a) + (bs_db31 a) * (bs_g11 a) + (bs_db32 a) * (bs_g12 a) + ((bs_db11 a) + (bs_db33 a) - (bs_totdivbeta a)) * (bs_g13 a) + (bs_db12 a) * (bs_g23 a) + (bs_db13 a) * (bs_g33 a). (* BSSN_rhs.c:2600-2604 *)
Definition bs_lieg22 (a : bs_in) : R := (bs_betadg22 a) - (bs_totdivbeta a) * (bs_g22 a) + 2 * ((bs_db21 a) * (bs_g12 a) + (bs_db22 a) * (bs_g22 a) + (bs_db23 a) * (bs_g23 a)). (* BSSN_rhs.c:2606-2610 *)
Definition bs_lieg23 (a : bs_in) : R := (bs_betadg23 a) + (bs_db31 a) * (bs_g12 a) + (bs_db21 a) * (bs_g13 a) + (bs_db32 a) * (bs_g22 a) + ((bs_db22 a) + (bs_db33 a) - (bs_totdivbeta a)) * (bs_g23 a) + (bs_db23 a) * (bs_g33 a). (* BSSN_rhs.c:2612-2616 *)
Definition bs_lieg23_2 (a : bs_in) : R := (bs_betadg32 a) + (bs_db31 a) * (bs_g12 a) + (bs_db21 a) * (bs_g13 a) + (bs_db32 a) * (bs_g22 a) + ((bs_db22 a) + (bs_db33 a) - (bs_totdivbeta a)) * (bs_g23 a) + (bs_db23 a) * (bs_g33 a). (* BSSN_rhs.c:2618-2622 *)
Definition bs_lieg33 (a : bs_in) : R := (bs_betadg33 a) - (bs_totdivbeta a) * (bs_g33 a) + 2 * ((bs_db31 a) * (bs_g13 a) + (bs_db32 a) * (bs_g23 a) + (bs_db33 a) * (bs_g33 a)). (* BSSN_rhs.c:2624-2628 *)
Definition bs_lieA11 (a : bs_in) : R := (bs_betadA11 a) + (2 * (bs_db11 a) - (bs_totdivbeta a)) * (bs_A11 a) + 2 * ((bs_db12 a) * (bs_A12 a) + (bs_db13 a) * (bs_A13 a)). (* BSSN_rhs.c:2630-2634 *)
Definition bs_lieA12 (a : bs_in) : R := (bs_betadA12 a) + (bs_db21 a) * (bs_A11 a) + ((bs_db11 a) + (bs_db22 a) - (bs_totdivbeta a)) * (bs_A12 a) + (bs_db23 a) * (bs_A13 a) + (bs_db12 a) * (bs_A22 a) + (bs_db13 a) * (bs_A23 a). (* BSSN_rhs.c:2636-2640 *)
Definition bs_lieA12_2 (a : bs_in) : R := (bs_betadA21 a) + (bs_db21 a) * (bs_A11 a) + ((bs_db11 a) + (bs_db22 a) - (bs_totdivbeta a)) * (bs_A12 a) + (bs_db23 a) * (bs_A13 a) + (bs_db12 a) * (bs_A22 a) + (bs_db13 a) * (bs_A23 a). (* BSSN_rhs.c:2642-2646 *)
Definition bs_lieA13 (a : bs_in) : R := (bs_betadA13 a) + (bs_db31 a) * (bs_A11 a) + (bs_db32 a) * (bs_A12 a) + ((bs_db11 a) + (bs_db33 a) - (bs_totdivbeta a)) * (bs_A13 a) + (bs_db12 a) * (bs_A23 a) + (bs_db13 a) * (bs_A33 a). (* BSSN_rhs.c:2648-2652 *)
Definition bs_lieA13_2 (a : bs_in) : R := (bs_betadA31 a) + (bs_db31 a) * (bs_A11 a) + (bs_db32 a) * (bs_A12 a) + ((bs_db11 a) + (bs_db33 a) - (bs_totdivbeta a)) * (bs_A13 a) + (bs_db12 a) * (bs_A23 a) + (bs_db13 a) * (bs_A33 a). (* BSSN_rhs.c:2654-2658 *)
Definition bs_lieA22 (a : bs_in) : R := (bs_betadA22 a) - (bs_totdivbeta a) * (bs_A22 a) + 2 * ((bs_db21 a) * (bs_A12 a) + (bs_db22 a) * (bs_A22 a) + (bs_db23 a) * (bs_A23 a)). (* BSSN_rhs.c:2660-2664 *)
Definition bs_lieA23 (a : bs_in) : R := (bs_betadA23 a) + (bs_db31 a) * (bs_A12 a) + (bs_db21 a) * (bs_A13 a) + (bs_db32 a) * (bs_A22 a) + ((bs_db22 a) + (bs_db33 a) - (bs_totdivbeta a)) * (bs_A23 a) + (bs_db23 a) * (bs_A33 a). (* BSSN_rhs.c:2666-2670 *)
Definition bs_lieA23_2 (a : bs_in) : R := (bs_betadA32 a) + (bs_db31 a) * (bs_A12 a) + (bs_db21 a) * (bs_A13 a) + (bs_db32 a) * (bs_A22 a) + ((bs_db22 a) + (bs_db33 a) - (bs_totdivbeta a)) * (bs_A23 a) + (bs_db23 a) * (bs_A33 a). (* BSSN_rhs.c:2672-2676 *)
Definition bs_lieA33 (a : bs_in) : R := (bs_betadA33 a) - (bs_totdivbeta a) * (bs_A33 a) + 2 * ((bs_db31 a) * (bs_A13 a) + (bs_db32 a) * (bs_A23 a) + (bs_db33 a) * (bs_A33 a)). (* BSSN_rhs.c:2678-2682 *)
Definition bs_lieK (a : bs_in) : R := (bs_betadK a). (* BSSN_rhs.c:2684-2687 *)
Definition bs_liephi (a : bs_in) : R := (bs_betadf_2 a) + (1 / 6) * (bs_divbeta a). (* BSSN_rhs.c:2689-2692 *)
Definition bs_pseudolieG1 (a : bs_in) : R := (bs_betadG1 a) + (bs_ddb221 a) * (bs_ginv22 a) + 2 * (bs_ddb231 a) * (bs_ginv23 a) + (bs_ddb331 a) * (bs_ginv33 a) + (bs_ginv11 a) * ((bs_ddb111 a) + (bs_ootddivbeta1 a)) + (bs_ginv12 a) * (2 * (bs_ddb121 a) + (bs_ootddivbeta2 a)) + (bs_ginv13 a) * (2 * (bs_ddb131 a) + (bs_ootddivbeta3 a)) + ((- (bs_db11 a)) + (bs_totdivbeta a)) * (bs_undiffdG1_3 a) - (bs_db21 a) * (bs_undiffdG2_3 a) - (bs_db31 a) * (bs_undiffdG3_3 a). (* BSSN_rhs.c:2694-2700 *)
Definition bs_pseudolieG2 (a : bs_in) : R := (bs_betadG2 a) + (bs_ddb112 a) * (bs_ginv11 a) + 2 * (bs_ddb132 a) * (bs_ginv13 a) + (bs_ddb332 a) * (bs_ginv33 a) + (bs_ginv12 a) * (2 * (bs_ddb122 a) + (bs_ootddivbeta1 a)) + (bs_ginv22 a) * ((bs_ddb222 a) + (bs_ootddivbeta2 a)) + (bs_ginv23 a) * (2 * (bs_ddb232 a) + (bs_ootddivbeta3 a)) - (bs_db12 a) * (bs_undiffdG1_3 a) - (bs_db22 a) * (bs_undiffdG2_3 a) + (bs_totdivbeta a) * (bs_undiffdG2_3 a) - (bs_db32 a) * (bs_undiffdG3_3 a). (* BSSN_rhs.c:2702-2708 *)
Definition bs_pseudolieG3 (a : bs_in) : R := (bs_betadG3 a) + (bs_ddb113 a) * (bs_ginv11 a) + 2 * (bs_ddb123 a) * (bs_ginv12 a) + (bs_ddb223 a) * (bs_ginv22 a) + (bs_ginv13 a) * (2 * (bs_ddb133 a) + (bs_ootddivbeta1 a)) + (bs_ginv23 a) * (2 * (bs_ddb233 a) + (bs_ootddivbeta2 a)) + (bs_ginv33 a) * ((bs_ddb333 a) + (bs_ootddivbeta3 a)) - (bs_db13 a) * (bs_undiffdG1_3 a) - (bs_db23 a) * (bs_undiffdG2_3 a) - (bs_db33 a) * (bs_undiffdG3_3 a) + (bs_totdivbeta a) * (bs_undiffdG3_3 a). (* BSSN_rhs.c:2710-2716 *)
Definition bs_rg11 (a : bs_in) : R := (bs_lieg11 a) - 2 * (bs_A11 a) * (bs_alpha a). (* BSSN_rhs.c:2718-2721 *)
Definition bs_rg12 (a : bs_in) : R := (bs_lieg12_2 a) - 2 * (bs_A12 a) * (bs_alpha a). (* BSSN_rhs.c:2723-2726 *)
Definition bs_rg13 (a : bs_in) : R := (bs_lieg13_2 a) - 2 * (bs_A13 a) * (bs_alpha a). (* BSSN_rhs.c:2728-2731 *)
Definition bs_rg22 (a : bs_in) : R := (bs_lieg22 a) - 2 * (bs_A22 a) * (bs_alpha a). (* BSSN_rhs.c:2733-2736 *)
Definition bs_rg23 (a : bs_in) : R := (bs_lieg23_2 a) - 2 * (bs_A23 a) * (bs_alpha a). (* BSSN_rhs.c:2738-2741 *)
Definition bs_rg33 (a : bs_in) : R := (bs_lieg33 a) - 2 * (bs_A33 a) * (bs_alpha a). (* BSSN_rhs.c:2743-2746 *)
Definition bs_rA11 (a : bs_in) : R := (bs_lieA11 a) + (bs_psim4 a) * ((- (bs_cdda11 a)) + (bs_R11 a) * (bs_alpha a)) + (1 / 3) * (bs_trcdda a) * (bs_g11 a) + (bs_alpha a) * ((- 2) * (bs_AA11 a) + (bs_psim4 a) * (bs_Rphi11 a) - (1 / 3) * (bs_R a) * (bs_g11 a) + (bs_A11 a) * (bs_K_2 a)). (* BSSN_rhs.c:2748-2754 *)
Definition bs_rA12 (a : bs_in) : R := (bs_lieA12_2 a) + (bs_psim4 a) * ((- (bs_cdda12 a)) + (bs_R12_2 a) * (bs_alpha a)) + (1 / 3) * (bs_trcdda a) * (bs_g12 a) + (bs_alpha a) * ((- 2) * (bs_AA12 a) + (bs_psim4 a) * (bs_Rphi12 a) - (1 / 3) * (bs_R a) * (bs_g12 a) + (bs_A12 a) * (bs_K_2 a)). (* BSSN_rhs.c:2756-2762 *)
Definition bs_rA13 (a : bs_in) : R := (bs_lieA13_2 a) + (bs_psim4 a) * ((- (bs_cdda13 a)) + (bs_R13_2 a) * (bs_alpha a)) + (1 / 3) * (bs_trcdda a) * (bs_g13 a) + (bs_alpha a) * ((- 2) * (bs_AA13 a) + (bs_psim4 a) * (bs_Rphi13 a) - (1 / 3) * (bs_R a) * (bs_g13 a) + (bs_A13 a) * (bs_K_2 a)). (* BSSN_rhs.c:2764-2770 *)
Definition bs_rA22 (a : bs_in) : R := (bs_lieA22 a) + (bs_psim4 a) * ((- (bs_cdda22 a)) + (bs_R22 a) * (bs_alpha a)) + (1 / 3) * (bs_trcdda a) * (bs_g22 a) + (bs_alpha a) * ((- 2) * (bs_AA22 a) + (bs_psim4 a) * (bs_Rphi22 a) - (1 / 3) * (bs_R a) * (bs_g22 a) + (bs_A22 a) * (bs_K_2 a)). (* BSSN_rhs.c:2772-2778 *)
Definition bs_rA23 (a : bs_in) : R := (bs_lieA23_2 a) + (bs_psim4 a) * ((- (bs_cdda23 a)) + (bs_R23_2 a) * (bs_alpha a)) + (1 / 3) * (bs_trcdda a) * (bs_g23 a) + (bs_alpha a) * ((- 2) * (bs_AA23 a) + (bs_psim4 a) * (bs_Rphi23 a) - (1 / 3) * (bs_R a) * (bs_g23 a) + (bs_A23 a) * (bs_K_2 a)). (* BSSN_rhs.c:2780-2786 *)
Definition bs_rA33 (a : bs_in) : R := (bs_lieA33 a) + (bs_psim4 a) * ((- (bs_cdda33 a)) + (bs_R33 a) * (bs_alpha a)) + (1 / 3) * (bs_trcdda a) * (bs_g33 a) + (bs_alpha a) * ((- 2) * (bs_AA33 a) + (bs_psim4 a) * (bs_Rphi33 a) - (1 / 3) * (bs_R a) * (bs_g33 a) + (bs_A33 a) * (bs_K_2 a)). (* BSSN_rhs.c:2788-2794 *)
Definition bs_rG1 (a : bs_in) : R := (bs_evolveGamma a) * ((bs_pseudolieG1 a) - 2 * ((bs_Ainv11 a) * (bs_da1 a) + (bs_Ainv12 a) * (bs_da2 a) + (bs_Ainv13 a) * (bs_da3 a) + (bs_divAinv1 a) * (bs_alpha a)) + (bs_divbeta a) * (bs_YoTermFactor a) * ((bs_Gfromg1 a) - (bs_G1 a))). (* BSSN_rhs.c:2796-2800 *)
Definition bs_rG2 (a : bs_in) : R := (bs_evolveGamma a) * ((bs_pseudolieG2 a) - 2 * ((bs_Ainv12 a) * (bs_da1 a) + (bs_Ainv22 a) * (bs_da2 a) + (bs_Ainv23 a) * (bs_da3 a) + (bs_divAinv2 a) * (bs_alpha a)) + (bs_divbeta a) * (bs_YoTermFactor a) * ((bs_Gfromg2 a) - (bs_G2 a))). (* BSSN_rhs.c:2802-2806 *)
Definition bs_rG3 (a : bs_in) : R := (bs_evolveGamma a) * ((bs_pseudolieG3 a) - 2 * ((bs_Ainv13 a) * (bs_da1 a) + (bs_Ainv23 a) * (bs_da2 a) + (bs_Ainv33 a) * (bs_da3 a) + (bs_divAinv3 a) * (bs_alpha a)) + (bs_divbeta a) * (bs_YoTermFactor a) * ((bs_Gfromg3 a) - (bs_G3 a))). (* BSSN_rhs.c:2808-2812 *)
Definition bs_rK (a : bs_in) : R := (bs_lieK a) - (bs_trcdda a) + (bs_alpha a) * ((bs_AA a) + (1 / 3) * pow2 ((bs_K_2 a))). (* BSSN_rhs.c:2814-2817 *)
Definition bs_rphi (a : bs_in) : R := (bs_liephi a) - (1 / 6) * (bs_alpha a) * (bs_K_2 a). (* BSSN_rhs.c:2819-2822 *)
Definition bs_rphi_2 (a : bs_in) : R := (bs_liephi a) + ((1 / 4) * ((- (bs_AA a)) + (bs_trRicci a)) * (bs_alpha a)) / (bs_K_2 a). (* BSSN_rhs.c:2829-2832 *)
Definition bs_rphi_3 (a : bs_in) : R := if (s_flag a FGentlePhiRHS && (if Rlt_dec (bs_Abshamil a) (bs_KK a) then true else false))%bool then bs_rphi_2 a else bs_rphi a. (* BSSN_rhs.c:2827 *)
Definition bs_ralpha0 (a : bs_in) : R := (6 * (bs_liephi a) * (bs_oplogwithshift a) + (bs_alpha a) * ((- (bs_K_2 a)) + (bs_subtractK0 a) * (bs_K0 a))) * Rpower ((bs_psi a)) ((bs_lapsepsipower a)). (* BSSN_rhs.c:2838-2842 *)
Definition bs_ralpha (a : bs_in) : R := (bs_addliealpha a) * (bs_betadalp a) + (bs_nonconstantlapse a) * (bs_ralpha0 a) * ((bs_lapseharmonicf a) * (bs_oploglapse a) + (8 * (bs_oploglapse2 a)) / (9 - 3 * (bs_alpha a)) + (bs_harmoniclapse a) * (bs_alpha a)) + (bs_addalphaRHSterm a) * (bs_alphaRHS a). (* BSSN_rhs.c:2844-2849 *)
Definition bs_E6alphaDensityWeightf (a : bs_in) : R := exp (6 * (bs_alphaDensityWeight a) * (bs_f_2 a)). (* BSSN_rhs.c:2856-2859 *)
Definition bs_ooE6alphaDensityWeightf (a : bs_in) : R := 1 / (bs_E6alphaDensityWeightf a). (* BSSN_rhs.c:2861-2864 *)
Definition bs_ralphaDensity (a : bs_in) : R := (bs_ooE6alphaDensityWeightf a) * (bs_ralpha a) - 6 * (bs_alphaDensityWeight a) * (bs_rphi_3 a) * (bs_alphaDensity a). (* BSSN_rhs.c:2866-2869 *)
Definition bs_ralphaDensity_2 (a : bs_in) : R := (bs_alphaDensity a) * ((bs_alphaDensityWeight a) * (bs_alpha a) * ((bs_K_2 a) - (bs_subtractK0 a) * (bs_K0 a)) + (bs_lapseharmonicf a) * ((- (bs_K_2 a)) + (bs_subtractK0 a) * (bs_K0 a)) * Rpower ((bs_psi a)) ((bs_lapsepsipower a))). (* BSSN_rhs.c:2876-2882 *)
Definition bs_ralphaDensity_3 (a : bs_in) : R := if s_flag a FdensitizedoplogWithoutShift then bs_ralphaDensity_2 a else bs_ralphaDensity a. (* BSSN_rhs.c:2874 *)
Definition bs_ralphaDensity_4 (a : bs_in) : R := (bs_nonconstantlapse a) * (bs_ralphaDensity_3 a). (* BSSN_rhs.c:2888-2891 *)
Definition bs_betaF (a : bs_in) : R := ((bs_shiftgammacoeff a) * Rpower ((bs_alpha a)) ((bs_shiftalphapower a))) / Rpower ((bs_psi a)) ((bs_shiftpsipower a)). (* BSSN_rhs.c:2897-2901 *)
Definition bs_rbeta1 (a : bs_in) : R := (bs_evolveshift a) * ((bs_betaF a) * (bs_gamma0factor a) + (bs_gamma2factor a)) * (bs_B1 a). (* BSSN_rhs.c:2903-2906 *)
Definition bs_rbeta2 (a : bs_in) : R := (bs_evolveshift a) * ((bs_betaF a) * (bs_gamma0factor a) + (bs_gamma2factor a)) * (bs_B2 a). (* BSSN_rhs.c:2908-2911 *)
Definition bs_rbeta3 (a : bs_in) : R := (bs_evolveshift a) * ((bs_betaF a) * (bs_gamma0factor a) + (bs_gamma2factor a)) * (bs_B3 a). (* BSSN_rhs.c:2913-2916 *)
Definition bs_rB1 (a : bs_in) : R := (bs_evolveshift a) * (((bs_gamma0factor a) + (bs_betaF a) * (bs_gamma2factor a)) * (bs_rG1 a) - (bs_shiftdriver a) * (bs_B1 a)). (* BSSN_rhs.c:2918-2921 *)
Definition bs_rB2 (a : bs_in) : R := (bs_evolveshift a) * (((bs_gamma0factor a) + (bs_betaF a) * (bs_gamma2factor a)) * (bs_rG2 a) - (bs_shiftdriver a) * (bs_B2 a)). (* BSSN_rhs.c:2923-2926 *)
Definition bs_rB3 (a : bs_in) : R := (bs_evolveshift a) * (((bs_gamma0factor a) + (bs_betaF a) * (bs_gamma2factor a)) * (bs_rG3 a) - (bs_shiftdriver a) * (bs_B3 a)). (* BSSN_rhs.c:2928-2931 *)
Definition bs_ng11 (a : bs_in) : R := (bs_dt a) * (bs_rg11 a) + (bs_pg11 a). (* BSSN_rhs.c:2938-2941 *)
Definition bs_ng12 (a : bs_in) : R := (bs_dt a) * (bs_rg12 a) + (bs_pg12 a). (* BSSN_rhs.c:2943-2946 *)
Definition bs_ng13 (a : bs_in) : R := (bs_dt a) * (bs_rg13 a) + (bs_pg13 a). (* BSSN_rhs.c:2948-2951 *)
Definition bs_ng22 (a : bs_in) : R := (bs_dt a) * (bs_rg22 a) + (bs_pg22 a). (* BSSN_rhs.c:2953-2956 *)
Definition bs_ng23 (a : bs_in) : R := (bs_dt a) * (bs_rg23 a) + (bs_pg23 a). (* BSSN_rhs.c:2958-2961 *)
Definition bs_ng33 (a : bs_in) : R := (bs_dt a) * (bs_rg33 a) + (bs_pg33 a). (* BSSN_rhs.c:2963-2966 *)
Definition bs_nA11 (a : bs_in) : R := (bs_dt a) * (bs_rA11 a) + (bs_pA11 a). (* BSSN_rhs.c:2968-2971 *)
Definition bs_nA12 (a : bs_in) : R := (bs_dt a) * (bs_rA12 a) + (bs_pA12 a). (* BSSN_rhs.c:2973-2976 *)
Definition bs_nA13 (a : bs_in) : R := (bs_dt a) * (bs_rA13 a) + (bs_pA13 a). (* BSSN_rhs.c:2978-2981 *)
Definition bs_nA22 (a : bs_in) : R := (bs_dt a) * (bs_rA22 a) + (bs_pA22 a). (* BSSN_rhs.c:2983-2986 *)
Definition bs_nA23 (a : bs_in) : R := (bs_dt a) * (bs_rA23 a) + (bs_pA23 a). (* BSSN_rhs.c:2988-2991 *)
Definition bs_nA33 (a : bs_in) : R := (bs_dt a) * (bs_rA33 a) + (bs_pA33 a). (* BSSN_rhs.c:2993-2996 *)
Definition bs_nG1 (a : bs_in) : R := (bs_dt a) * (bs_rG1 a) + (bs_pG1 a). (* BSSN_rhs.c:2998-3001 *)
Definition bs_nG2 (a : bs_in) : R := (bs_dt a) * (bs_rG2 a) + (bs_pG2 a). (* BSSN_rhs.c:3003-3006 *)
Definition bs_nG3 (a : bs_in) : R := (bs_dt a) * (bs_rG3 a) + (bs_pG3 a). (* BSSN_rhs.c:3008-3011 *)
Definition bs_nK (a : bs_in) : R := (bs_forceKzerofactor a) * ((bs_dt a) * (bs_rK a) + (bs_pK a)). (* BSSN_rhs.c:3013-3016 *)
Definition bs_nphi (a : bs_in) : R := (bs_dt a) * (bs_rphi_3 a) + (bs_pphi a). (* BSSN_rhs.c:3018-3021 *)
Definition bs_nalphaDensity (a : bs_in) : R := (bs_dt a) * (bs_ralphaDensity_4 a) + (bs_palphaDensity a). (* BSSN_rhs.c:3028-3031 *)
Definition bs_nf (a : bs_in) : R := (bs_logpsi_2 a) + (bs_nphi a). (* BSSN_rhs.c:3033-3036 *)
Definition bs_nalpha (a : bs_in) : R := exp (6 * (bs_alphaDensityWeight a) * (bs_nf a)) * (bs_nalphaDensity a). (* BSSN_rhs.c:3038-3041 *)
Definition bs_nalpha_2 (a : bs_in) : R := (bs_dt a) * (bs_ralpha a) + (bs_palpha a). (* BSSN_rhs.c:3046-3049 *)
Definition bs_nalpha_3 (a : bs_in) : R := if s_flag a FdensitizedLapse then bs_nalpha a else bs_nalpha_2 a. (* BSSN_rhs.c:3026 *)
Definition bs_nbeta1 (a : bs_in) : R := (bs_dt a) * (bs_rbeta1 a) + (bs_pbeta1 a). (* BSSN_rhs.c:3055-3058 *)
Definition bs_nbeta2 (a : bs_in) : R := (bs_dt a) * (bs_rbeta2 a) + (bs_pbeta2 a). (* BSSN_rhs.c:3060-3063 *)
Definition bs_nbeta3 (a : bs_in) : R := (bs_dt a) * (bs_rbeta3 a) + (bs_pbeta3 a). (* BSSN_rhs.c:3065-3068 *)
Definition bs_nB1 (a : bs_in) : R := (bs_dt a) * (bs_rB1 a) + (bs_pB1 a). (* BSSN_rhs.c:3070-3073 *)
Definition bs_nB2 (a : bs_in) : R := (bs_dt a) * (bs_rB2 a) + (bs_pB2 a). (* BSSN_rhs.c:3075-3078 *)
Definition bs_nB3 (a : bs_in) : R := (bs_dt a) * (bs_rB3 a) + (bs_pB3 a). (* BSSN_rhs.c:3080-3083 *)
Definition bs_ng33_2 (a : bs_in) : R := 1 + ((- 2) * (bs_ng12 a) * (bs_ng13 a) * (bs_ng23 a) + (bs_ng22 a) * pow2 ((bs_ng13 a)) + (bs_ng11 a) * pow2 ((bs_ng23 a))) / ((bs_ng11 a) * (bs_ng22 a) - pow2 ((bs_ng12 a))). (* BSSN_rhs.c:3090-3094 *)
Definition bs_ng33_3 (a : bs_in) : R := if s_flag a Frecomputegzz then bs_ng33_2 a else bs_ng33 a. (* BSSN_rhs.c:3088 *)
Definition bs_detnginv (a : bs_in) : R := 1 / (2 * (bs_ng12 a) * (bs_ng13 a) * (bs_ng23 a) + (bs_ng11 a) * (bs_ng22 a) * (bs_ng33_3 a) - (bs_ng33_3 a) * pow2 ((bs_ng12 a)) - (bs_ng22 a) * pow2 ((bs_ng13 a)) - (bs_ng11 a) * pow2 ((bs_ng23 a))). (* BSSN_rhs.c:3100-3105 *)
Definition bs_nginv11 (a : bs_in) : R := (bs_detnginv a) * ((bs_ng22 a) * (bs_ng33_3 a) - pow2 ((bs_ng23 a))). (* BSSN_rhs.c:3112-3115 *)
Definition bs_nginv12 (a : bs_in) : R := (bs_detnginv a) * ((bs_ng13 a) * (bs_ng23 a) - (bs_ng12 a) * (bs_ng33_3 a)). (* BSSN_rhs.c:3117-3120 *)
Definition bs_nginv13 (a : bs_in) : R := (bs_detnginv a) * ((- ((bs_ng13 a) * (bs_ng22 a))) + (bs_ng12 a) * (bs_ng23 a)). (* BSSN_rhs.c:3122-3125 *)
Definition bs_nginv22 (a : bs_in) : R := (bs_detnginv a) * ((bs_ng11 a) * (bs_ng33_3 a) - pow2 ((bs_ng13 a))). (* BSSN_rhs.c:3127-3130 *)
Definition bs_nginv23 (a : bs_in) : R := (bs_detnginv a) * ((bs_ng12 a) * (bs_ng13 a) - (bs_ng11 a) * (bs_ng23 a)). (* BSSN_rhs.c:3132-3135 *)
Definition bs_nginv33 (a : bs_in) : R := (bs_detnginv a) * ((bs_ng11 a) * (bs_ng22 a) - pow2 ((bs_ng12 a))). (* BSSN_rhs.c:3137-3140 *)
Definition bs_nAdu11 (a : bs_in) : R := (bs_nginv11 a) * (bs_nA11 a) + (bs_nginv12 a) * (bs_nA12 a) + (bs_nginv13 a) * (bs_nA13 a). (* BSSN_rhs.c:3142-3145 *)
Definition bs_nAdu22 (a : bs_in) : R := (bs_nginv12 a) * (bs_nA12 a) + (bs_nginv22 a) * (bs_nA22 a) + (bs_nginv23 a) * (bs_nA23 a). (* BSSN_rhs.c:3147-3150 *)
Definition bs_nA33_2 (a : bs_in) : R := (- (((bs_nAdu11 a) + (bs_nAdu22 a) + (bs_nginv13 a) * (bs_nA13 a) + (bs_nginv23 a) * (bs_nA23 a)) / (bs_nginv33 a))). (* BSSN_rhs.c:3152-3155 *)
Definition bs_nA33_3 (a : bs_in) : R := if s_flag a FrecomputeAzz then bs_nA33_2 a else bs_nA33 a. (* BSSN_rhs.c:3110 *)
Definition bs_traceA (a : bs_in) : R := (bs_detnginv a) * ((- 2) * (bs_nA23 a) * (bs_ng11 a) * (bs_ng23 a) + (bs_nA11 a) * (bs_ng22 a) * (bs_ng33_3 a) + (bs_ng11 a) * ((bs_nA33_3 a) * (bs_ng22 a) + (bs_nA22 a) * (bs_ng33_3 a)) + 2 * ((bs_ng13 a) * ((bs_nA23 a) * (bs_ng12 a) - (bs_nA13 a) * (bs_ng22 a) + (bs_nA12 a) * (bs_ng23 a)) + (bs_ng12 a) * ((bs_nA13 a) * (bs_ng23 a) - (bs_nA12 a) * (bs_ng33_3 a))) - (bs_nA33_3 a) * pow2 ((bs_ng12 a)) - (bs_nA22 a) * pow2 ((bs_ng13 a)) - (bs_nA11 a) * pow2 ((bs_ng23 a))). (* BSSN_rhs.c:3166-3176 *)
Definition bs_aux (a : bs_in) : R := (- (1 / 3)) * (bs_traceA a). (* BSSN_rhs.c:3178-3181 *)
Definition bs_nA11_2 (a : bs_in) : R := (bs_nA11 a) + (bs_aux a) * (bs_ng11 a). (* BSSN_rhs.c:3183-3186 *)
Definition bs_nA12_2 (a : bs_in) : R := (bs_nA12 a) + (bs_aux a) * (bs_ng12 a). (* BSSN_rhs.c:3188-3191 *)
Definition bs_nA13_2 (a : bs_in) : R := (bs_nA13 a) + (bs_aux a) * (bs_ng13 a). (* BSSN_rhs.c:3193-3196 *)
Definition bs_nA22_2 (a : bs_in) : R := (bs_nA22 a) + (bs_aux a) * (bs_ng22 a). (* BSSN_rhs.c:3198-3201 *)
Definition bs_nA23_2 (a : bs_in) : R := (bs_nA23 a) + (bs_aux a) * (bs_ng23 a). (* BSSN_rhs.c:3203-3206 *)
Definition bs_nA33_4 (a : bs_in) : R := (bs_nA33_3 a) + (bs_aux a) * (bs_ng33_3 a). (* BSSN_rhs.c:3208-3211 *)
Definition bs_nA11_3 (a : bs_in) : R := if s_flag a FsubtractA then bs_nA11_2 a else bs_nA11 a. (* BSSN_rhs.c:3164 *)
Definition bs_nA12_3 (a : bs_in) : R := if s_flag a FsubtractA then bs_nA12_2 a else bs_nA12 a. (* BSSN_rhs.c:3164 *)
Definition bs_nA13_3 (a : bs_in) : R := if s_flag a FsubtractA then bs_nA13_2 a else bs_nA13 a. (* BSSN_rhs.c:3164 *)
Definition bs_nA22_3 (a : bs_in) : R := if s_flag a FsubtractA then bs_nA22_2 a else bs_nA22 a. (* BSSN_rhs.c:3164 *)
Definition bs_nA23_3 (a : bs_in) : R := if s_flag a FsubtractA then bs_nA23_2 a else bs_nA23 a. (* BSSN_rhs.c:3164 *)
Definition bs_nA33_5 (a : bs_in) : R := if s_flag a FsubtractA then bs_nA33_4 a else bs_nA33_3 a. (* BSSN_rhs.c:3164 *)
Definition bs_aux_2 (a : bs_in) : R := Rpower ((bs_detnginv a)) ((1 / 3)). (* BSSN_rhs.c:3222-3225 *)
Definition bs_ng11_2 (a : bs_in) : R := (bs_aux_2 a) * (bs_ng11 a). (* BSSN_rhs.c:3227-3230 *)
Definition bs_ng12_2 (a : bs_in) : R := (bs_aux_2 a) * (bs_ng12 a). (* BSSN_rhs.c:3232-3235 *)
Definition bs_ng13_2 (a : bs_in) : R := (bs_aux_2 a) * (bs_ng13 a). (* BSSN_rhs.c:3237-3240 *)
Definition bs_ng22_2 (a : bs_in) : R := (bs_aux_2 a) * (bs_ng22 a). (* BSSN_rhs.c:3242-3245 *)
Definition bs_ng23_2 (a : bs_in) : R := (bs_aux_2 a) * (bs_ng23 a). (* BSSN_rhs.c:3247-3250 *)
Definition bs_ng33_4 (a : bs_in) : R := (bs_aux_2 a) * (bs_ng33_3 a). (* BSSN_rhs.c:3252-3255 *)
Definition bs_aux_3 (a : bs_in) : R := if s_flag a Fnormalizedetg then bs_aux_2 a else bs_aux a. (* BSSN_rhs.c:3220 *)
Definition bs_ng11_3 (a : bs_in) : R := if s_flag a Fnormalizedetg then bs_ng11_2 a else bs_ng11 a. (* BSSN_rhs.c:3220 *)
Definition bs_ng12_3 (a : bs_in) : R := if s_flag a Fnormalizedetg then bs_ng12_2 a else bs_ng12 a. (* BSSN_rhs.c:3220 *)
Definition bs_ng13_3 (a : bs_in) : R := if s_flag a Fnormalizedetg then bs_ng13_2 a else bs_ng13 a. (* BSSN_rhs.c:3220 *)
Definition bs_ng22_3 (a : bs_in) : R := if s_flag a Fnormalizedetg then bs_ng22_2 a else bs_ng22 a. (* BSSN_rhs.c:3220 *)
Definition bs_ng23_3 (a : bs_in) : R := if s_flag a Fnormalizedetg then bs_ng23_2 a else bs_ng23 a. (* BSSN_rhs.c:3220 *)
Definition bs_ng33_5 (a : bs_in) : R := if s_flag a Fnormalizedetg then bs_ng33_4 a else bs_ng33_3 a. (* BSSN_rhs.c:3220 *)
Definition bs_ng11_4 (a : bs_in) : R := (bs_rg11 a). (* BSSN_rhs.c:3264-3267 *)
Definition bs_ng12_4 (a : bs_in) : R := (bs_rg12 a). (* BSSN_rhs.c:3269-3272 *)
Definition bs_ng13_4 (a : bs_in) : R := (bs_rg13 a). (* BSSN_rhs.c:3274-3277 *)
Definition bs_ng22_4 (a : bs_in) : R := (bs_rg22 a). (* BSSN_rhs.c:3279-3282 *)
Definition bs_ng23_4 (a : bs_in) : R := (bs_rg23 a). (* BSSN_rhs.c:3284-3287 *)
Definition bs_ng33_6 (a : bs_in) : R := (bs_rg33 a). (* BSSN_rhs.c:3289-3292 *)
Definition bs_nA11_4 (a : bs_in) : R := (bs_rA11 a). (* BSSN_rhs.c:3294-3297 *)
Definition bs_nA12_4 (a : bs_in) : R := (bs_rA12 a). (* BSSN_rhs.c:3299-3302 *)
Definition bs_nA13_4 (a : bs_in) : R := (bs_rA13 a). (* BSSN_rhs.c:3304-3307 *)
Definition bs_nA22_4 (a : bs_in) : R := (bs_rA22 a). (* BSSN_rhs.c:3309-3312 *)
Definition bs_nA23_4 (a : bs_in) : R := (bs_rA23 a). (* BSSN_rhs.c:3314-3317 *)
Definition bs_nA33_6 (a : bs_in) : R := (bs_rA33 a). (* BSSN_rhs.c:3319-3322 *)
Definition bs_nG1_2 (a : bs_in) : R := (bs_rG1 a). (* BSSN_rhs.c:3324-3327 *)
Definition bs_nG2_2 (a : bs_in) : R := (bs_rG2 a). (* BSSN_rhs.c:3329-3332 *)
Definition bs_nG3_2 (a : bs_in) : R := (bs_rG3 a). (* BSSN_rhs.c:3334-3337 *)
Definition bs_nK_2 (a : bs_in) : R := (bs_forceKzerofactor a) * (bs_rK a). (* BSSN_rhs.c:3339-3342 *)
Definition bs_nphi_2 (a : bs_in) : R := (bs_rphi_3 a). (* BSSN_rhs.c:3344-3347 *)
Definition bs_nalphaDensity_2 (a : bs_in) : R := (bs_ralphaDensity_4 a). (* BSSN_rhs.c:3354-3357 *)
Definition bs_nalpha_4 (a : bs_in) : R := (bs_E6alphaDensityWeightf a) * ((bs_ralphaDensity_4 a) + 6 * (bs_alphaDensityWeight a) * (bs_rphi_3 a) * (bs_alphaDensity a)). (* BSSN_rhs.c:3359-3363 *)
Definition bs_nalpha_5 (a : bs_in) : R := (bs_ralpha a). (* BSSN_rhs.c:3371-3374 *)
Definition bs_nalpha_6 (a : bs_in) : R := if s_flag a FdensitizedLapse then bs_nalpha_4 a else bs_nalpha_5 a. (* BSSN_rhs.c:3352 *)
Definition bs_nbeta1_2 (a : bs_in) : R := (bs_rbeta1 a). (* BSSN_rhs.c:3380-3383 *)
Definition bs_nbeta2_2 (a : bs_in) : R := (bs_rbeta2 a). (* BSSN_rhs.c:3385-3388 *)
Definition bs_nbeta3_2 (a : bs_in) : R := (bs_rbeta3 a). (* BSSN_rhs.c:3390-3393 *)
Definition bs_nB1_2 (a : bs_in) : R := (bs_rB1 a). (* BSSN_rhs.c:3395-3398 *)
Definition bs_nB2_2 (a : bs_in) : R := (bs_rB2 a). (* BSSN_rhs.c:3400-3403 *)
Definition bs_nB3_2 (a : bs_in) : R := (bs_rB3 a). (* BSSN_rhs.c:3405-3408 *)
Definition bs_nA11_5 (a : bs_in) : R := if bs_addlinear a then bs_nA11_3 a else bs_nA11_4 a. (* BSSN_rhs.c:2936 *)
Definition bs_nA12_5 (a : bs_in) : R := if bs_addlinear a then bs_nA12_3 a else bs_nA12_4 a. (* BSSN_rhs.c:2936 *)
Definition bs_nA13_5 (a : bs_in) : R := if bs_addlinear a then bs_nA13_3 a else bs_nA13_4 a. (* BSSN_rhs.c:2936 *)
Definition bs_nA22_5 (a : bs_in) : R := if bs_addlinear a then bs_nA22_3 a else bs_nA22_4 a. (* BSSN_rhs.c:2936 *)
Definition bs_nA23_5 (a : bs_in) : R := if bs_addlinear a then bs_nA23_3 a else bs_nA23_4 a. (* BSSN_rhs.c:2936 *)
Definition bs_nA33_7 (a : bs_in) : R := if bs_addlinear a then bs_nA33_5 a else bs_nA33_6 a. (* BSSN_rhs.c:2936 *)
Definition bs_nB1_3 (a : bs_in) : R := if bs_addlinear a then bs_nB1 a else bs_nB1_2 a. (* BSSN_rhs.c:2936 *)
Definition bs_nB2_3 (a : bs_in) : R := if bs_addlinear a then bs_nB2 a else bs_nB2_2 a. (* BSSN_rhs.c:2936 *)
Definition bs_nB3_3 (a : bs_in) : R := if bs_addlinear a then bs_nB3 a else bs_nB3_2 a. (* BSSN_rhs.c:2936 *)
Definition bs_nG1_3 (a : bs_in) : R := if bs_addlinear a then bs_nG1 a else bs_nG1_2 a. (* BSSN_rhs.c:2936 *)
Definition bs_nG2_3 (a : bs_in) : R := if bs_addlinear a then bs_nG2 a else bs_nG2_2 a. (* BSSN_rhs.c:2936 *)
Definition bs_nG3_3 (a : bs_in) : R := if bs_addlinear a then bs_nG3 a else bs_nG3_2 a. (* BSSN_rhs.c:2936 *)
Definition bs_nK_3 (a : bs_in) : R := if bs_addlinear a then bs_nK a else bs_nK_2 a. (* BSSN_rhs.c:2936 *)
Definition bs_nalpha_7 (a : bs_in) : R := if bs_addlinear a then bs_nalpha_3 a else bs_nalpha_6 a. (* BSSN_rhs.c:2936 *)
Definition bs_nalphaDensity_3 (a : bs_in) : R := if bs_addlinear a then bs_nalphaDensity a else bs_nalphaDensity_2 a. (* BSSN_rhs.c:2936 *)
Definition bs_nbeta1_3 (a : bs_in) : R := if bs_addlinear a then bs_nbeta1 a else bs_nbeta1_2 a. (* BSSN_rhs.c:2936 *)
Definition bs_nbeta2_3 (a : bs_in) : R := if bs_addlinear a then bs_nbeta2 a else bs_nbeta2_2 a. (* BSSN_rhs.c:2936 *)
Definition bs_nbeta3_3 (a : bs_in) : R := if bs_addlinear a then bs_nbeta3 a else bs_nbeta3_2 a. (* BSSN_rhs.c:2936 *)
Definition bs_ng11_5 (a : bs_in) : R := if bs_addlinear a then bs_ng11_3 a else bs_ng11_4 a. (* BSSN_rhs.c:2936 *)
Definition bs_ng12_5 (a : bs_in) : R := if bs_addlinear a then bs_ng12_3 a else bs_ng12_4 a. (* BSSN_rhs.c:2936 *)
Definition bs_ng13_5 (a : bs_in) : R := if bs_addlinear a then bs_ng13_3 a else bs_ng13_4 a. (* BSSN_rhs.c:2936 *)
Definition bs_ng22_5 (a : bs_in) : R := if bs_addlinear a then bs_ng22_3 a else bs_ng22_4 a. (* BSSN_rhs.c:2936 *)
Definition bs_ng23_5 (a : bs_in) : R := if bs_addlinear a then bs_ng23_3 a else bs_ng23_4 a. (* BSSN_rhs.c:2936 *)
Definition bs_ng33_7 (a : bs_in) : R := if bs_addlinear a then bs_ng33_5 a else bs_ng33_6 a. (* BSSN_rhs.c:2936 *)
Definition bs_nphi_3 (a : bs_in) : R := if bs_addlinear a then bs_nphi a else bs_nphi_2 a. (* BSSN_rhs.c:2936 *)
(** What is left in unew (BSSN_rhs.c:101-125); alphaDensity is written with densitizedLapse only, so bs_nalphaDensity_out takes its old value x *)
Definition bs_new (a : bs_in) (n : nat) : R := match n with 0 => bs_ng11_5 a | 1 => bs_ng12_5 a | 2 => bs_ng13_5 a | 3 => bs_ng22_5 a | 4 => bs_ng23_5 a | 5 => bs_ng33_7 a | 6 => bs_nphi_3 a | 7 => bs_nA11_5 a | 8 => bs_nA12_5 a | 9 => bs_nA13_5 a | 10 => bs_nA22_5 a | 11 => bs_nA23_5 a | 12 => bs_nA33_7 a | 13 => bs_nK_3 a | 14 => bs_nG1_3 a | 15 => bs_nG2_3 a | 16 => bs_nG3_3 a | 17 => bs_nalpha_7 a | 18 => bs_nbeta1_3 a | 19 => bs_nbeta2_3 a | 20 => bs_nbeta3_3 a | 21 => bs_nB1_3 a | 22 => bs_nB2_3 a | _ => bs_nB3_3 a end%nat.
(** BSSN_rhs.c:3026-3044 and 3352-3360 *)
Definition bs_nalphaDensity_out (a : bs_in) (x : R) : R := if s_flag a FdensitizedLapse then bs_nalphaDensity_3 a else x.
(** BSSN_rhs.c:3352-3366: the code stops with an error here *)
Definition bs_error (a : bs_in) : bool := (negb (bs_addlinear a) && s_flag a FdensitizedLapse)%bool.
