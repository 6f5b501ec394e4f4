(** Model of the conversion between the ADM and the BSSN variables at one grid point: src/physics/BSSN/BSSN_init.c, src/physics/BSSN/BSSN_AlgConstr.c, BSSNtoADM and part of ADMtoBSSN in src/physics/BSSN/BSSN.c, src/physics/ADMvars/utility.c.
    One definition for each assignment of the straight-line C code, in the same order, with the lines it comes from; a variable that is assigned again becomes a new definition with a number at its end.
    Simplifications: real numbers; values at one point; the derivatives of the conformal metric (BSSN_init.c:271) are inputs; the literals 0.3333333333333333 and 0.33333333333333333333333333333333333333 are 1/3; pow(x,y) with a real exponent is Rpower, which agrees with it for x > 0 only. *)
From Verif Require Import Rutil Adm_model.
Local Open Scope R_scope.
(** ** BSSN_init.c *)
(** gb_ij, K_ij (11,12,13,22,23,33), psi, alpha, the parameter BSSN_alphaDensityWeight, the derivatives of the conformal metric (BSSN_init.c:20-79) *)
Record bi_in := MkBi { bv_g : nat -> R; bv_K : nat -> R; bv_psi : R; bv_alpha : R; bv_w : R; bv_dg : nat -> R }.
Definition bi_alphaDensityWeight (a : bi_in) : R := bv_w a. (* BSSN_init.c:20 *)
Definition bi_gb11 (a : bi_in) : R := bv_g a 0. (* BSSN_init.c:28 *)
Definition bi_gb12 (a : bi_in) : R := bv_g a 1. (* BSSN_init.c:29 *)
Definition bi_gb13 (a : bi_in) : R := bv_g a 2. (* BSSN_init.c:30 *)
Definition bi_gb22 (a : bi_in) : R := bv_g a 3. (* BSSN_init.c:31 *)
Definition bi_gb23 (a : bi_in) : R := bv_g a 4. (* BSSN_init.c:32 *)
Definition bi_gb33 (a : bi_in) : R := bv_g a 5. (* BSSN_init.c:33 *)
Definition bi_K11 (a : bi_in) : R := bv_K a 0. (* BSSN_init.c:34 *)
Definition bi_K12 (a : bi_in) : R := bv_K a 1. (* BSSN_init.c:35 *)
Definition bi_K13 (a : bi_in) : R := bv_K a 2. (* BSSN_init.c:36 *)
Definition bi_K22 (a : bi_in) : R := bv_K a 3. (* BSSN_init.c:37 *)
Definition bi_K23 (a : bi_in) : R := bv_K a 4. (* BSSN_init.c:38 *)
Definition bi_K33 (a : bi_in) : R := bv_K a 5. (* BSSN_init.c:39 *)
Definition bi_psi (a : bi_in) : R := bv_psi a. (* BSSN_init.c:40 *)
Definition bi_alpha (a : bi_in) : R := bv_alpha a. (* BSSN_init.c:58 *)
Definition bi_dgt111 (a : bi_in) : R := bv_dg a 0. (* BSSN_init.c:61 *)
Definition bi_dgt112 (a : bi_in) : R := bv_dg a 1. (* BSSN_init.c:62 *)
Definition bi_dgt113 (a : bi_in) : R := bv_dg a 2. (* BSSN_init.c:63 *)
Definition bi_dgt121 (a : bi_in) : R := bv_dg a 3. (* BSSN_init.c:64 *)
Definition bi_dgt122 (a : bi_in) : R := bv_dg a 4. (* BSSN_init.c:65 *)
Definition bi_dgt123 (a : bi_in) : R := bv_dg a 5. (* BSSN_init.c:66 *)
Definition bi_dgt131 (a : bi_in) : R := bv_dg a 6. (* BSSN_init.c:67 *)
Definition bi_dgt132 (a : bi_in) : R := bv_dg a 7. (* BSSN_init.c:68 *)
Definition bi_dgt133 (a : bi_in) : R := bv_dg a 8. (* BSSN_init.c:69 *)
Definition bi_dgt221 (a : bi_in) : R := bv_dg a 9. (* BSSN_init.c:70 *)
Definition bi_dgt222 (a : bi_in) : R := bv_dg a 10. (* BSSN_init.c:71 *)
Definition bi_dgt223 (a : bi_in) : R := bv_dg a 11. (* BSSN_init.c:72 *)
Definition bi_dgt231 (a : bi_in) : R := bv_dg a 12. (* BSSN_init.c:73 *)
Definition bi_dgt232 (a : bi_in) : R := bv_dg a 13. (* BSSN_init.c:74 *)
Definition bi_dgt233 (a : bi_in) : R := bv_dg a 14. (* BSSN_init.c:75 *)
Definition bi_dgt331 (a : bi_in) : R := bv_dg a 15. (* BSSN_init.c:76 *)
Definition bi_dgt332 (a : bi_in) : R := bv_dg a 16. (* BSSN_init.c:77 *)
Definition bi_dgt333 (a : bi_in) : R := bv_dg a 17. (* BSSN_init.c:78 *)
Definition bi_detgb (a : bi_in) : R := 2 * (bi_gb12 a) * (bi_gb13 a) * (bi_gb23 a) + (bi_gb11 a) * (bi_gb22 a) * (bi_gb33 a) - (bi_gb33 a) * pow2 ((bi_gb12 a)) - (bi_gb22 a) * pow2 ((bi_gb13 a)) - (bi_gb11 a) * pow2 ((bi_gb23 a)). (* BSSN_init.c:107-112 *)
Definition bi_p (a : bi_in) : R := Rpower ((bi_detgb a)) ((- (1 / 3))). (* BSSN_init.c:114-117 *)
Definition bi_p0 (a : bi_in) : R := / (((bi_psi a)) ^ 4). (* BSSN_init.c:119-122 *)
Definition bi_gt11 (a : bi_in) : R := (bi_p a) * (bi_gb11 a). (* BSSN_init.c:124-127 *)
Definition bi_gt12 (a : bi_in) : R := (bi_p a) * (bi_gb12 a). (* BSSN_init.c:129-132 *)
Definition bi_gt13 (a : bi_in) : R := (bi_p a) * (bi_gb13 a). (* BSSN_init.c:134-137 *)
Definition bi_gt22 (a : bi_in) : R := (bi_p a) * (bi_gb22 a). (* BSSN_init.c:139-142 *)
Definition bi_gt23 (a : bi_in) : R := (bi_p a) * (bi_gb23 a). (* BSSN_init.c:144-147 *)
Definition bi_gt33 (a : bi_in) : R := (bi_p a) * (bi_gb33 a). (* BSSN_init.c:149-152 *)
Definition bi_Kt11 (a : bi_in) : R := (bi_p a) * (bi_p0 a) * (bi_K11 a). (* BSSN_init.c:154-157 *)
Definition bi_Kt12 (a : bi_in) : R := (bi_p a) * (bi_p0 a) * (bi_K12 a). (* BSSN_init.c:159-162 *)
Definition bi_Kt13 (a : bi_in) : R := (bi_p a) * (bi_p0 a) * (bi_K13 a). (* BSSN_init.c:164-167 *)
Definition bi_Kt22 (a : bi_in) : R := (bi_p a) * (bi_p0 a) * (bi_K22 a). (* BSSN_init.c:169-172 *)
Definition bi_Kt23 (a : bi_in) : R := (bi_p a) * (bi_p0 a) * (bi_K23 a). (* BSSN_init.c:174-177 *)
Definition bi_Kt33 (a : bi_in) : R := (bi_p a) * (bi_p0 a) * (bi_K33 a). (* BSSN_init.c:179-182 *)
Definition bi_alphaDensity (a : bi_in) : R := Rpower ((bi_p a) * (bi_p0 a)) ((3 / 2) * (bi_alphaDensityWeight a)) * (bi_alpha a). (* BSSN_init.c:184-187 *)
Definition bi_detgtinv (a : bi_in) : R := 1 / (2 * (bi_gt12 a) * (bi_gt13 a) * (bi_gt23 a) + (bi_gt11 a) * (bi_gt22 a) * (bi_gt33 a) - (bi_gt33 a) * pow2 ((bi_gt12 a)) - (bi_gt22 a) * pow2 ((bi_gt13 a)) - (bi_gt11 a) * pow2 ((bi_gt23 a))). (* BSSN_init.c:189-194 *)
Definition bi_gtinv11 (a : bi_in) : R := (bi_detgtinv a) * ((bi_gt22 a) * (bi_gt33 a) - pow2 ((bi_gt23 a))). (* BSSN_init.c:196-199 *)
Definition bi_gtinv12 (a : bi_in) : R := (bi_detgtinv a) * ((bi_gt13 a) * (bi_gt23 a) - (bi_gt12 a) * (bi_gt33 a)). (* BSSN_init.c:201-204 *)
Definition bi_gtinv13 (a : bi_in) : R := (bi_detgtinv a) * ((- ((bi_gt13 a) * (bi_gt22 a))) + (bi_gt12 a) * (bi_gt23 a)). (* BSSN_init.c:206-209 *)
Definition bi_gtinv22 (a : bi_in) : R := (bi_detgtinv a) * ((bi_gt11 a) * (bi_gt33 a) - pow2 ((bi_gt13 a))). (* BSSN_init.c:211-214 *)
Definition bi_gtinv23 (a : bi_in) : R := (bi_detgtinv a) * ((bi_gt12 a) * (bi_gt13 a) - (bi_gt11 a) * (bi_gt23 a)). (* BSSN_init.c:216-219 *)
Definition bi_gtinv33 (a : bi_in) : R := (bi_detgtinv a) * ((bi_gt11 a) * (bi_gt22 a) - pow2 ((bi_gt12 a))). (* BSSN_init.c:221-224 *)
Definition bi_phi (a : bi_in) : R := (- (1 / 4)) * ln ((bi_p a)). (* BSSN_init.c:226-229 *)
Definition bi_K (a : bi_in) : R := (bi_gtinv11 a) * (bi_Kt11 a) + (bi_gtinv22 a) * (bi_Kt22 a) + 2 * ((bi_gtinv12 a) * (bi_Kt12 a) + (bi_gtinv13 a) * (bi_Kt13 a) + (bi_gtinv23 a) * (bi_Kt23 a)) + (bi_gtinv33 a) * (bi_Kt33 a). (* BSSN_init.c:231-235 *)
Definition bi_At11 (a : bi_in) : R := (bi_Kt11 a) - (1 / 3) * (bi_gt11 a) * (bi_K a). (* BSSN_init.c:237-240 *)
Definition bi_At12 (a : bi_in) : R := (bi_Kt12 a) - (1 / 3) * (bi_gt12 a) * (bi_K a). (* BSSN_init.c:242-245 *)
Definition bi_At13 (a : bi_in) : R := (bi_Kt13 a) - (1 / 3) * (bi_gt13 a) * (bi_K a). (* BSSN_init.c:247-250 *)
Definition bi_At22 (a : bi_in) : R := (bi_Kt22 a) - (1 / 3) * (bi_gt22 a) * (bi_K a). (* BSSN_init.c:252-255 *)
Definition bi_At23 (a : bi_in) : R := (bi_Kt23 a) - (1 / 3) * (bi_gt23 a) * (bi_K a). (* BSSN_init.c:257-260 *)
Definition bi_At33 (a : bi_in) : R := (bi_Kt33 a) - (1 / 3) * (bi_gt33 a) * (bi_K a). (* BSSN_init.c:262-265 *)
Definition bi_detgtinv_2 (a : bi_in) : R := 1 / (2 * (bi_gt12 a) * (bi_gt13 a) * (bi_gt23 a) + (bi_gt11 a) * (bi_gt22 a) * (bi_gt33 a) - (bi_gt33 a) * pow2 ((bi_gt12 a)) - (bi_gt22 a) * pow2 ((bi_gt13 a)) - (bi_gt11 a) * pow2 ((bi_gt23 a))). (* BSSN_init.c:276-281 *)
Definition bi_gtinv11_2 (a : bi_in) : R := (bi_detgtinv_2 a) * ((bi_gt22 a) * (bi_gt33 a) - pow2 ((bi_gt23 a))). (* BSSN_init.c:283-286 *)
Definition bi_gtinv12_2 (a : bi_in) : R := (bi_detgtinv_2 a) * ((bi_gt13 a) * (bi_gt23 a) - (bi_gt12 a) * (bi_gt33 a)). (* BSSN_init.c:288-291 *)
Definition bi_gtinv13_2 (a : bi_in) : R := (bi_detgtinv_2 a) * ((- ((bi_gt13 a) * (bi_gt22 a))) + (bi_gt12 a) * (bi_gt23 a)). (* BSSN_init.c:293-296 *)
Definition bi_gtinv22_2 (a : bi_in) : R := (bi_detgtinv_2 a) * ((bi_gt11 a) * (bi_gt33 a) - pow2 ((bi_gt13 a))). (* BSSN_init.c:298-301 *)
Definition bi_gtinv23_2 (a : bi_in) : R := (bi_detgtinv_2 a) * ((bi_gt12 a) * (bi_gt13 a) - (bi_gt11 a) * (bi_gt23 a)). (* BSSN_init.c:303-306 *)
Definition bi_gtinv33_2 (a : bi_in) : R := (bi_detgtinv_2 a) * ((bi_gt11 a) * (bi_gt22 a) - pow2 ((bi_gt12 a))). (* BSSN_init.c:308-311 *)
Definition bi_Gtdown1 (a : bi_in) : R := (bi_gtinv11_2 a) * (bi_dgt111 a) + (bi_gtinv12_2 a) * ((bi_dgt112 a) + (bi_dgt121 a)) + (bi_gtinv22_2 a) * (bi_dgt122 a) + (bi_gtinv13_2 a) * ((bi_dgt113 a) + (bi_dgt131 a)) + (bi_gtinv23_2 a) * ((bi_dgt123 a) + (bi_dgt132 a)) + (bi_gtinv33_2 a) * (bi_dgt133 a). (* BSSN_init.c:313-318 *)
Definition bi_Gtdown2 (a : bi_in) : R := (bi_gtinv11_2 a) * (bi_dgt121 a) + (bi_gtinv12_2 a) * ((bi_dgt122 a) + (bi_dgt221 a)) + (bi_gtinv22_2 a) * (bi_dgt222 a) + (bi_gtinv13_2 a) * ((bi_dgt123 a) + (bi_dgt231 a)) + (bi_gtinv23_2 a) * ((bi_dgt223 a) + (bi_dgt232 a)) + (bi_gtinv33_2 a) * (bi_dgt233 a). (* BSSN_init.c:320-325 *)
Definition bi_Gtdown3 (a : bi_in) : R := (bi_gtinv11_2 a) * (bi_dgt131 a) + (bi_gtinv12_2 a) * ((bi_dgt132 a) + (bi_dgt231 a)) + (bi_gtinv22_2 a) * (bi_dgt232 a) + (bi_gtinv13_2 a) * ((bi_dgt133 a) + (bi_dgt331 a)) + (bi_gtinv23_2 a) * ((bi_dgt233 a) + (bi_dgt332 a)) + (bi_gtinv33_2 a) * (bi_dgt333 a). (* BSSN_init.c:327-332 *)
Definition bi_G1 (a : bi_in) : R := (bi_Gtdown1 a) * (bi_gtinv11_2 a) + (bi_Gtdown2 a) * (bi_gtinv12_2 a) + (bi_Gtdown3 a) * (bi_gtinv13_2 a). (* BSSN_init.c:334-337 *)
Definition bi_G2 (a : bi_in) : R := (bi_Gtdown1 a) * (bi_gtinv12_2 a) + (bi_Gtdown2 a) * (bi_gtinv22_2 a) + (bi_Gtdown3 a) * (bi_gtinv23_2 a). (* BSSN_init.c:339-342 *)
Definition bi_G3 (a : bi_in) : R := (bi_Gtdown1 a) * (bi_gtinv13_2 a) + (bi_Gtdown2 a) * (bi_gtinv23_2 a) + (bi_Gtdown3 a) * (bi_gtinv33_2 a). (* BSSN_init.c:344-347 *)
(** What BSSN_init leaves in the fields of the point: the components of gt, At (44-55) and G (56-58) *)
Definition bi_gt (a : bi_in) (n : nat) : R := match n with 0 => bi_gt11 a | 1 => bi_gt12 a | 2 => bi_gt13 a | 3 => bi_gt22 a | 4 => bi_gt23 a | _ => bi_gt33 a end%nat.
Definition bi_At (a : bi_in) (n : nat) : R := match n with 0 => bi_At11 a | 1 => bi_At12 a | 2 => bi_At13 a | 3 => bi_At22 a | 4 => bi_At23 a | _ => bi_At33 a end%nat.
Definition bi_G (a : bi_in) (n : nat) : R := match n with 0 => bi_G1 a | 1 => bi_G2 a | _ => bi_G3 a end%nat.
(** ** BSSN_AlgConstr.c *)
(** g_ij, A_ij, the parameters BSSN_subtractA and BSSN_normalizedetg (BSSN_AlgConstr.c:22-44) *)
Record ac_in := MkAc { av_g : nat -> R; av_A : nat -> R; ac_sub : bool; ac_norm : bool }.
(** BSSN_AlgConstr.c:24 *)
Definition ac_oothree (a : ac_in) : R := 1 / 3.
Definition ac_g11 (a : ac_in) : R := av_g a 0. (* BSSN_AlgConstr.c:33 *)
Definition ac_g12 (a : ac_in) : R := av_g a 1. (* BSSN_AlgConstr.c:34 *)
Definition ac_g13 (a : ac_in) : R := av_g a 2. (* BSSN_AlgConstr.c:35 *)
Definition ac_g22 (a : ac_in) : R := av_g a 3. (* BSSN_AlgConstr.c:36 *)
Definition ac_g23 (a : ac_in) : R := av_g a 4. (* BSSN_AlgConstr.c:37 *)
Definition ac_g33 (a : ac_in) : R := av_g a 5. (* BSSN_AlgConstr.c:38 *)
Definition ac_A11 (a : ac_in) : R := av_A a 0. (* BSSN_AlgConstr.c:39 *)
Definition ac_A12 (a : ac_in) : R := av_A a 1. (* BSSN_AlgConstr.c:40 *)
Definition ac_A13 (a : ac_in) : R := av_A a 2. (* BSSN_AlgConstr.c:41 *)
Definition ac_A22 (a : ac_in) : R := av_A a 3. (* BSSN_AlgConstr.c:42 *)
Definition ac_A23 (a : ac_in) : R := av_A a 4. (* BSSN_AlgConstr.c:43 *)
Definition ac_A33 (a : ac_in) : R := av_A a 5. (* BSSN_AlgConstr.c:44 *)
Definition ac_detg (a : ac_in) : R := 2 * (ac_g12 a) * (ac_g13 a) * (ac_g23 a) + (ac_g11 a) * (ac_g22 a) * (ac_g33 a) - (ac_g33 a) * pow2 ((ac_g12 a)) - (ac_g22 a) * pow2 ((ac_g13 a)) - (ac_g11 a) * pow2 ((ac_g23 a)). (* BSSN_AlgConstr.c:58-62 *)
Definition ac_aux (a : ac_in) : R := Rpower ((ac_detg a)) ((- (ac_oothree a))). (* BSSN_AlgConstr.c:69-72 *)
Definition ac_g11_2 (a : ac_in) : R := (ac_aux a) * (ac_g11 a). (* BSSN_AlgConstr.c:74-77 *)
Definition ac_g12_2 (a : ac_in) : R := (ac_aux a) * (ac_g12 a). (* BSSN_AlgConstr.c:79-82 *)
Definition ac_g13_2 (a : ac_in) : R := (ac_aux a) * (ac_g13 a). (* BSSN_AlgConstr.c:84-87 *)
Definition ac_g22_2 (a : ac_in) : R := (ac_aux a) * (ac_g22 a). (* BSSN_AlgConstr.c:89-92 *)
Definition ac_g23_2 (a : ac_in) : R := (ac_aux a) * (ac_g23 a). (* BSSN_AlgConstr.c:94-97 *)
Definition ac_g33_2 (a : ac_in) : R := (ac_aux a) * (ac_g33 a). (* BSSN_AlgConstr.c:99-102 *)
Definition ac_detg_2 (a : ac_in) : R := 2 * (ac_g12_2 a) * (ac_g13_2 a) * (ac_g23_2 a) + (ac_g11_2 a) * (ac_g22_2 a) * (ac_g33_2 a) - (ac_g33_2 a) * pow2 ((ac_g12_2 a)) - (ac_g22_2 a) * pow2 ((ac_g13_2 a)) - (ac_g11_2 a) * pow2 ((ac_g23_2 a)). (* BSSN_AlgConstr.c:104-108 *)
Definition ac_detg_3 (a : ac_in) : R := if ac_norm a then ac_detg_2 a else ac_detg a. (* BSSN_AlgConstr.c:67 *)
Definition ac_g11_3 (a : ac_in) : R := if ac_norm a then ac_g11_2 a else ac_g11 a. (* BSSN_AlgConstr.c:67 *)
Definition ac_g12_3 (a : ac_in) : R := if ac_norm a then ac_g12_2 a else ac_g12 a. (* BSSN_AlgConstr.c:67 *)
Definition ac_g13_3 (a : ac_in) : R := if ac_norm a then ac_g13_2 a else ac_g13 a. (* BSSN_AlgConstr.c:67 *)
Definition ac_g22_3 (a : ac_in) : R := if ac_norm a then ac_g22_2 a else ac_g22 a. (* BSSN_AlgConstr.c:67 *)
Definition ac_g23_3 (a : ac_in) : R := if ac_norm a then ac_g23_2 a else ac_g23 a. (* BSSN_AlgConstr.c:67 *)
Definition ac_g33_3 (a : ac_in) : R := if ac_norm a then ac_g33_2 a else ac_g33 a. (* BSSN_AlgConstr.c:67 *)
Definition ac_detginv (a : ac_in) : R := 1 / (ac_detg_3 a). (* BSSN_AlgConstr.c:114-117 *)
Definition ac_trA (a : ac_in) : R := (ac_detginv a) * ((- 2) * (ac_A23 a) * (ac_g11_3 a) * (ac_g23_3 a) + (ac_A11 a) * (ac_g22_3 a) * (ac_g33_3 a) + (ac_g11_3 a) * ((ac_A33 a) * (ac_g22_3 a) + (ac_A22 a) * (ac_g33_3 a)) + 2 * ((ac_g13_3 a) * ((ac_A23 a) * (ac_g12_3 a) - (ac_A13 a) * (ac_g22_3 a) + (ac_A12 a) * (ac_g23_3 a)) + (ac_g12_3 a) * ((ac_A13 a) * (ac_g23_3 a) - (ac_A12 a) * (ac_g33_3 a))) - (ac_A33 a) * pow2 ((ac_g12_3 a)) - (ac_A22 a) * pow2 ((ac_g13_3 a)) - (ac_A11 a) * pow2 ((ac_g23_3 a))). (* BSSN_AlgConstr.c:119-128 *)
Definition ac_aux_2 (a : ac_in) : R := (- ((ac_oothree a) * (ac_trA a))). (* BSSN_AlgConstr.c:135-138 *)
Definition ac_A11_2 (a : ac_in) : R := (ac_A11 a) + (ac_aux_2 a) * (ac_g11_3 a). (* BSSN_AlgConstr.c:140-143 *)
Definition ac_A12_2 (a : ac_in) : R := (ac_A12 a) + (ac_aux_2 a) * (ac_g12_3 a). (* BSSN_AlgConstr.c:145-148 *)
Definition ac_A13_2 (a : ac_in) : R := (ac_A13 a) + (ac_aux_2 a) * (ac_g13_3 a). (* BSSN_AlgConstr.c:150-153 *)
Definition ac_A22_2 (a : ac_in) : R := (ac_A22 a) + (ac_aux_2 a) * (ac_g22_3 a). (* BSSN_AlgConstr.c:155-158 *)
Definition ac_A23_2 (a : ac_in) : R := (ac_A23 a) + (ac_aux_2 a) * (ac_g23_3 a). (* BSSN_AlgConstr.c:160-163 *)
Definition ac_A33_2 (a : ac_in) : R := (ac_A33 a) + (ac_aux_2 a) * (ac_g33_3 a). (* BSSN_AlgConstr.c:165-168 *)
Definition ac_A11_3 (a : ac_in) : R := if ac_sub a then ac_A11_2 a else ac_A11 a. (* BSSN_AlgConstr.c:133 *)
Definition ac_A12_3 (a : ac_in) : R := if ac_sub a then ac_A12_2 a else ac_A12 a. (* BSSN_AlgConstr.c:133 *)
Definition ac_A13_3 (a : ac_in) : R := if ac_sub a then ac_A13_2 a else ac_A13 a. (* BSSN_AlgConstr.c:133 *)
Definition ac_A22_3 (a : ac_in) : R := if ac_sub a then ac_A22_2 a else ac_A22 a. (* BSSN_AlgConstr.c:133 *)
Definition ac_A23_3 (a : ac_in) : R := if ac_sub a then ac_A23_2 a else ac_A23 a. (* BSSN_AlgConstr.c:133 *)
Definition ac_A33_3 (a : ac_in) : R := if ac_sub a then ac_A33_2 a else ac_A33 a. (* BSSN_AlgConstr.c:133 *)
Definition ac_aux_3 (a : ac_in) : R := if ac_sub a then ac_aux_2 a else ac_aux a. (* BSSN_AlgConstr.c:133 *)
(** What BSSN_AlgConstr leaves in g and A *)
Definition ac_gout (a : ac_in) (n : nat) : R := match n with 0 => ac_g11_3 a | 1 => ac_g12_3 a | 2 => ac_g13_3 a | 3 => ac_g22_3 a | 4 => ac_g23_3 a | _ => ac_g33_3 a end%nat.
Definition ac_Aout (a : ac_in) (n : nat) : R := match n with 0 => ac_A11_3 a | 1 => ac_A12_3 a | 2 => ac_A13_3 a | 3 => ac_A22_3 a | 4 => ac_A23_3 a | _ => ac_A33_3 a end%nat.
(** ** BSSN.c *)
(** BSSN.c:99-100: fg, fK *)
Definition ba_fg (phi : R) : R := exp (4 * phi).
Definition ba_fK (phi psi : R) : R := ba_fg phi * psi ^ 4.
(** BSSN.c:107-108: g and K at one point, component n *)
Definition ba_g (phi : R) (gt : nat -> R) (n : nat) : R := ba_fg phi * gt n.
Definition ba_K (phi psi trK : R) (gt At : nat -> R) (n : nat) : R := ba_fK phi psi * (At n + trK * gt n / 3).
(** ** ADMvars/utility.c *)
(** ADMvars_detg, utility.c:9-18; ADMvars_invg, 22-43 *)
Definition ut_i11 (g : nat -> R) : R := g 3%nat * g 5%nat - g 4%nat * g 4%nat.
Definition ut_i12 (g : nat -> R) : R := g 2%nat * g 4%nat - g 1%nat * g 5%nat.
Definition ut_i13 (g : nat -> R) : R := g 1%nat * g 4%nat - g 2%nat * g 3%nat.
Definition ut_i22 (g : nat -> R) : R := g 0%nat * g 5%nat - g 2%nat * g 2%nat.
Definition ut_i23 (g : nat -> R) : R := g 1%nat * g 2%nat - g 0%nat * g 4%nat.
Definition ut_i33 (g : nat -> R) : R := g 0%nat * g 3%nat - g 1%nat * g 1%nat.
Definition ut_detg (g : nat -> R) : R := g 0%nat * ut_i11 g + g 1%nat * ut_i12 g + g 2%nat * ut_i13 g.
Definition ut_invg (g : nat -> R) (n : nat) : R := match n with O => ut_i11 g | 1%nat => ut_i12 g | 2%nat => ut_i13 g | 3%nat => ut_i22 g | 4%nat => ut_i23 g | _ => ut_i33 g end / ut_detg g.
(** set_K_initial, utility.c:76-83 *)
Definition ut_K_initial (psi : R) (g K : nat -> R) : R := / psi ^ 4 * (ut_invg g 0 * K 0%nat + ut_invg g 3 * K 3%nat + ut_invg g 5 * K 5%nat + 2 * (ut_invg g 1 * K 1%nat + ut_invg g 2 * K 2%nat + ut_invg g 4 * K 4%nat)).
(** ADMvars_undo_conformal_split, utility.c:105-122: psi, g, dpsiopsi (if it has storage) and ddpsiopsi afterwards *)
Definition ut_undo (psi : R) (g dp ddp : nat -> R) (stored : bool) : R * (nat -> R) * (nat -> R) * (nat -> R) :=
  (1, fun n => g n * psi ^ 4, fun n => if stored then 0 else dp n, fun n => if stored then 0 else ddp n).
