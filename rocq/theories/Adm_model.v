(** Model of src/physics/ADMvars/ADMconstraints.c: the constraints of general relativity at one grid point.
    The C code is straight-line code (made with Mathematica) for each point ijk; there is one definition here for each assignment, in the same order, with the same expression, and the lines it comes from.
    A variable that is assigned again becomes a new definition with a number at the end of its name.
    Simplifications: the value at one point, as a real number; the derivatives (lines 31-40) are inputs. *)
From Verif Require Import Rutil.
Local Open Scope R_scope.
(** The values at the point ijk: the list psiandderivs, the variable list u, the derivatives of g, K and alpha (ADMconstraints.c:44-181); whether component n of u has no storage; the parameters ADMvars_normalizedConstraints and ADMvars_ConstraintNorm (22-23) *)
Record adm_in := MkAdm { a_psi : nat -> R; a_u : nat -> R; a_dg : nat -> R; a_ddg : nat -> R; a_dK : nat -> R; a_dalp : nat -> R; a_ddalp : nat -> R; a_null : nat -> bool; a_norm : bool; a_term : bool }.
(** #define pow2(x), ADMconstraints.c:10 *)
Definition pow2 (x : R) : R := x * x.
Definition adm_psi (a : adm_in) : R := a_psi a 0. (* ADMconstraints.c:43 *)
Definition adm_dpop1 (a : adm_in) : R := a_psi a 1. (* ADMconstraints.c:44 *)
Definition adm_dpop2 (a : adm_in) : R := a_psi a 2. (* ADMconstraints.c:45 *)
Definition adm_dpop3 (a : adm_in) : R := a_psi a 3. (* ADMconstraints.c:46 *)
Definition adm_ddpop11 (a : adm_in) : R := a_psi a 4. (* ADMconstraints.c:47 *)
Definition adm_ddpop12 (a : adm_in) : R := a_psi a 5. (* ADMconstraints.c:48 *)
Definition adm_ddpop13 (a : adm_in) : R := a_psi a 6. (* ADMconstraints.c:49 *)
Definition adm_ddpop22 (a : adm_in) : R := a_psi a 7. (* ADMconstraints.c:50 *)
Definition adm_ddpop23 (a : adm_in) : R := a_psi a 8. (* ADMconstraints.c:51 *)
Definition adm_ddpop33 (a : adm_in) : R := a_psi a 9. (* ADMconstraints.c:52 *)
Definition adm_g11 (a : adm_in) : R := a_u a 0. (* ADMconstraints.c:53 *)
Definition adm_g12 (a : adm_in) : R := a_u a 1. (* ADMconstraints.c:54 *)
Definition adm_g13 (a : adm_in) : R := a_u a 2. (* ADMconstraints.c:55 *)
Definition adm_g22 (a : adm_in) : R := a_u a 3. (* ADMconstraints.c:56 *)
Definition adm_g23 (a : adm_in) : R := a_u a 4. (* ADMconstraints.c:57 *)
Definition adm_g33 (a : adm_in) : R := a_u a 5. (* ADMconstraints.c:58 *)
Definition adm_K11 (a : adm_in) : R := a_u a 6. (* ADMconstraints.c:59 *)
Definition adm_K12 (a : adm_in) : R := a_u a 7. (* ADMconstraints.c:60 *)
Definition adm_K13 (a : adm_in) : R := a_u a 8. (* ADMconstraints.c:61 *)
Definition adm_K22 (a : adm_in) : R := a_u a 9. (* ADMconstraints.c:62 *)
Definition adm_K23 (a : adm_in) : R := a_u a 10. (* ADMconstraints.c:63 *)
Definition adm_K33 (a : adm_in) : R := a_u a 11. (* ADMconstraints.c:64 *)
Definition adm_alpha (a : adm_in) : R := a_u a 12. (* ADMconstraints.c:65 *)
Definition adm_beta1 (a : adm_in) : R := a_u a 13. (* ADMconstraints.c:66 *)
Definition adm_beta2 (a : adm_in) : R := a_u a 14. (* ADMconstraints.c:67 *)
Definition adm_beta3 (a : adm_in) : R := a_u a 15. (* ADMconstraints.c:68 *)
Definition adm_rho (a : adm_in) : R := a_u a 16. (* ADMconstraints.c:69 *)
Definition adm_j1 (a : adm_in) : R := a_u a 17. (* ADMconstraints.c:70 *)
Definition adm_j2 (a : adm_in) : R := a_u a 18. (* ADMconstraints.c:71 *)
Definition adm_j3 (a : adm_in) : R := a_u a 19. (* ADMconstraints.c:72 *)
Definition adm_S11 (a : adm_in) : R := a_u a 20. (* ADMconstraints.c:73 *)
Definition adm_S12 (a : adm_in) : R := a_u a 21. (* ADMconstraints.c:74 *)
Definition adm_S13 (a : adm_in) : R := a_u a 22. (* ADMconstraints.c:75 *)
Definition adm_S22 (a : adm_in) : R := a_u a 23. (* ADMconstraints.c:76 *)
Definition adm_S23 (a : adm_in) : R := a_u a 24. (* ADMconstraints.c:77 *)
Definition adm_S33 (a : adm_in) : R := a_u a 25. (* ADMconstraints.c:78 *)
Definition adm_dg111 (a : adm_in) : R := a_dg a 0. (* ADMconstraints.c:90 *)
Definition adm_dg112 (a : adm_in) : R := a_dg a 1. (* ADMconstraints.c:91 *)
Definition adm_dg113 (a : adm_in) : R := a_dg a 2. (* ADMconstraints.c:92 *)
Definition adm_dg121 (a : adm_in) : R := a_dg a 3. (* ADMconstraints.c:93 *)
Definition adm_dg122 (a : adm_in) : R := a_dg a 4. (* ADMconstraints.c:94 *)
Definition adm_dg123 (a : adm_in) : R := a_dg a 5. (* ADMconstraints.c:95 *)
Definition adm_dg131 (a : adm_in) : R := a_dg a 6. (* ADMconstraints.c:96 *)
Definition adm_dg132 (a : adm_in) : R := a_dg a 7. (* ADMconstraints.c:97 *)
Definition adm_dg133 (a : adm_in) : R := a_dg a 8. (* ADMconstraints.c:98 *)
Definition adm_dg221 (a : adm_in) : R := a_dg a 9. (* ADMconstraints.c:99 *)
Definition adm_dg222 (a : adm_in) : R := a_dg a 10. (* ADMconstraints.c:100 *)
Definition adm_dg223 (a : adm_in) : R := a_dg a 11. (* ADMconstraints.c:101 *)
Definition adm_dg231 (a : adm_in) : R := a_dg a 12. (* ADMconstraints.c:102 *)
Definition adm_dg232 (a : adm_in) : R := a_dg a 13. (* ADMconstraints.c:103 *)
Definition adm_dg233 (a : adm_in) : R := a_dg a 14. (* ADMconstraints.c:104 *)
Definition adm_dg331 (a : adm_in) : R := a_dg a 15. (* ADMconstraints.c:105 *)
Definition adm_dg332 (a : adm_in) : R := a_dg a 16. (* ADMconstraints.c:106 *)
Definition adm_dg333 (a : adm_in) : R := a_dg a 17. (* ADMconstraints.c:107 *)
Definition adm_ddg1111 (a : adm_in) : R := a_ddg a 0. (* ADMconstraints.c:109 *)
Definition adm_ddg1112 (a : adm_in) : R := a_ddg a 1. (* ADMconstraints.c:110 *)
Definition adm_ddg1113 (a : adm_in) : R := a_ddg a 2. (* ADMconstraints.c:111 *)
Definition adm_ddg1122 (a : adm_in) : R := a_ddg a 3. (* ADMconstraints.c:112 *)
Definition adm_ddg1123 (a : adm_in) : R := a_ddg a 4. (* ADMconstraints.c:113 *)
Definition adm_ddg1133 (a : adm_in) : R := a_ddg a 5. (* ADMconstraints.c:114 *)
Definition adm_ddg1211 (a : adm_in) : R := a_ddg a 6. (* ADMconstraints.c:115 *)
Definition adm_ddg1212 (a : adm_in) : R := a_ddg a 7. (* ADMconstraints.c:116 *)
Definition adm_ddg1213 (a : adm_in) : R := a_ddg a 8. (* ADMconstraints.c:117 *)
Definition adm_ddg1222 (a : adm_in) : R := a_ddg a 9. (* ADMconstraints.c:118 *)
Definition adm_ddg1223 (a : adm_in) : R := a_ddg a 10. (* ADMconstraints.c:119 *)
Definition adm_ddg1233 (a : adm_in) : R := a_ddg a 11. (* ADMconstraints.c:120 *)
Definition adm_ddg1311 (a : adm_in) : R := a_ddg a 12. (* ADMconstraints.c:121 *)
Definition adm_ddg1312 (a : adm_in) : R := a_ddg a 13. (* ADMconstraints.c:122 *)
Definition adm_ddg1313 (a : adm_in) : R := a_ddg a 14. (* ADMconstraints.c:123 *)
Definition adm_ddg1322 (a : adm_in) : R := a_ddg a 15. (* ADMconstraints.c:124 *)
Definition adm_ddg1323 (a : adm_in) : R := a_ddg a 16. (* ADMconstraints.c:125 *)
Definition adm_ddg1333 (a : adm_in) : R := a_ddg a 17. (* ADMconstraints.c:126 *)
Definition adm_ddg2211 (a : adm_in) : R := a_ddg a 18. (* ADMconstraints.c:127 *)
Definition adm_ddg2212 (a : adm_in) : R := a_ddg a 19. (* ADMconstraints.c:128 *)
Definition adm_ddg2213 (a : adm_in) : R := a_ddg a 20. (* ADMconstraints.c:129 *)
Definition adm_ddg2222 (a : adm_in) : R := a_ddg a 21. (* ADMconstraints.c:130 *)
Definition adm_ddg2223 (a : adm_in) : R := a_ddg a 22. (* ADMconstraints.c:131 *)
Definition adm_ddg2233 (a : adm_in) : R := a_ddg a 23. (* ADMconstraints.c:132 *)
Definition adm_ddg2311 (a : adm_in) : R := a_ddg a 24. (* ADMconstraints.c:133 *)
Definition adm_ddg2312 (a : adm_in) : R := a_ddg a 25. (* ADMconstraints.c:134 *)
Definition adm_ddg2313 (a : adm_in) : R := a_ddg a 26. (* ADMconstraints.c:135 *)
Definition adm_ddg2322 (a : adm_in) : R := a_ddg a 27. (* ADMconstraints.c:136 *)
Definition adm_ddg2323 (a : adm_in) : R := a_ddg a 28. (* ADMconstraints.c:137 *)
Definition adm_ddg2333 (a : adm_in) : R := a_ddg a 29. (* ADMconstraints.c:138 *)
Definition adm_ddg3311 (a : adm_in) : R := a_ddg a 30. (* ADMconstraints.c:139 *)
Definition adm_ddg3312 (a : adm_in) : R := a_ddg a 31. (* ADMconstraints.c:140 *)
Definition adm_ddg3313 (a : adm_in) : R := a_ddg a 32. (* ADMconstraints.c:141 *)
Definition adm_ddg3322 (a : adm_in) : R := a_ddg a 33. (* ADMconstraints.c:142 *)
Definition adm_ddg3323 (a : adm_in) : R := a_ddg a 34. (* ADMconstraints.c:143 *)
Definition adm_ddg3333 (a : adm_in) : R := a_ddg a 35. (* ADMconstraints.c:144 *)
Definition adm_dK111 (a : adm_in) : R := a_dK a 0. (* ADMconstraints.c:146 *)
Definition adm_dK112 (a : adm_in) : R := a_dK a 1. (* ADMconstraints.c:147 *)
Definition adm_dK113 (a : adm_in) : R := a_dK a 2. (* ADMconstraints.c:148 *)
Definition adm_dK121 (a : adm_in) : R := a_dK a 3. (* ADMconstraints.c:149 *)
Definition adm_dK122 (a : adm_in) : R := a_dK a 4. (* ADMconstraints.c:150 *)
Definition adm_dK123 (a : adm_in) : R := a_dK a 5. (* ADMconstraints.c:151 *)
Definition adm_dK131 (a : adm_in) : R := a_dK a 6. (* ADMconstraints.c:152 *)
Definition adm_dK132 (a : adm_in) : R := a_dK a 7. (* ADMconstraints.c:153 *)
Definition adm_dK133 (a : adm_in) : R := a_dK a 8. (* ADMconstraints.c:154 *)
Definition adm_dK221 (a : adm_in) : R := a_dK a 9. (* ADMconstraints.c:155 *)
Definition adm_dK222 (a : adm_in) : R := a_dK a 10. (* ADMconstraints.c:156 *)
Definition adm_dK223 (a : adm_in) : R := a_dK a 11. (* ADMconstraints.c:157 *)
Definition adm_dK231 (a : adm_in) : R := a_dK a 12. (* ADMconstraints.c:158 *)
Definition adm_dK232 (a : adm_in) : R := a_dK a 13. (* ADMconstraints.c:159 *)
Definition adm_dK233 (a : adm_in) : R := a_dK a 14. (* ADMconstraints.c:160 *)
Definition adm_dK331 (a : adm_in) : R := a_dK a 15. (* ADMconstraints.c:161 *)
Definition adm_dK332 (a : adm_in) : R := a_dK a 16. (* ADMconstraints.c:162 *)
Definition adm_dK333 (a : adm_in) : R := a_dK a 17. (* ADMconstraints.c:163 *)
Definition adm_dalp1 (a : adm_in) : R := a_dalp a 0. (* ADMconstraints.c:165 *)
Definition adm_dalp2 (a : adm_in) : R := a_dalp a 1. (* ADMconstraints.c:166 *)
Definition adm_dalp3 (a : adm_in) : R := a_dalp a 2. (* ADMconstraints.c:167 *)
Definition adm_ddalp11 (a : adm_in) : R := a_ddalp a 0. (* ADMconstraints.c:169 *)
Definition adm_ddalp12 (a : adm_in) : R := a_ddalp a 1. (* ADMconstraints.c:170 *)
Definition adm_ddalp13 (a : adm_in) : R := a_ddalp a 2. (* ADMconstraints.c:171 *)
Definition adm_ddalp22 (a : adm_in) : R := a_ddalp a 3. (* ADMconstraints.c:172 *)
Definition adm_ddalp23 (a : adm_in) : R := a_ddalp a 4. (* ADMconstraints.c:173 *)
Definition adm_ddalp33 (a : adm_in) : R := a_ddalp a 5. (* ADMconstraints.c:174 *)
Definition adm_delg111 (a : adm_in) : R := (adm_dg111 a). (* ADMconstraints.c:503-506 *)
Definition adm_delg112 (a : adm_in) : R := (adm_dg121 a). (* ADMconstraints.c:508-511 *)
Definition adm_delg113 (a : adm_in) : R := (adm_dg131 a). (* ADMconstraints.c:513-516 *)
Definition adm_delg122 (a : adm_in) : R := (adm_dg221 a). (* ADMconstraints.c:518-521 *)
Definition adm_delg123 (a : adm_in) : R := (adm_dg231 a). (* ADMconstraints.c:523-526 *)
Definition adm_delg133 (a : adm_in) : R := (adm_dg331 a). (* ADMconstraints.c:528-531 *)
Definition adm_delg211 (a : adm_in) : R := (adm_dg112 a). (* ADMconstraints.c:533-536 *)
Definition adm_delg212 (a : adm_in) : R := (adm_dg122 a). (* ADMconstraints.c:538-541 *)
Definition adm_delg213 (a : adm_in) : R := (adm_dg132 a). (* ADMconstraints.c:543-546 *)
Definition adm_delg222 (a : adm_in) : R := (adm_dg222 a). (* ADMconstraints.c:548-551 *)
Definition adm_delg223 (a : adm_in) : R := (adm_dg232 a). (* ADMconstraints.c:553-556 *)
Definition adm_delg233 (a : adm_in) : R := (adm_dg332 a). (* ADMconstraints.c:558-561 *)
Definition adm_delg311 (a : adm_in) : R := (adm_dg113 a). (* ADMconstraints.c:563-566 *)
Definition adm_delg312 (a : adm_in) : R := (adm_dg123 a). (* ADMconstraints.c:568-571 *)
Definition adm_delg313 (a : adm_in) : R := (adm_dg133 a). (* ADMconstraints.c:573-576 *)
Definition adm_delg322 (a : adm_in) : R := (adm_dg223 a). (* ADMconstraints.c:578-581 *)
Definition adm_delg323 (a : adm_in) : R := (adm_dg233 a). (* ADMconstraints.c:583-586 *)
Definition adm_delg333 (a : adm_in) : R := (adm_dg333 a). (* ADMconstraints.c:588-591 *)
Definition adm_deldelg1111 (a : adm_in) : R := (adm_ddg1111 a). (* ADMconstraints.c:593-596 *)
Definition adm_deldelg1112 (a : adm_in) : R := (adm_ddg1211 a). (* ADMconstraints.c:598-601 *)
Definition adm_deldelg1113 (a : adm_in) : R := (adm_ddg1311 a). (* ADMconstraints.c:603-606 *)
Definition adm_deldelg1122 (a : adm_in) : R := (adm_ddg2211 a). (* ADMconstraints.c:608-611 *)
Definition adm_deldelg1123 (a : adm_in) : R := (adm_ddg2311 a). (* ADMconstraints.c:613-616 *)
Definition adm_deldelg1133 (a : adm_in) : R := (adm_ddg3311 a). (* ADMconstraints.c:618-621 *)
Definition adm_deldelg1211 (a : adm_in) : R := (adm_ddg1112 a). (* ADMconstraints.c:623-626 *)
Definition adm_deldelg1212 (a : adm_in) : R := (adm_ddg1212 a). (* ADMconstraints.c:628-631 *)
Definition adm_deldelg1213 (a : adm_in) : R := (adm_ddg1312 a). (* ADMconstraints.c:633-636 *)
Definition adm_deldelg1222 (a : adm_in) : R := (adm_ddg2212 a). (* ADMconstraints.c:638-641 *)
Definition adm_deldelg1223 (a : adm_in) : R := (adm_ddg2312 a). (* ADMconstraints.c:643-646 *)
Definition adm_deldelg1233 (a : adm_in) : R := (adm_ddg3312 a). (* ADMconstraints.c:648-651 *)
Definition adm_deldelg1311 (a : adm_in) : R := (adm_ddg1113 a). (* ADMconstraints.c:653-656 *)
Definition adm_deldelg1312 (a : adm_in) : R := (adm_ddg1213 a). (* ADMconstraints.c:658-661 *)
Definition adm_deldelg1313 (a : adm_in) : R := (adm_ddg1313 a). (* ADMconstraints.c:663-666 *)
Definition adm_deldelg1322 (a : adm_in) : R := (adm_ddg2213 a). (* ADMconstraints.c:668-671 *)
Definition adm_deldelg1323 (a : adm_in) : R := (adm_ddg2313 a). (* ADMconstraints.c:673-676 *)
Definition adm_deldelg1333 (a : adm_in) : R := (adm_ddg3313 a). (* ADMconstraints.c:678-681 *)
Definition adm_deldelg2211 (a : adm_in) : R := (adm_ddg1122 a). (* ADMconstraints.c:683-686 *)
Definition adm_deldelg2212 (a : adm_in) : R := (adm_ddg1222 a). (* ADMconstraints.c:688-691 *)
Definition adm_deldelg2213 (a : adm_in) : R := (adm_ddg1322 a). (* ADMconstraints.c:693-696 *)
Definition adm_deldelg2222 (a : adm_in) : R := (adm_ddg2222 a). (* ADMconstraints.c:698-701 *)
Definition adm_deldelg2223 (a : adm_in) : R := (adm_ddg2322 a). (* ADMconstraints.c:703-706 *)
Definition adm_deldelg2233 (a : adm_in) : R := (adm_ddg3322 a). (* ADMconstraints.c:708-711 *)
Definition adm_deldelg2311 (a : adm_in) : R := (adm_ddg1123 a). (* ADMconstraints.c:713-716 *)
Definition adm_deldelg2312 (a : adm_in) : R := (adm_ddg1223 a). (* ADMconstraints.c:718-721 *)
Definition adm_deldelg2313 (a : adm_in) : R := (adm_ddg1323 a). (* ADMconstraints.c:723-726 *)
Definition adm_deldelg2322 (a : adm_in) : R := (adm_ddg2223 a). (* ADMconstraints.c:728-731 *)
Definition adm_deldelg2323 (a : adm_in) : R := (adm_ddg2323 a). (* ADMconstraints.c:733-736 *)
Definition adm_deldelg2333 (a : adm_in) : R := (adm_ddg3323 a). (* ADMconstraints.c:738-741 *)
Definition adm_deldelg3311 (a : adm_in) : R := (adm_ddg1133 a). (* ADMconstraints.c:743-746 *)
Definition adm_deldelg3312 (a : adm_in) : R := (adm_ddg1233 a). (* ADMconstraints.c:748-751 *)
Definition adm_deldelg3313 (a : adm_in) : R := (adm_ddg1333 a). (* ADMconstraints.c:753-756 *)
Definition adm_deldelg3322 (a : adm_in) : R := (adm_ddg2233 a). (* ADMconstraints.c:758-761 *)
Definition adm_deldelg3323 (a : adm_in) : R := (adm_ddg2333 a). (* ADMconstraints.c:763-766 *)
Definition adm_deldelg3333 (a : adm_in) : R := (adm_ddg3333 a). (* ADMconstraints.c:768-771 *)
Definition adm_delK111 (a : adm_in) : R := (adm_dK111 a). (* ADMconstraints.c:773-776 *)
Definition adm_delK112 (a : adm_in) : R := (adm_dK121 a). (* ADMconstraints.c:778-781 *)
Definition adm_delK113 (a : adm_in) : R := (adm_dK131 a). (* ADMconstraints.c:783-786 *)
Definition adm_delK122 (a : adm_in) : R := (adm_dK221 a). (* ADMconstraints.c:788-791 *)
Definition adm_delK123 (a : adm_in) : R := (adm_dK231 a). (* ADMconstraints.c:793-796 *)
Definition adm_delK133 (a : adm_in) : R := (adm_dK331 a). (* ADMconstraints.c:798-801 *)
Definition adm_delK211 (a : adm_in) : R := (adm_dK112 a). (* ADMconstraints.c:803-806 *)
Definition adm_delK212 (a : adm_in) : R := (adm_dK122 a). (* ADMconstraints.c:808-811 *)
Definition adm_delK213 (a : adm_in) : R := (adm_dK132 a). (* ADMconstraints.c:813-816 *)
Definition adm_delK222 (a : adm_in) : R := (adm_dK222 a). (* ADMconstraints.c:818-821 *)
Definition adm_delK223 (a : adm_in) : R := (adm_dK232 a). (* ADMconstraints.c:823-826 *)
Definition adm_delK233 (a : adm_in) : R := (adm_dK332 a). (* ADMconstraints.c:828-831 *)
Definition adm_delK311 (a : adm_in) : R := (adm_dK113 a). (* ADMconstraints.c:833-836 *)
Definition adm_delK312 (a : adm_in) : R := (adm_dK123 a). (* ADMconstraints.c:838-841 *)
Definition adm_delK313 (a : adm_in) : R := (adm_dK133 a). (* ADMconstraints.c:843-846 *)
Definition adm_delK322 (a : adm_in) : R := (adm_dK223 a). (* ADMconstraints.c:848-851 *)
Definition adm_delK323 (a : adm_in) : R := (adm_dK233 a). (* ADMconstraints.c:853-856 *)
Definition adm_delK333 (a : adm_in) : R := (adm_dK333 a). (* ADMconstraints.c:858-861 *)
Definition adm_f (a : adm_in) : R := ((adm_psi a)) ^ 4. (* ADMconstraints.c:863-866 *)
Definition adm_delf1 (a : adm_in) : R := 4 * (adm_f a) * (adm_dpop1 a). (* ADMconstraints.c:868-871 *)
Definition adm_delf2 (a : adm_in) : R := 4 * (adm_f a) * (adm_dpop2 a). (* ADMconstraints.c:873-876 *)
Definition adm_delf3 (a : adm_in) : R := 4 * (adm_f a) * (adm_dpop3 a). (* ADMconstraints.c:878-881 *)
Definition adm_deldelf11 (a : adm_in) : R := (adm_f a) * (4 * (adm_ddpop11 a) + 12 * pow2 ((adm_dpop1 a))). (* ADMconstraints.c:883-886 *)
Definition adm_deldelf12 (a : adm_in) : R := (adm_f a) * (4 * (adm_ddpop12 a) + 12 * (adm_dpop1 a) * (adm_dpop2 a)). (* ADMconstraints.c:888-891 *)
Definition adm_deldelf13 (a : adm_in) : R := (adm_f a) * (4 * (adm_ddpop13 a) + 12 * (adm_dpop1 a) * (adm_dpop3 a)). (* ADMconstraints.c:893-896 *)
Definition adm_deldelf22 (a : adm_in) : R := (adm_f a) * (4 * (adm_ddpop22 a) + 12 * pow2 ((adm_dpop2 a))). (* ADMconstraints.c:898-901 *)
Definition adm_deldelf23 (a : adm_in) : R := (adm_f a) * (4 * (adm_ddpop23 a) + 12 * (adm_dpop2 a) * (adm_dpop3 a)). (* ADMconstraints.c:903-906 *)
Definition adm_deldelf33 (a : adm_in) : R := (adm_f a) * (4 * (adm_ddpop33 a) + 12 * pow2 ((adm_dpop3 a))). (* ADMconstraints.c:908-911 *)
Definition adm_deldelg1111_2 (a : adm_in) : R := 2 * (adm_delf1 a) * (adm_delg111 a) + (adm_deldelg1111 a) * (adm_f a) + (adm_deldelf11 a) * (adm_g11 a). (* ADMconstraints.c:913-916 *)
Definition adm_deldelg1112_2 (a : adm_in) : R := 2 * (adm_delf1 a) * (adm_delg112 a) + (adm_deldelg1112 a) * (adm_f a) + (adm_deldelf11 a) * (adm_g12 a). (* ADMconstraints.c:918-921 *)
Definition adm_deldelg1113_2 (a : adm_in) : R := 2 * (adm_delf1 a) * (adm_delg113 a) + (adm_deldelg1113 a) * (adm_f a) + (adm_deldelf11 a) * (adm_g13 a). (* ADMconstraints.c:923-926 *)
Definition adm_deldelg1122_2 (a : adm_in) : R := 2 * (adm_delf1 a) * (adm_delg122 a) + (adm_deldelg1122 a) * (adm_f a) + (adm_deldelf11 a) * (adm_g22 a). (* ADMconstraints.c:928-931 *)
Definition adm_deldelg1123_2 (a : adm_in) : R := 2 * (adm_delf1 a) * (adm_delg123 a) + (adm_deldelg1123 a) * (adm_f a) + (adm_deldelf11 a) * (adm_g23 a). (* ADMconstraints.c:933-936 *)
Definition adm_deldelg1133_2 (a : adm_in) : R := 2 * (adm_delf1 a) * (adm_delg133 a) + (adm_deldelg1133 a) * (adm_f a) + (adm_deldelf11 a) * (adm_g33 a). (* ADMconstraints.c:938-941 *)
Definition adm_deldelg1211_2 (a : adm_in) : R := (adm_delf2 a) * (adm_delg111 a) + (adm_delf1 a) * (adm_delg211 a) + (adm_deldelg1211 a) * (adm_f a) + (adm_deldelf12 a) * (adm_g11 a). (* ADMconstraints.c:943-946 *)
Definition adm_deldelg1212_2 (a : adm_in) : R := (adm_delf2 a) * (adm_delg112 a) + (adm_delf1 a) * (adm_delg212 a) + (adm_deldelg1212 a) * (adm_f a) + (adm_deldelf12 a) * (adm_g12 a). (* ADMconstraints.c:948-951 *)
Definition adm_deldelg1213_2 (a : adm_in) : R := (adm_delf2 a) * (adm_delg113 a) + (adm_delf1 a) * (adm_delg213 a) + (adm_deldelg1213 a) * (adm_f a) + (adm_deldelf12 a) * (adm_g13 a). (* ADMconstraints.c:953-956 *)
Definition adm_deldelg1222_2 (a : adm_in) : R := (adm_delf2 a) * (adm_delg122 a) + (adm_delf1 a) * (adm_delg222 a) + (adm_deldelg1222 a) * (adm_f a) + (adm_deldelf12 a) * (adm_g22 a). (* ADMconstraints.c:958-961 *)
Definition adm_deldelg1223_2 (a : adm_in) : R := (adm_delf2 a) * (adm_delg123 a) + (adm_delf1 a) * (adm_delg223 a) + (adm_deldelg1223 a) * (adm_f a) + (adm_deldelf12 a) * (adm_g23 a). (* ADMconstraints.c:963-966 *)
Definition adm_deldelg1233_2 (a : adm_in) : R := (adm_delf2 a) * (adm_delg133 a) + (adm_delf1 a) * (adm_delg233 a) + (adm_deldelg1233 a) * (adm_f a) + (adm_deldelf12 a) * (adm_g33 a). (* ADMconstraints.c:968-971 *)
Definition adm_deldelg1311_2 (a : adm_in) : R := (adm_delf3 a) * (adm_delg111 a) + (adm_delf1 a) * (adm_delg311 a) + (adm_deldelg1311 a) * (adm_f a) + (adm_deldelf13 a) * (adm_g11 a). (* ADMconstraints.c:973-976 *)
Definition adm_deldelg1312_2 (a : adm_in) : R := (adm_delf3 a) * (adm_delg112 a) + (adm_delf1 a) * (adm_delg312 a) + (adm_deldelg1312 a) * (adm_f a) + (adm_deldelf13 a) * (adm_g12 a). (* ADMconstraints.c:978-981 *)
Definition adm_deldelg1313_2 (a : adm_in) : R := (adm_delf3 a) * (adm_delg113 a) + (adm_delf1 a) * (adm_delg313 a) + (adm_deldelg1313 a) * (adm_f a) + (adm_deldelf13 a) * (adm_g13 a). (* ADMconstraints.c:983-986 *)
Definition adm_deldelg1322_2 (a : adm_in) : R := (adm_delf3 a) * (adm_delg122 a) + (adm_delf1 a) * (adm_delg322 a) + (adm_deldelg1322 a) * (adm_f a) + (adm_deldelf13 a) * (adm_g22 a). (* ADMconstraints.c:988-991 *)
Definition adm_deldelg1323_2 (a : adm_in) : R := (adm_delf3 a) * (adm_delg123 a) + (adm_delf1 a) * (adm_delg323 a) + (adm_deldelg1323 a) * (adm_f a) + (adm_deldelf13 a) * (adm_g23 a). (* ADMconstraints.c:993-996 *)
Definition adm_deldelg1333_2 (a : adm_in) : R := (adm_delf3 a) * (adm_delg133 a) + (adm_delf1 a) * (adm_delg333 a) + (adm_deldelg1333 a) * (adm_f a) + (adm_deldelf13 a) * (adm_g33 a). (* ADMconstraints.c:998-1001 *)
Definition adm_deldelg2211_2 (a : adm_in) : R := 2 * (adm_delf2 a) * (adm_delg211 a) + (adm_deldelg2211 a) * (adm_f a) + (adm_deldelf22 a) * (adm_g11 a). (* ADMconstraints.c:1003-1006 *)
Definition adm_deldelg2212_2 (a : adm_in) : R := 2 * (adm_delf2 a) * (adm_delg212 a) + (adm_deldelg2212 a) * (adm_f a) + (adm_deldelf22 a) * (adm_g12 a). (* ADMconstraints.c:1008-1011 *)
Definition adm_deldelg2213_2 (a : adm_in) : R := 2 * (adm_delf2 a) * (adm_delg213 a) + (adm_deldelg2213 a) * (adm_f a) + (adm_deldelf22 a) * (adm_g13 a). (* ADMconstraints.c:1013-1016 *)
Definition adm_deldelg2222_2 (a : adm_in) : R := 2 * (adm_delf2 a) * (adm_delg222 a) + (adm_deldelg2222 a) * (adm_f a) + (adm_deldelf22 a) * (adm_g22 a). (* ADMconstraints.c:1018-1021 *)
Definition adm_deldelg2223_2 (a : adm_in) : R := 2 * (adm_delf2 a) * (adm_delg223 a) + (adm_deldelg2223 a) * (adm_f a) + (adm_deldelf22 a) * (adm_g23 a). (* ADMconstraints.c:1023-1026 *)
Definition adm_deldelg2233_2 (a : adm_in) : R := 2 * (adm_delf2 a) * (adm_delg233 a) + (adm_deldelg2233 a) * (adm_f a) + (adm_deldelf22 a) * (adm_g33 a). (* ADMconstraints.c:1028-1031 *)
Definition adm_deldelg2311_2 (a : adm_in) : R := (adm_delf3 a) * (adm_delg211 a) + (adm_delf2 a) * (adm_delg311 a) + (adm_deldelg2311 a) * (adm_f a) + (adm_deldelf23 a) * (adm_g11 a). (* ADMconstraints.c:1033-1036 *)
Definition adm_deldelg2312_2 (a : adm_in) : R := (adm_delf3 a) * (adm_delg212 a) + (adm_delf2 a) * (adm_delg312 a) + (adm_deldelg2312 a) * (adm_f a) + (adm_deldelf23 a) * (adm_g12 a). (* ADMconstraints.c:1038-1041 *)
Definition adm_deldelg2313_2 (a : adm_in) : R := (adm_delf3 a) * (adm_delg213 a) + (adm_delf2 a) * (adm_delg313 a) + (adm_deldelg2313 a) * (adm_f a) + (adm_deldelf23 a) * (adm_g13 a). (* ADMconstraints.c:1043-1046 *)
Definition adm_deldelg2322_2 (a : adm_in) : R := (adm_delf3 a) * (adm_delg222 a) + (adm_delf2 a) * (adm_delg322 a) + (adm_deldelg2322 a) * (adm_f a) + (adm_deldelf23 a) * (adm_g22 a). (* ADMconstraints.c:1048-1051 *)
Definition adm_deldelg2323_2 (a : adm_in) : R := (adm_delf3 a) * (adm_delg223 a) + (adm_delf2 a) * (adm_delg323 a) + (adm_deldelg2323 a) * (adm_f a) + (adm_deldelf23 a) * (adm_g23 a). (* ADMconstraints.c:1053-1056 *)
Definition adm_deldelg2333_2 (a : adm_in) : R := (adm_delf3 a) * (adm_delg233 a) + (adm_delf2 a) * (adm_delg333 a) + (adm_deldelg2333 a) * (adm_f a) + (adm_deldelf23 a) * (adm_g33 a). (* ADMconstraints.c:1058-1061 *)
Definition adm_deldelg3311_2 (a : adm_in) : R := 2 * (adm_delf3 a) * (adm_delg311 a) + (adm_deldelg3311 a) * (adm_f a) + (adm_deldelf33 a) * (adm_g11 a). (* ADMconstraints.c:1063-1066 *)
Definition adm_deldelg3312_2 (a : adm_in) : R := 2 * (adm_delf3 a) * (adm_delg312 a) + (adm_deldelg3312 a) * (adm_f a) + (adm_deldelf33 a) * (adm_g12 a). (* ADMconstraints.c:1068-1071 *)
Definition adm_deldelg3313_2 (a : adm_in) : R := 2 * (adm_delf3 a) * (adm_delg313 a) + (adm_deldelg3313 a) * (adm_f a) + (adm_deldelf33 a) * (adm_g13 a). (* ADMconstraints.c:1073-1076 *)
Definition adm_deldelg3322_2 (a : adm_in) : R := 2 * (adm_delf3 a) * (adm_delg322 a) + (adm_deldelg3322 a) * (adm_f a) + (adm_deldelf33 a) * (adm_g22 a). (* ADMconstraints.c:1078-1081 *)
Definition adm_deldelg3323_2 (a : adm_in) : R := 2 * (adm_delf3 a) * (adm_delg323 a) + (adm_deldelg3323 a) * (adm_f a) + (adm_deldelf33 a) * (adm_g23 a). (* ADMconstraints.c:1083-1086 *)
Definition adm_deldelg3333_2 (a : adm_in) : R := 2 * (adm_delf3 a) * (adm_delg333 a) + (adm_deldelg3333 a) * (adm_f a) + (adm_deldelf33 a) * (adm_g33 a). (* ADMconstraints.c:1088-1091 *)
Definition adm_delg111_2 (a : adm_in) : R := (adm_delg111 a) * (adm_f a) + (adm_delf1 a) * (adm_g11 a). (* ADMconstraints.c:1093-1096 *)
Definition adm_delg112_2 (a : adm_in) : R := (adm_delg112 a) * (adm_f a) + (adm_delf1 a) * (adm_g12 a). (* ADMconstraints.c:1098-1101 *)
Definition adm_delg113_2 (a : adm_in) : R := (adm_delg113 a) * (adm_f a) + (adm_delf1 a) * (adm_g13 a). (* ADMconstraints.c:1103-1106 *)
Definition adm_delg122_2 (a : adm_in) : R := (adm_delg122 a) * (adm_f a) + (adm_delf1 a) * (adm_g22 a). (* ADMconstraints.c:1108-1111 *)
Definition adm_delg123_2 (a : adm_in) : R := (adm_delg123 a) * (adm_f a) + (adm_delf1 a) * (adm_g23 a). (* ADMconstraints.c:1113-1116 *)
Definition adm_delg133_2 (a : adm_in) : R := (adm_delg133 a) * (adm_f a) + (adm_delf1 a) * (adm_g33 a). (* ADMconstraints.c:1118-1121 *)
Definition adm_delg211_2 (a : adm_in) : R := (adm_delg211 a) * (adm_f a) + (adm_delf2 a) * (adm_g11 a). (* ADMconstraints.c:1123-1126 *)
Definition adm_delg212_2 (a : adm_in) : R := (adm_delg212 a) * (adm_f a) + (adm_delf2 a) * (adm_g12 a). (* ADMconstraints.c:1128-1131 *)
Definition adm_delg213_2 (a : adm_in) : R := (adm_delg213 a) * (adm_f a) + (adm_delf2 a) * (adm_g13 a). (* ADMconstraints.c:1133-1136 *)
Definition adm_delg222_2 (a : adm_in) : R := (adm_delg222 a) * (adm_f a) + (adm_delf2 a) * (adm_g22 a). (* ADMconstraints.c:1138-1141 *)
Definition adm_delg223_2 (a : adm_in) : R := (adm_delg223 a) * (adm_f a) + (adm_delf2 a) * (adm_g23 a). (* ADMconstraints.c:1143-1146 *)
Definition adm_delg233_2 (a : adm_in) : R := (adm_delg233 a) * (adm_f a) + (adm_delf2 a) * (adm_g33 a). (* ADMconstraints.c:1148-1151 *)
Definition adm_delg311_2 (a : adm_in) : R := (adm_delg311 a) * (adm_f a) + (adm_delf3 a) * (adm_g11 a). (* ADMconstraints.c:1153-1156 *)
Definition adm_delg312_2 (a : adm_in) : R := (adm_delg312 a) * (adm_f a) + (adm_delf3 a) * (adm_g12 a). (* ADMconstraints.c:1158-1161 *)
Definition adm_delg313_2 (a : adm_in) : R := (adm_delg313 a) * (adm_f a) + (adm_delf3 a) * (adm_g13 a). (* ADMconstraints.c:1163-1166 *)
Definition adm_delg322_2 (a : adm_in) : R := (adm_delg322 a) * (adm_f a) + (adm_delf3 a) * (adm_g22 a). (* ADMconstraints.c:1168-1171 *)
Definition adm_delg323_2 (a : adm_in) : R := (adm_delg323 a) * (adm_f a) + (adm_delf3 a) * (adm_g23 a). (* ADMconstraints.c:1173-1176 *)
Definition adm_delg333_2 (a : adm_in) : R := (adm_delg333 a) * (adm_f a) + (adm_delf3 a) * (adm_g33 a). (* ADMconstraints.c:1178-1181 *)
Definition adm_detginvf (a : adm_in) : R := 1 / ((adm_f a) * (2 * (adm_g12 a) * (adm_g13 a) * (adm_g23 a) + (adm_g11 a) * (adm_g22 a) * (adm_g33 a) - (adm_g33 a) * pow2 ((adm_g12 a)) - (adm_g22 a) * pow2 ((adm_g13 a)) - (adm_g11 a) * pow2 ((adm_g23 a)))). (* ADMconstraints.c:1183-1188 *)
Definition adm_ginv11 (a : adm_in) : R := (adm_detginvf a) * ((adm_g22 a) * (adm_g33 a) - pow2 ((adm_g23 a))). (* ADMconstraints.c:1190-1193 *)
Definition adm_ginv12 (a : adm_in) : R := (adm_detginvf a) * ((adm_g13 a) * (adm_g23 a) - (adm_g12 a) * (adm_g33 a)). (* ADMconstraints.c:1195-1198 *)
Definition adm_ginv13 (a : adm_in) : R := (adm_detginvf a) * ((- ((adm_g13 a) * (adm_g22 a))) + (adm_g12 a) * (adm_g23 a)). (* ADMconstraints.c:1200-1203 *)
Definition adm_ginv22 (a : adm_in) : R := (adm_detginvf a) * ((adm_g11 a) * (adm_g33 a) - pow2 ((adm_g13 a))). (* ADMconstraints.c:1205-1208 *)
Definition adm_ginv23 (a : adm_in) : R := (adm_detginvf a) * ((adm_g12 a) * (adm_g13 a) - (adm_g11 a) * (adm_g23 a)). (* ADMconstraints.c:1210-1213 *)
Definition adm_ginv33 (a : adm_in) : R := (adm_detginvf a) * ((adm_g11 a) * (adm_g22 a) - pow2 ((adm_g12 a))). (* ADMconstraints.c:1215-1218 *)
Definition adm_gammado111 (a : adm_in) : R := (1 / 2) * (adm_delg111_2 a). (* ADMconstraints.c:1220-1223 *)
Definition adm_gammado112 (a : adm_in) : R := (1 / 2) * (adm_delg211_2 a). (* ADMconstraints.c:1225-1228 *)
Definition adm_gammado113 (a : adm_in) : R := (1 / 2) * (adm_delg311_2 a). (* ADMconstraints.c:1230-1233 *)
Definition adm_gammado121 (a : adm_in) : R := (1 / 2) * (adm_delg211_2 a). (* ADMconstraints.c:1235-1238 *)
Definition adm_gammado122 (a : adm_in) : R := (- (1 / 2)) * (adm_delg122_2 a) + (adm_delg212_2 a). (* ADMconstraints.c:1240-1243 *)
Definition adm_gammado123 (a : adm_in) : R := (1 / 2) * ((- (adm_delg123_2 a)) + (adm_delg213_2 a) + (adm_delg312_2 a)). (* ADMconstraints.c:1245-1248 *)
Definition adm_gammado131 (a : adm_in) : R := (1 / 2) * (adm_delg311_2 a). (* ADMconstraints.c:1250-1253 *)
Definition adm_gammado132 (a : adm_in) : R := (1 / 2) * ((- (adm_delg123_2 a)) + (adm_delg213_2 a) + (adm_delg312_2 a)). (* ADMconstraints.c:1255-1258 *)
Definition adm_gammado133 (a : adm_in) : R := (- (1 / 2)) * (adm_delg133_2 a) + (adm_delg313_2 a). (* ADMconstraints.c:1260-1263 *)
Definition adm_gammado211 (a : adm_in) : R := (adm_delg112_2 a) - (1 / 2) * (adm_delg211_2 a). (* ADMconstraints.c:1265-1268 *)
Definition adm_gammado212 (a : adm_in) : R := (1 / 2) * (adm_delg122_2 a). (* ADMconstraints.c:1270-1273 *)
Definition adm_gammado213 (a : adm_in) : R := (1 / 2) * ((adm_delg123_2 a) - (adm_delg213_2 a) + (adm_delg312_2 a)). (* ADMconstraints.c:1275-1278 *)
Definition adm_gammado221 (a : adm_in) : R := (1 / 2) * (adm_delg122_2 a). (* ADMconstraints.c:1280-1283 *)
Definition adm_gammado222 (a : adm_in) : R := (1 / 2) * (adm_delg222_2 a). (* ADMconstraints.c:1285-1288 *)
Definition adm_gammado223 (a : adm_in) : R := (1 / 2) * (adm_delg322_2 a). (* ADMconstraints.c:1290-1293 *)
Definition adm_gammado231 (a : adm_in) : R := (1 / 2) * ((adm_delg123_2 a) - (adm_delg213_2 a) + (adm_delg312_2 a)). (* ADMconstraints.c:1295-1298 *)
Definition adm_gammado232 (a : adm_in) : R := (1 / 2) * (adm_delg322_2 a). (* ADMconstraints.c:1300-1303 *)
Definition adm_gammado233 (a : adm_in) : R := (- (1 / 2)) * (adm_delg233_2 a) + (adm_delg323_2 a). (* ADMconstraints.c:1305-1308 *)
Definition adm_gammado311 (a : adm_in) : R := (adm_delg113_2 a) - (1 / 2) * (adm_delg311_2 a). (* ADMconstraints.c:1310-1313 *)
Definition adm_gammado312 (a : adm_in) : R := (1 / 2) * ((adm_delg123_2 a) + (adm_delg213_2 a) - (adm_delg312_2 a)). (* ADMconstraints.c:1315-1318 *)
Definition adm_gammado313 (a : adm_in) : R := (1 / 2) * (adm_delg133_2 a). (* ADMconstraints.c:1320-1323 *)
Definition adm_gammado321 (a : adm_in) : R := (1 / 2) * ((adm_delg123_2 a) + (adm_delg213_2 a) - (adm_delg312_2 a)). (* ADMconstraints.c:1325-1328 *)
Definition adm_gammado322 (a : adm_in) : R := (adm_delg223_2 a) - (1 / 2) * (adm_delg322_2 a). (* ADMconstraints.c:1330-1333 *)
Definition adm_gammado323 (a : adm_in) : R := (1 / 2) * (adm_delg233_2 a). (* ADMconstraints.c:1335-1338 *)
Definition adm_gammado331 (a : adm_in) : R := (1 / 2) * (adm_delg133_2 a). (* ADMconstraints.c:1340-1343 *)
Definition adm_gammado332 (a : adm_in) : R := (1 / 2) * (adm_delg233_2 a). (* ADMconstraints.c:1345-1348 *)
Definition adm_gammado333 (a : adm_in) : R := (1 / 2) * (adm_delg333_2 a). (* ADMconstraints.c:1350-1353 *)
Definition adm_gamma111 (a : adm_in) : R := (adm_gammado111 a) * (adm_ginv11 a) + (adm_gammado211 a) * (adm_ginv12 a) + (adm_gammado311 a) * (adm_ginv13 a). (* ADMconstraints.c:1355-1358 *)
Definition adm_gamma112 (a : adm_in) : R := (adm_gammado112 a) * (adm_ginv11 a) + (adm_gammado212 a) * (adm_ginv12 a) + (adm_gammado312 a) * (adm_ginv13 a). (* ADMconstraints.c:1360-1363 *)
Definition adm_gamma113 (a : adm_in) : R := (adm_gammado113 a) * (adm_ginv11 a) + (adm_gammado213 a) * (adm_ginv12 a) + (adm_gammado313 a) * (adm_ginv13 a). (* ADMconstraints.c:1365-1368 *)
Definition adm_gamma121 (a : adm_in) : R := (adm_gammado121 a) * (adm_ginv11 a) + (adm_gammado221 a) * (adm_ginv12 a) + (adm_gammado321 a) * (adm_ginv13 a). (* ADMconstraints.c:1370-1373 *)
Definition adm_gamma122 (a : adm_in) : R := (adm_gammado122 a) * (adm_ginv11 a) + (adm_gammado222 a) * (adm_ginv12 a) + (adm_gammado322 a) * (adm_ginv13 a). (* ADMconstraints.c:1375-1378 *)
Definition adm_gamma123 (a : adm_in) : R := (adm_gammado123 a) * (adm_ginv11 a) + (adm_gammado223 a) * (adm_ginv12 a) + (adm_gammado323 a) * (adm_ginv13 a). (* ADMconstraints.c:1380-1383 *)
Definition adm_gamma131 (a : adm_in) : R := (adm_gammado131 a) * (adm_ginv11 a) + (adm_gammado231 a) * (adm_ginv12 a) + (adm_gammado331 a) * (adm_ginv13 a). (* ADMconstraints.c:1385-1388 *)
Definition adm_gamma132 (a : adm_in) : R := (adm_gammado132 a) * (adm_ginv11 a) + (adm_gammado232 a) * (adm_ginv12 a) + (adm_gammado332 a) * (adm_ginv13 a). (* ADMconstraints.c:1390-1393 *)
Definition adm_gamma133 (a : adm_in) : R := (adm_gammado133 a) * (adm_ginv11 a) + (adm_gammado233 a) * (adm_ginv12 a) + (adm_gammado333 a) * (adm_ginv13 a). (* ADMconstraints.c:1395-1398 *)
Definition adm_gamma211 (a : adm_in) : R := (adm_gammado111 a) * (adm_ginv12 a) + (adm_gammado211 a) * (adm_ginv22 a) + (adm_gammado311 a) * (adm_ginv23 a). (* ADMconstraints.c:1400-1403 *)
Definition adm_gamma212 (a : adm_in) : R := (adm_gammado112 a) * (adm_ginv12 a) + (adm_gammado212 a) * (adm_ginv22 a) + (adm_gammado312 a) * (adm_ginv23 a). (* ADMconstraints.c:1405-1408 *)
Definition adm_gamma213 (a : adm_in) : R := (adm_gammado113 a) * (adm_ginv12 a) + (adm_gammado213 a) * (adm_ginv22 a) + (adm_gammado313 a) * (adm_ginv23 a). (* ADMconstraints.c:1410-1413 *)
Definition adm_gamma221 (a : adm_in) : R := (adm_gammado121 a) * (adm_ginv12 a) + (adm_gammado221 a) * (adm_ginv22 a) + (adm_gammado321 a) * (adm_ginv23 a). (* ADMconstraints.c:1415-1418 *)
Definition adm_gamma222 (a : adm_in) : R := (adm_gammado122 a) * (adm_ginv12 a) + (adm_gammado222 a) * (adm_ginv22 a) + (adm_gammado322 a) * (adm_ginv23 a). (* ADMconstraints.c:1420-1423 *)
Definition adm_gamma223 (a : adm_in) : R := (adm_gammado123 a) * (adm_ginv12 a) + (adm_gammado223 a) * (adm_ginv22 a) + (adm_gammado323 a) * (adm_ginv23 a). (* ADMconstraints.c:1425-1428 *)
Definition adm_gamma231 (a : adm_in) : R := (adm_gammado131 a) * (adm_ginv12 a) + (adm_gammado231 a) * (adm_ginv22 a) + (adm_gammado331 a) * (adm_ginv23 a). (* ADMconstraints.c:1430-1433 *)
Definition adm_gamma232 (a : adm_in) : R := (adm_gammado132 a) * (adm_ginv12 a) + (adm_gammado232 a) * (adm_ginv22 a) + (adm_gammado332 a) * (adm_ginv23 a). (* ADMconstraints.c:1435-1438 *)
Definition adm_gamma233 (a : adm_in) : R := (adm_gammado133 a) * (adm_ginv12 a) + (adm_gammado233 a) * (adm_ginv22 a) + (adm_gammado333 a) * (adm_ginv23 a). (* ADMconstraints.c:1440-1443 *)
Definition adm_gamma311 (a : adm_in) : R := (adm_gammado111 a) * (adm_ginv13 a) + (adm_gammado211 a) * (adm_ginv23 a) + (adm_gammado311 a) * (adm_ginv33 a). (* ADMconstraints.c:1445-1448 *)
Definition adm_gamma312 (a : adm_in) : R := (adm_gammado112 a) * (adm_ginv13 a) + (adm_gammado212 a) * (adm_ginv23 a) + (adm_gammado312 a) * (adm_ginv33 a). (* ADMconstraints.c:1450-1453 *)
Definition adm_gamma313 (a : adm_in) : R := (adm_gammado113 a) * (adm_ginv13 a) + (adm_gammado213 a) * (adm_ginv23 a) + (adm_gammado313 a) * (adm_ginv33 a). (* ADMconstraints.c:1455-1458 *)
Definition adm_gamma321 (a : adm_in) : R := (adm_gammado121 a) * (adm_ginv13 a) + (adm_gammado221 a) * (adm_ginv23 a) + (adm_gammado321 a) * (adm_ginv33 a). (* ADMconstraints.c:1460-1463 *)
Definition adm_gamma322 (a : adm_in) : R := (adm_gammado122 a) * (adm_ginv13 a) + (adm_gammado222 a) * (adm_ginv23 a) + (adm_gammado322 a) * (adm_ginv33 a). (* ADMconstraints.c:1465-1468 *)
Definition adm_gamma323 (a : adm_in) : R := (adm_gammado123 a) * (adm_ginv13 a) + (adm_gammado223 a) * (adm_ginv23 a) + (adm_gammado323 a) * (adm_ginv33 a). (* ADMconstraints.c:1470-1473 *)
Definition adm_gamma331 (a : adm_in) : R := (adm_gammado131 a) * (adm_ginv13 a) + (adm_gammado231 a) * (adm_ginv23 a) + (adm_gammado331 a) * (adm_ginv33 a). (* ADMconstraints.c:1475-1478 *)
Definition adm_gamma332 (a : adm_in) : R := (adm_gammado132 a) * (adm_ginv13 a) + (adm_gammado232 a) * (adm_ginv23 a) + (adm_gammado332 a) * (adm_ginv33 a). (* ADMconstraints.c:1480-1483 *)
Definition adm_gamma333 (a : adm_in) : R := (adm_gammado133 a) * (adm_ginv13 a) + (adm_gammado233 a) * (adm_ginv23 a) + (adm_gammado333 a) * (adm_ginv33 a). (* ADMconstraints.c:1485-1488 *)
Definition adm_R11 (a : adm_in) : R := ((adm_gamma112 a) * (adm_gammado111 a) - (adm_gamma111 a) * (adm_gammado121 a) + (adm_gamma212 a) * (adm_gammado211 a) - (adm_gamma211 a) * (adm_gammado221 a) + (adm_gamma312 a) * (adm_gammado311 a) - (adm_gamma311 a) * (adm_gammado321 a)) * (adm_ginv12 a) + ((adm_gamma113 a) * (adm_gammado111 a) - (adm_gamma111 a) * (adm_gammado131 a) + (adm_gamma213 a) * (adm_gammado211 a) - (adm_gamma211 a) * (adm_gammado231 a) + (adm_gamma313 a) * (adm_gammado311 a) - (adm_gamma311 a) * (adm_gammado331 a)) * (adm_ginv13 a) + ((adm_deldelg1212_2 a) + (1 / 2) * ((- (adm_deldelg1122_2 a)) - (adm_deldelg2211_2 a)) + (adm_gamma112 a) * (adm_gammado112 a) - (adm_gamma111 a) * (adm_gammado122 a) + (adm_gamma212 a) * (adm_gammado212 a) - (adm_gamma211 a) * (adm_gammado222 a) + (adm_gamma312 a) * (adm_gammado312 a) - (adm_gamma311 a) * (adm_gammado322 a)) * (adm_ginv22 a) + ((- (adm_deldelg1123_2 a)) + (adm_deldelg1213_2 a) + (adm_deldelg1312_2 a) - (adm_deldelg2311_2 a) + (adm_gamma113 a) * (adm_gammado112 a) + (adm_gamma112 a) * (adm_gammado113 a) - (adm_gamma111 a) * ((adm_gammado123 a) + (adm_gammado132 a)) + (adm_gamma213 a) * (adm_gammado212 a) + (adm_gamma212 a) * (adm_gammado213 a) - (adm_gamma211 a) * ((adm_gammado223 a) + (adm_gammado232 a)) + (adm_gamma313 a) * (adm_gammado312 a) + (adm_gamma312 a) * (adm_gammado313 a) - (adm_gamma311 a) * ((adm_gammado323 a) + (adm_gammado332 a))) * (adm_ginv23 a) + ((adm_deldelg1313_2 a) + (1 / 2) * ((- (adm_deldelg1133_2 a)) - (adm_deldelg3311_2 a)) + (adm_gamma113 a) * (adm_gammado113 a) - (adm_gamma111 a) * (adm_gammado133 a) + (adm_gamma213 a) * (adm_gammado213 a) - (adm_gamma211 a) * (adm_gammado233 a) + (adm_gamma313 a) * (adm_gammado313 a) - (adm_gamma311 a) * (adm_gammado333 a)) * (adm_ginv33 a). (* ADMconstraints.c:1490-1508 *)
Definition adm_R12 (a : adm_in) : R := ((- ((adm_gamma112 a) * (adm_gammado111 a))) + (adm_gamma111 a) * (adm_gammado121 a) - (adm_gamma212 a) * (adm_gammado211 a) + (adm_gamma211 a) * (adm_gammado221 a) - (adm_gamma312 a) * (adm_gammado311 a) + (adm_gamma311 a) * (adm_gammado321 a)) * (adm_ginv11 a) + ((- (adm_deldelg1212_2 a)) + (1 / 2) * ((adm_deldelg1122_2 a) + (adm_deldelg2211_2 a)) - (adm_gamma112 a) * (adm_gammado112 a) + (adm_gamma111 a) * (adm_gammado122 a) - (adm_gamma212 a) * (adm_gammado212 a) + (adm_gamma211 a) * (adm_gammado222 a) - (adm_gamma312 a) * (adm_gammado312 a) + (adm_gamma311 a) * (adm_gammado322 a)) * (adm_ginv12 a) + ((1 / 2) * ((adm_deldelg1123_2 a) - (adm_deldelg1213_2 a) - (adm_deldelg1312_2 a) + (adm_deldelg2311_2 a)) + (adm_gamma113 a) * (adm_gammado121 a) + (adm_gamma111 a) * (adm_gammado123 a) - (adm_gamma112 a) * ((adm_gammado113 a) + (adm_gammado131 a)) + (adm_gamma213 a) * (adm_gammado221 a) + (adm_gamma211 a) * (adm_gammado223 a) - (adm_gamma212 a) * ((adm_gammado213 a) + (adm_gammado231 a)) + (adm_gamma313 a) * (adm_gammado321 a) + (adm_gamma311 a) * (adm_gammado323 a) - (adm_gamma312 a) * ((adm_gammado313 a) + (adm_gammado331 a))) * (adm_ginv13 a) + ((1 / 2) * ((- (adm_deldelg1223_2 a)) + (adm_deldelg1322_2 a) + (adm_deldelg2213_2 a) - (adm_deldelg2312_2 a)) + (adm_gamma113 a) * (adm_gammado122 a) - (adm_gamma112 a) * (adm_gammado132 a) + (adm_gamma213 a) * (adm_gammado222 a) - (adm_gamma212 a) * (adm_gammado232 a) + (adm_gamma313 a) * (adm_gammado322 a) - (adm_gamma312 a) * (adm_gammado332 a)) * (adm_ginv23 a) + ((1 / 2) * ((- (adm_deldelg1233_2 a)) + (adm_deldelg1323_2 a) + (adm_deldelg2313_2 a) - (adm_deldelg3312_2 a)) + (adm_gamma113 a) * (adm_gammado123 a) - (adm_gamma112 a) * (adm_gammado133 a) + (adm_gamma213 a) * (adm_gammado223 a) - (adm_gamma212 a) * (adm_gammado233 a) + (adm_gamma313 a) * (adm_gammado323 a) - (adm_gamma312 a) * (adm_gammado333 a)) * (adm_ginv33 a). (* ADMconstraints.c:1510-1529 *)
Definition adm_R12_2 (a : adm_in) : R := ((- (adm_deldelg1212_2 a)) + (1 / 2) * ((adm_deldelg1122_2 a) + (adm_deldelg2211_2 a)) + (adm_gamma122 a) * (adm_gammado111 a) - (adm_gamma121 a) * (adm_gammado121 a) + (adm_gamma222 a) * (adm_gammado211 a) - (adm_gamma221 a) * (adm_gammado221 a) + (adm_gamma322 a) * (adm_gammado311 a) - (adm_gamma321 a) * (adm_gammado321 a)) * (adm_ginv12 a) + ((1 / 2) * ((adm_deldelg1123_2 a) - (adm_deldelg1213_2 a) - (adm_deldelg1312_2 a) + (adm_deldelg2311_2 a)) + (adm_gamma123 a) * (adm_gammado111 a) - (adm_gamma121 a) * (adm_gammado131 a) + (adm_gamma223 a) * (adm_gammado211 a) - (adm_gamma221 a) * (adm_gammado231 a) + (adm_gamma323 a) * (adm_gammado311 a) - (adm_gamma321 a) * (adm_gammado331 a)) * (adm_ginv13 a) + ((adm_gamma122 a) * (adm_gammado112 a) - (adm_gamma121 a) * (adm_gammado122 a) + (adm_gamma222 a) * (adm_gammado212 a) - (adm_gamma221 a) * (adm_gammado222 a) + (adm_gamma322 a) * (adm_gammado312 a) - (adm_gamma321 a) * (adm_gammado322 a)) * (adm_ginv22 a) + ((1 / 2) * ((- (adm_deldelg1223_2 a)) + (adm_deldelg1322_2 a) + (adm_deldelg2213_2 a) - (adm_deldelg2312_2 a)) + (adm_gamma123 a) * (adm_gammado112 a) + (adm_gamma122 a) * (adm_gammado113 a) - (adm_gamma121 a) * ((adm_gammado123 a) + (adm_gammado132 a)) + (adm_gamma223 a) * (adm_gammado212 a) + (adm_gamma222 a) * (adm_gammado213 a) - (adm_gamma221 a) * ((adm_gammado223 a) + (adm_gammado232 a)) + (adm_gamma323 a) * (adm_gammado312 a) + (adm_gamma322 a) * (adm_gammado313 a) - (adm_gamma321 a) * ((adm_gammado323 a) + (adm_gammado332 a))) * (adm_ginv23 a) + ((1 / 2) * ((- (adm_deldelg1233_2 a)) + (adm_deldelg1323_2 a) + (adm_deldelg2313_2 a) - (adm_deldelg3312_2 a)) + (adm_gamma123 a) * (adm_gammado113 a) - (adm_gamma121 a) * (adm_gammado133 a) + (adm_gamma223 a) * (adm_gammado213 a) - (adm_gamma221 a) * (adm_gammado233 a) + (adm_gamma323 a) * (adm_gammado313 a) - (adm_gamma321 a) * (adm_gammado333 a)) * (adm_ginv33 a). (* ADMconstraints.c:1531-1550 *)
Definition adm_R13 (a : adm_in) : R := ((- ((adm_gamma113 a) * (adm_gammado111 a))) + (adm_gamma111 a) * (adm_gammado131 a) - (adm_gamma213 a) * (adm_gammado211 a) + (adm_gamma211 a) * (adm_gammado231 a) - (adm_gamma313 a) * (adm_gammado311 a) + (adm_gamma311 a) * (adm_gammado331 a)) * (adm_ginv11 a) + ((1 / 2) * ((adm_deldelg1123_2 a) - (adm_deldelg1213_2 a) - (adm_deldelg1312_2 a) + (adm_deldelg2311_2 a)) - (adm_gamma113 a) * ((adm_gammado112 a) + (adm_gammado121 a)) + (adm_gamma112 a) * (adm_gammado131 a) + (adm_gamma111 a) * (adm_gammado132 a) - (adm_gamma213 a) * ((adm_gammado212 a) + (adm_gammado221 a)) + (adm_gamma212 a) * (adm_gammado231 a) + (adm_gamma211 a) * (adm_gammado232 a) - (adm_gamma313 a) * ((adm_gammado312 a) + (adm_gammado321 a)) + (adm_gamma312 a) * (adm_gammado331 a) + (adm_gamma311 a) * (adm_gammado332 a)) * (adm_ginv12 a) + ((- (adm_deldelg1313_2 a)) + (1 / 2) * ((adm_deldelg1133_2 a) + (adm_deldelg3311_2 a)) - (adm_gamma113 a) * (adm_gammado113 a) + (adm_gamma111 a) * (adm_gammado133 a) - (adm_gamma213 a) * (adm_gammado213 a) + (adm_gamma211 a) * (adm_gammado233 a) - (adm_gamma313 a) * (adm_gammado313 a) + (adm_gamma311 a) * (adm_gammado333 a)) * (adm_ginv13 a) + ((1 / 2) * ((adm_deldelg1223_2 a) - (adm_deldelg1322_2 a) - (adm_deldelg2213_2 a) + (adm_deldelg2312_2 a)) - (adm_gamma113 a) * (adm_gammado122 a) + (adm_gamma112 a) * (adm_gammado132 a) - (adm_gamma213 a) * (adm_gammado222 a) + (adm_gamma212 a) * (adm_gammado232 a) - (adm_gamma313 a) * (adm_gammado322 a) + (adm_gamma312 a) * (adm_gammado332 a)) * (adm_ginv22 a) + ((1 / 2) * ((adm_deldelg1233_2 a) - (adm_deldelg1323_2 a) - (adm_deldelg2313_2 a) + (adm_deldelg3312_2 a)) - (adm_gamma113 a) * (adm_gammado123 a) + (adm_gamma112 a) * (adm_gammado133 a) - (adm_gamma213 a) * (adm_gammado223 a) + (adm_gamma212 a) * (adm_gammado233 a) - (adm_gamma313 a) * (adm_gammado323 a) + (adm_gamma312 a) * (adm_gammado333 a)) * (adm_ginv23 a). (* ADMconstraints.c:1552-1571 *)
Definition adm_R13_2 (a : adm_in) : R := ((1 / 2) * ((adm_deldelg1123_2 a) - (adm_deldelg1213_2 a) - (adm_deldelg1312_2 a) + (adm_deldelg2311_2 a)) + (adm_gamma132 a) * (adm_gammado111 a) - (adm_gamma131 a) * (adm_gammado121 a) + (adm_gamma232 a) * (adm_gammado211 a) - (adm_gamma231 a) * (adm_gammado221 a) + (adm_gamma332 a) * (adm_gammado311 a) - (adm_gamma331 a) * (adm_gammado321 a)) * (adm_ginv12 a) + ((- (adm_deldelg1313_2 a)) + (1 / 2) * ((adm_deldelg1133_2 a) + (adm_deldelg3311_2 a)) + (adm_gamma133 a) * (adm_gammado111 a) - (adm_gamma131 a) * (adm_gammado131 a) + (adm_gamma233 a) * (adm_gammado211 a) - (adm_gamma231 a) * (adm_gammado231 a) + (adm_gamma333 a) * (adm_gammado311 a) - (adm_gamma331 a) * (adm_gammado331 a)) * (adm_ginv13 a) + ((1 / 2) * ((adm_deldelg1223_2 a) - (adm_deldelg1322_2 a) - (adm_deldelg2213_2 a) + (adm_deldelg2312_2 a)) + (adm_gamma132 a) * (adm_gammado112 a) - (adm_gamma131 a) * (adm_gammado122 a) + (adm_gamma232 a) * (adm_gammado212 a) - (adm_gamma231 a) * (adm_gammado222 a) + (adm_gamma332 a) * (adm_gammado312 a) - (adm_gamma331 a) * (adm_gammado322 a)) * (adm_ginv22 a) + ((1 / 2) * ((adm_deldelg1233_2 a) - (adm_deldelg1323_2 a) - (adm_deldelg2313_2 a) + (adm_deldelg3312_2 a)) + (adm_gamma133 a) * (adm_gammado112 a) + (adm_gamma132 a) * (adm_gammado113 a) - (adm_gamma131 a) * ((adm_gammado123 a) + (adm_gammado132 a)) + (adm_gamma233 a) * (adm_gammado212 a) + (adm_gamma232 a) * (adm_gammado213 a) - (adm_gamma231 a) * ((adm_gammado223 a) + (adm_gammado232 a)) + (adm_gamma333 a) * (adm_gammado312 a) + (adm_gamma332 a) * (adm_gammado313 a) - (adm_gamma331 a) * ((adm_gammado323 a) + (adm_gammado332 a))) * (adm_ginv23 a) + ((adm_gamma133 a) * (adm_gammado113 a) - (adm_gamma131 a) * (adm_gammado133 a) + (adm_gamma233 a) * (adm_gammado213 a) - (adm_gamma231 a) * (adm_gammado233 a) + (adm_gamma333 a) * (adm_gammado313 a) - (adm_gamma331 a) * (adm_gammado333 a)) * (adm_ginv33 a). (* ADMconstraints.c:1573-1592 *)
Definition adm_R22 (a : adm_in) : R := ((adm_deldelg1212_2 a) + (1 / 2) * ((- (adm_deldelg1122_2 a)) - (adm_deldelg2211_2 a)) - (adm_gamma122 a) * (adm_gammado111 a) + (adm_gamma121 a) * (adm_gammado121 a) - (adm_gamma222 a) * (adm_gammado211 a) + (adm_gamma221 a) * (adm_gammado221 a) - (adm_gamma322 a) * (adm_gammado311 a) + (adm_gamma321 a) * (adm_gammado321 a)) * (adm_ginv11 a) + ((- ((adm_gamma122 a) * (adm_gammado112 a))) + (adm_gamma121 a) * (adm_gammado122 a) - (adm_gamma222 a) * (adm_gammado212 a) + (adm_gamma221 a) * (adm_gammado222 a) - (adm_gamma322 a) * (adm_gammado312 a) + (adm_gamma321 a) * (adm_gammado322 a)) * (adm_ginv12 a) + ((adm_deldelg1223_2 a) - (adm_deldelg1322_2 a) - (adm_deldelg2213_2 a) + (adm_deldelg2312_2 a) + (adm_gamma123 a) * (adm_gammado121 a) + (adm_gamma121 a) * (adm_gammado123 a) - (adm_gamma122 a) * ((adm_gammado113 a) + (adm_gammado131 a)) + (adm_gamma223 a) * (adm_gammado221 a) + (adm_gamma221 a) * (adm_gammado223 a) - (adm_gamma222 a) * ((adm_gammado213 a) + (adm_gammado231 a)) + (adm_gamma323 a) * (adm_gammado321 a) + (adm_gamma321 a) * (adm_gammado323 a) - (adm_gamma322 a) * ((adm_gammado313 a) + (adm_gammado331 a))) * (adm_ginv13 a) + ((adm_gamma123 a) * (adm_gammado122 a) - (adm_gamma122 a) * (adm_gammado132 a) + (adm_gamma223 a) * (adm_gammado222 a) - (adm_gamma222 a) * (adm_gammado232 a) + (adm_gamma323 a) * (adm_gammado322 a) - (adm_gamma322 a) * (adm_gammado332 a)) * (adm_ginv23 a) + ((adm_deldelg2323_2 a) + (1 / 2) * ((- (adm_deldelg2233_2 a)) - (adm_deldelg3322_2 a)) + (adm_gamma123 a) * (adm_gammado123 a) - (adm_gamma122 a) * (adm_gammado133 a) + (adm_gamma223 a) * (adm_gammado223 a) - (adm_gamma222 a) * (adm_gammado233 a) + (adm_gamma323 a) * (adm_gammado323 a) - (adm_gamma322 a) * (adm_gammado333 a)) * (adm_ginv33 a). (* ADMconstraints.c:1594-1612 *)
Definition adm_R23 (a : adm_in) : R := ((1 / 2) * ((- (adm_deldelg1123_2 a)) + (adm_deldelg1213_2 a) + (adm_deldelg1312_2 a) - (adm_deldelg2311_2 a)) - (adm_gamma123 a) * (adm_gammado111 a) + (adm_gamma121 a) * (adm_gammado131 a) - (adm_gamma223 a) * (adm_gammado211 a) + (adm_gamma221 a) * (adm_gammado231 a) - (adm_gamma323 a) * (adm_gammado311 a) + (adm_gamma321 a) * (adm_gammado331 a)) * (adm_ginv11 a) + ((1 / 2) * ((- (adm_deldelg1223_2 a)) + (adm_deldelg1322_2 a) + (adm_deldelg2213_2 a) - (adm_deldelg2312_2 a)) - (adm_gamma123 a) * ((adm_gammado112 a) + (adm_gammado121 a)) + (adm_gamma122 a) * (adm_gammado131 a) + (adm_gamma121 a) * (adm_gammado132 a) - (adm_gamma223 a) * ((adm_gammado212 a) + (adm_gammado221 a)) + (adm_gamma222 a) * (adm_gammado231 a) + (adm_gamma221 a) * (adm_gammado232 a) - (adm_gamma323 a) * ((adm_gammado312 a) + (adm_gammado321 a)) + (adm_gamma322 a) * (adm_gammado331 a) + (adm_gamma321 a) * (adm_gammado332 a)) * (adm_ginv12 a) + ((1 / 2) * ((adm_deldelg1233_2 a) - (adm_deldelg1323_2 a) - (adm_deldelg2313_2 a) + (adm_deldelg3312_2 a)) - (adm_gamma123 a) * (adm_gammado113 a) + (adm_gamma121 a) * (adm_gammado133 a) - (adm_gamma223 a) * (adm_gammado213 a) + (adm_gamma221 a) * (adm_gammado233 a) - (adm_gamma323 a) * (adm_gammado313 a) + (adm_gamma321 a) * (adm_gammado333 a)) * (adm_ginv13 a) + ((- ((adm_gamma123 a) * (adm_gammado122 a))) + (adm_gamma122 a) * (adm_gammado132 a) - (adm_gamma223 a) * (adm_gammado222 a) + (adm_gamma222 a) * (adm_gammado232 a) - (adm_gamma323 a) * (adm_gammado322 a) + (adm_gamma322 a) * (adm_gammado332 a)) * (adm_ginv22 a) + ((- (adm_deldelg2323_2 a)) + (1 / 2) * ((adm_deldelg2233_2 a) + (adm_deldelg3322_2 a)) - (adm_gamma123 a) * (adm_gammado123 a) + (adm_gamma122 a) * (adm_gammado133 a) - (adm_gamma223 a) * (adm_gammado223 a) + (adm_gamma222 a) * (adm_gammado233 a) - (adm_gamma323 a) * (adm_gammado323 a) + (adm_gamma322 a) * (adm_gammado333 a)) * (adm_ginv23 a). (* ADMconstraints.c:1614-1633 *)
Definition adm_R23_2 (a : adm_in) : R := ((1 / 2) * ((- (adm_deldelg1123_2 a)) + (adm_deldelg1213_2 a) + (adm_deldelg1312_2 a) - (adm_deldelg2311_2 a)) - (adm_gamma132 a) * (adm_gammado111 a) + (adm_gamma131 a) * (adm_gammado121 a) - (adm_gamma232 a) * (adm_gammado211 a) + (adm_gamma231 a) * (adm_gammado221 a) - (adm_gamma332 a) * (adm_gammado311 a) + (adm_gamma331 a) * (adm_gammado321 a)) * (adm_ginv11 a) + ((1 / 2) * ((- (adm_deldelg1223_2 a)) + (adm_deldelg1322_2 a) + (adm_deldelg2213_2 a) - (adm_deldelg2312_2 a)) - (adm_gamma132 a) * (adm_gammado112 a) + (adm_gamma131 a) * (adm_gammado122 a) - (adm_gamma232 a) * (adm_gammado212 a) + (adm_gamma231 a) * (adm_gammado222 a) - (adm_gamma332 a) * (adm_gammado312 a) + (adm_gamma331 a) * (adm_gammado322 a)) * (adm_ginv12 a) + ((1 / 2) * ((adm_deldelg1233_2 a) - (adm_deldelg1323_2 a) - (adm_deldelg2313_2 a) + (adm_deldelg3312_2 a)) + (adm_gamma133 a) * (adm_gammado121 a) + (adm_gamma131 a) * (adm_gammado123 a) - (adm_gamma132 a) * ((adm_gammado113 a) + (adm_gammado131 a)) + (adm_gamma233 a) * (adm_gammado221 a) + (adm_gamma231 a) * (adm_gammado223 a) - (adm_gamma232 a) * ((adm_gammado213 a) + (adm_gammado231 a)) + (adm_gamma333 a) * (adm_gammado321 a) + (adm_gamma331 a) * (adm_gammado323 a) - (adm_gamma332 a) * ((adm_gammado313 a) + (adm_gammado331 a))) * (adm_ginv13 a) + ((- (adm_deldelg2323_2 a)) + (1 / 2) * ((adm_deldelg2233_2 a) + (adm_deldelg3322_2 a)) + (adm_gamma133 a) * (adm_gammado122 a) - (adm_gamma132 a) * (adm_gammado132 a) + (adm_gamma233 a) * (adm_gammado222 a) - (adm_gamma232 a) * (adm_gammado232 a) + (adm_gamma333 a) * (adm_gammado322 a) - (adm_gamma332 a) * (adm_gammado332 a)) * (adm_ginv23 a) + ((adm_gamma133 a) * (adm_gammado123 a) - (adm_gamma132 a) * (adm_gammado133 a) + (adm_gamma233 a) * (adm_gammado223 a) - (adm_gamma232 a) * (adm_gammado233 a) + (adm_gamma333 a) * (adm_gammado323 a) - (adm_gamma332 a) * (adm_gammado333 a)) * (adm_ginv33 a). (* ADMconstraints.c:1635-1654 *)
Definition adm_R33 (a : adm_in) : R := ((adm_deldelg1313_2 a) + (1 / 2) * ((- (adm_deldelg1133_2 a)) - (adm_deldelg3311_2 a)) - (adm_gamma133 a) * (adm_gammado111 a) + (adm_gamma131 a) * (adm_gammado131 a) - (adm_gamma233 a) * (adm_gammado211 a) + (adm_gamma231 a) * (adm_gammado231 a) - (adm_gamma333 a) * (adm_gammado311 a) + (adm_gamma331 a) * (adm_gammado331 a)) * (adm_ginv11 a) + ((- (adm_deldelg1233_2 a)) + (adm_deldelg1323_2 a) + (adm_deldelg2313_2 a) - (adm_deldelg3312_2 a) - (adm_gamma133 a) * ((adm_gammado112 a) + (adm_gammado121 a)) + (adm_gamma132 a) * (adm_gammado131 a) + (adm_gamma131 a) * (adm_gammado132 a) - (adm_gamma233 a) * ((adm_gammado212 a) + (adm_gammado221 a)) + (adm_gamma232 a) * (adm_gammado231 a) + (adm_gamma231 a) * (adm_gammado232 a) - (adm_gamma333 a) * ((adm_gammado312 a) + (adm_gammado321 a)) + (adm_gamma332 a) * (adm_gammado331 a) + (adm_gamma331 a) * (adm_gammado332 a)) * (adm_ginv12 a) + ((- ((adm_gamma133 a) * (adm_gammado113 a))) + (adm_gamma131 a) * (adm_gammado133 a) - (adm_gamma233 a) * (adm_gammado213 a) + (adm_gamma231 a) * (adm_gammado233 a) - (adm_gamma333 a) * (adm_gammado313 a) + (adm_gamma331 a) * (adm_gammado333 a)) * (adm_ginv13 a) + ((adm_deldelg2323_2 a) + (1 / 2) * ((- (adm_deldelg2233_2 a)) - (adm_deldelg3322_2 a)) - (adm_gamma133 a) * (adm_gammado122 a) + (adm_gamma132 a) * (adm_gammado132 a) - (adm_gamma233 a) * (adm_gammado222 a) + (adm_gamma232 a) * (adm_gammado232 a) - (adm_gamma333 a) * (adm_gammado322 a) + (adm_gamma332 a) * (adm_gammado332 a)) * (adm_ginv22 a) + ((- ((adm_gamma133 a) * (adm_gammado123 a))) + (adm_gamma132 a) * (adm_gammado133 a) - (adm_gamma233 a) * (adm_gammado223 a) + (adm_gamma232 a) * (adm_gammado233 a) - (adm_gamma333 a) * (adm_gammado323 a) + (adm_gamma332 a) * (adm_gammado333 a)) * (adm_ginv23 a). (* ADMconstraints.c:1656-1674 *)
Definition adm_R (a : adm_in) : R := (adm_ginv11 a) * (adm_R11 a) + (adm_ginv22 a) * (adm_R22 a) + 2 * ((adm_ginv12 a) * (adm_R12_2 a) + (adm_ginv13 a) * (adm_R13_2 a) + (adm_ginv23 a) * (adm_R23_2 a)) + (adm_ginv33 a) * (adm_R33 a). (* ADMconstraints.c:1676-1680 *)
Definition adm_Kud11 (a : adm_in) : R := (adm_ginv11 a) * (adm_K11 a) + (adm_ginv12 a) * (adm_K12 a) + (adm_ginv13 a) * (adm_K13 a). (* ADMconstraints.c:1682-1685 *)
Definition adm_Kud12 (a : adm_in) : R := (adm_ginv11 a) * (adm_K12 a) + (adm_ginv12 a) * (adm_K22 a) + (adm_ginv13 a) * (adm_K23 a). (* ADMconstraints.c:1687-1690 *)
Definition adm_Kud13 (a : adm_in) : R := (adm_ginv11 a) * (adm_K13 a) + (adm_ginv12 a) * (adm_K23 a) + (adm_ginv13 a) * (adm_K33 a). (* ADMconstraints.c:1692-1695 *)
Definition adm_Kud21 (a : adm_in) : R := (adm_ginv12 a) * (adm_K11 a) + (adm_ginv22 a) * (adm_K12 a) + (adm_ginv23 a) * (adm_K13 a). (* ADMconstraints.c:1697-1700 *)
Definition adm_Kud22 (a : adm_in) : R := (adm_ginv12 a) * (adm_K12 a) + (adm_ginv22 a) * (adm_K22 a) + (adm_ginv23 a) * (adm_K23 a). (* ADMconstraints.c:1702-1705 *)
Definition adm_Kud23 (a : adm_in) : R := (adm_ginv12 a) * (adm_K13 a) + (adm_ginv22 a) * (adm_K23 a) + (adm_ginv23 a) * (adm_K33 a). (* ADMconstraints.c:1707-1710 *)
Definition adm_Kud31 (a : adm_in) : R := (adm_ginv13 a) * (adm_K11 a) + (adm_ginv23 a) * (adm_K12 a) + (adm_ginv33 a) * (adm_K13 a). (* ADMconstraints.c:1712-1715 *)
Definition adm_Kud32 (a : adm_in) : R := (adm_ginv13 a) * (adm_K12 a) + (adm_ginv23 a) * (adm_K22 a) + (adm_ginv33 a) * (adm_K23 a). (* ADMconstraints.c:1717-1720 *)
Definition adm_Kud33 (a : adm_in) : R := (adm_ginv13 a) * (adm_K13 a) + (adm_ginv23 a) * (adm_K23 a) + (adm_ginv33 a) * (adm_K33 a). (* ADMconstraints.c:1722-1725 *)
Definition adm_K (a : adm_in) : R := (adm_Kud11 a) + (adm_Kud22 a) + (adm_Kud33 a). (* ADMconstraints.c:1727-1730 *)
Definition adm_KudKud (a : adm_in) : R := 2 * ((adm_Kud12 a) * (adm_Kud21 a) + (adm_Kud13 a) * (adm_Kud31 a) + (adm_Kud23 a) * (adm_Kud32 a)) + pow2 ((adm_Kud11 a)) + pow2 ((adm_Kud22 a)) + pow2 ((adm_Kud33 a)). (* ADMconstraints.c:1732-1736 *)
Definition adm_codelK111 (a : adm_in) : R := (adm_delK111 a) - 2 * ((adm_gamma111 a) * (adm_K11 a) + (adm_gamma211 a) * (adm_K12 a) + (adm_gamma311 a) * (adm_K13 a)). (* ADMconstraints.c:1738-1741 *)
Definition adm_codelK112 (a : adm_in) : R := (adm_delK112 a) - (adm_gamma112 a) * (adm_K11 a) - ((adm_gamma111 a) + (adm_gamma212 a)) * (adm_K12 a) - (adm_gamma312 a) * (adm_K13 a) - (adm_gamma211 a) * (adm_K22 a) - (adm_gamma311 a) * (adm_K23 a). (* ADMconstraints.c:1743-1747 *)
Definition adm_codelK113 (a : adm_in) : R := (adm_delK113 a) - (adm_gamma113 a) * (adm_K11 a) - (adm_gamma213 a) * (adm_K12 a) - ((adm_gamma111 a) + (adm_gamma313 a)) * (adm_K13 a) - (adm_gamma211 a) * (adm_K23 a) - (adm_gamma311 a) * (adm_K33 a). (* ADMconstraints.c:1749-1753 *)
Definition adm_codelK122 (a : adm_in) : R := (adm_delK122 a) - 2 * ((adm_gamma112 a) * (adm_K12 a) + (adm_gamma212 a) * (adm_K22 a) + (adm_gamma312 a) * (adm_K23 a)). (* ADMconstraints.c:1755-1758 *)
Definition adm_codelK123 (a : adm_in) : R := (adm_delK123 a) - (adm_gamma113 a) * (adm_K12 a) - (adm_gamma112 a) * (adm_K13 a) - (adm_gamma213 a) * (adm_K22 a) - ((adm_gamma212 a) + (adm_gamma313 a)) * (adm_K23 a) - (adm_gamma312 a) * (adm_K33 a). (* ADMconstraints.c:1760-1764 *)
Definition adm_codelK133 (a : adm_in) : R := (adm_delK133 a) - 2 * ((adm_gamma113 a) * (adm_K13 a) + (adm_gamma213 a) * (adm_K23 a) + (adm_gamma313 a) * (adm_K33 a)). (* ADMconstraints.c:1766-1769 *)
Definition adm_codelK211 (a : adm_in) : R := (adm_delK211 a) - 2 * ((adm_gamma121 a) * (adm_K11 a) + (adm_gamma221 a) * (adm_K12 a) + (adm_gamma321 a) * (adm_K13 a)). (* ADMconstraints.c:1771-1774 *)
Definition adm_codelK212 (a : adm_in) : R := (adm_delK212 a) - (adm_gamma122 a) * (adm_K11 a) - ((adm_gamma121 a) + (adm_gamma222 a)) * (adm_K12 a) - (adm_gamma322 a) * (adm_K13 a) - (adm_gamma221 a) * (adm_K22 a) - (adm_gamma321 a) * (adm_K23 a). (* ADMconstraints.c:1776-1780 *)
Definition adm_codelK213 (a : adm_in) : R := (adm_delK213 a) - (adm_gamma123 a) * (adm_K11 a) - (adm_gamma223 a) * (adm_K12 a) - ((adm_gamma121 a) + (adm_gamma323 a)) * (adm_K13 a) - (adm_gamma221 a) * (adm_K23 a) - (adm_gamma321 a) * (adm_K33 a). (* ADMconstraints.c:1782-1786 *)
Definition adm_codelK222 (a : adm_in) : R := (adm_delK222 a) - 2 * ((adm_gamma122 a) * (adm_K12 a) + (adm_gamma222 a) * (adm_K22 a) + (adm_gamma322 a) * (adm_K23 a)). (* ADMconstraints.c:1788-1791 *)
Definition adm_codelK223 (a : adm_in) : R := (adm_delK223 a) - (adm_gamma123 a) * (adm_K12 a) - (adm_gamma122 a) * (adm_K13 a) - (adm_gamma223 a) * (adm_K22 a) - ((adm_gamma222 a) + (adm_gamma323 a)) * (adm_K23 a) - (adm_gamma322 a) * (adm_K33 a). (* ADMconstraints.c:1793-1797 *)
Definition adm_codelK233 (a : adm_in) : R := (adm_delK233 a) - 2 * ((adm_gamma123 a) * (adm_K13 a) + (adm_gamma223 a) * (adm_K23 a) + (adm_gamma323 a) * (adm_K33 a)). (* ADMconstraints.c:1799-1802 *)
Definition adm_codelK311 (a : adm_in) : R := (adm_delK311 a) - 2 * ((adm_gamma131 a) * (adm_K11 a) + (adm_gamma231 a) * (adm_K12 a) + (adm_gamma331 a) * (adm_K13 a)). (* ADMconstraints.c:1804-1807 *)
Definition adm_codelK312 (a : adm_in) : R := (adm_delK312 a) - (adm_gamma132 a) * (adm_K11 a) - ((adm_gamma131 a) + (adm_gamma232 a)) * (adm_K12 a) - (adm_gamma332 a) * (adm_K13 a) - (adm_gamma231 a) * (adm_K22 a) - (adm_gamma331 a) * (adm_K23 a). (* ADMconstraints.c:1809-1813 *)
Definition adm_codelK313 (a : adm_in) : R := (adm_delK313 a) - (adm_gamma133 a) * (adm_K11 a) - (adm_gamma233 a) * (adm_K12 a) - ((adm_gamma131 a) + (adm_gamma333 a)) * (adm_K13 a) - (adm_gamma231 a) * (adm_K23 a) - (adm_gamma331 a) * (adm_K33 a). (* ADMconstraints.c:1815-1819 *)
Definition adm_codelK322 (a : adm_in) : R := (adm_delK322 a) - 2 * ((adm_gamma132 a) * (adm_K12 a) + (adm_gamma232 a) * (adm_K22 a) + (adm_gamma332 a) * (adm_K23 a)). (* ADMconstraints.c:1821-1824 *)
Definition adm_codelK323 (a : adm_in) : R := (adm_delK323 a) - (adm_gamma133 a) * (adm_K12 a) - (adm_gamma132 a) * (adm_K13 a) - (adm_gamma233 a) * (adm_K22 a) - ((adm_gamma232 a) + (adm_gamma333 a)) * (adm_K23 a) - (adm_gamma332 a) * (adm_K33 a). (* ADMconstraints.c:1826-1830 *)
Definition adm_codelK333 (a : adm_in) : R := (adm_delK333 a) - 2 * ((adm_gamma133 a) * (adm_K13 a) + (adm_gamma233 a) * (adm_K23 a) + (adm_gamma333 a) * (adm_K33 a)). (* ADMconstraints.c:1832-1835 *)
Definition adm_cdKudd111 (a : adm_in) : R := (adm_codelK111 a) * (adm_ginv11 a) + (adm_codelK211 a) * (adm_ginv12 a) + (adm_codelK311 a) * (adm_ginv13 a). (* ADMconstraints.c:1837-1840 *)
Definition adm_cdKudd112 (a : adm_in) : R := (adm_codelK112 a) * (adm_ginv11 a) + (adm_codelK212 a) * (adm_ginv12 a) + (adm_codelK312 a) * (adm_ginv13 a). (* ADMconstraints.c:1842-1845 *)
Definition adm_cdKudd113 (a : adm_in) : R := (adm_codelK113 a) * (adm_ginv11 a) + (adm_codelK213 a) * (adm_ginv12 a) + (adm_codelK313 a) * (adm_ginv13 a). (* ADMconstraints.c:1847-1850 *)
Definition adm_cdKudd122 (a : adm_in) : R := (adm_codelK122 a) * (adm_ginv11 a) + (adm_codelK222 a) * (adm_ginv12 a) + (adm_codelK322 a) * (adm_ginv13 a). (* ADMconstraints.c:1852-1855 *)
Definition adm_cdKudd123 (a : adm_in) : R := (adm_codelK123 a) * (adm_ginv11 a) + (adm_codelK223 a) * (adm_ginv12 a) + (adm_codelK323 a) * (adm_ginv13 a). (* ADMconstraints.c:1857-1860 *)
Definition adm_cdKudd133 (a : adm_in) : R := (adm_codelK133 a) * (adm_ginv11 a) + (adm_codelK233 a) * (adm_ginv12 a) + (adm_codelK333 a) * (adm_ginv13 a). (* ADMconstraints.c:1862-1865 *)
Definition adm_cdKudd211 (a : adm_in) : R := (adm_codelK111 a) * (adm_ginv12 a) + (adm_codelK211 a) * (adm_ginv22 a) + (adm_codelK311 a) * (adm_ginv23 a). (* ADMconstraints.c:1867-1870 *)
Definition adm_cdKudd212 (a : adm_in) : R := (adm_codelK112 a) * (adm_ginv12 a) + (adm_codelK212 a) * (adm_ginv22 a) + (adm_codelK312 a) * (adm_ginv23 a). (* ADMconstraints.c:1872-1875 *)
Definition adm_cdKudd213 (a : adm_in) : R := (adm_codelK113 a) * (adm_ginv12 a) + (adm_codelK213 a) * (adm_ginv22 a) + (adm_codelK313 a) * (adm_ginv23 a). (* ADMconstraints.c:1877-1880 *)
Definition adm_cdKudd222 (a : adm_in) : R := (adm_codelK122 a) * (adm_ginv12 a) + (adm_codelK222 a) * (adm_ginv22 a) + (adm_codelK322 a) * (adm_ginv23 a). (* ADMconstraints.c:1882-1885 *)
Definition adm_cdKudd223 (a : adm_in) : R := (adm_codelK123 a) * (adm_ginv12 a) + (adm_codelK223 a) * (adm_ginv22 a) + (adm_codelK323 a) * (adm_ginv23 a). (* ADMconstraints.c:1887-1890 *)
Definition adm_cdKudd233 (a : adm_in) : R := (adm_codelK133 a) * (adm_ginv12 a) + (adm_codelK233 a) * (adm_ginv22 a) + (adm_codelK333 a) * (adm_ginv23 a). (* ADMconstraints.c:1892-1895 *)
Definition adm_cdKudd311 (a : adm_in) : R := (adm_codelK111 a) * (adm_ginv13 a) + (adm_codelK211 a) * (adm_ginv23 a) + (adm_codelK311 a) * (adm_ginv33 a). (* ADMconstraints.c:1897-1900 *)
Definition adm_cdKudd312 (a : adm_in) : R := (adm_codelK112 a) * (adm_ginv13 a) + (adm_codelK212 a) * (adm_ginv23 a) + (adm_codelK312 a) * (adm_ginv33 a). (* ADMconstraints.c:1902-1905 *)
Definition adm_cdKudd313 (a : adm_in) : R := (adm_codelK113 a) * (adm_ginv13 a) + (adm_codelK213 a) * (adm_ginv23 a) + (adm_codelK313 a) * (adm_ginv33 a). (* ADMconstraints.c:1907-1910 *)
Definition adm_cdKudd322 (a : adm_in) : R := (adm_codelK122 a) * (adm_ginv13 a) + (adm_codelK222 a) * (adm_ginv23 a) + (adm_codelK322 a) * (adm_ginv33 a). (* ADMconstraints.c:1912-1915 *)
Definition adm_cdKudd323 (a : adm_in) : R := (adm_codelK123 a) * (adm_ginv13 a) + (adm_codelK223 a) * (adm_ginv23 a) + (adm_codelK323 a) * (adm_ginv33 a). (* ADMconstraints.c:1917-1920 *)
Definition adm_cdKudd333 (a : adm_in) : R := (adm_codelK133 a) * (adm_ginv13 a) + (adm_codelK233 a) * (adm_ginv23 a) + (adm_codelK333 a) * (adm_ginv33 a). (* ADMconstraints.c:1922-1925 *)
Definition adm_hamrhs (a : adm_in) : R := 0. (* ADMconstraints.c:1930-1933 *)
Definition adm_hamrhs_2 (a : adm_in) : R := (5026548245743669182 / 100000000000000000) * (adm_rho a). (* ADMconstraints.c:1938-1941 *)
Definition adm_hamrhs_3 (a : adm_in) : R := if a_null a 16 then adm_hamrhs a else adm_hamrhs_2 a. (* ADMconstraints.c:1928 *)
Definition adm_momrhs1 (a : adm_in) : R := 0. (* ADMconstraints.c:1949-1952 *)
Definition adm_momrhs2 (a : adm_in) : R := 0. (* ADMconstraints.c:1954-1957 *)
Definition adm_momrhs3 (a : adm_in) : R := 0. (* ADMconstraints.c:1959-1962 *)
Definition adm_momrhs1_2 (a : adm_in) : R := (25132741228718345908 / 1000000000000000000) * (adm_j1 a). (* ADMconstraints.c:1967-1970 *)
Definition adm_momrhs2_2 (a : adm_in) : R := (25132741228718345908 / 1000000000000000000) * (adm_j2 a). (* ADMconstraints.c:1972-1975 *)
Definition adm_momrhs3_2 (a : adm_in) : R := (25132741228718345908 / 1000000000000000000) * (adm_j3 a). (* ADMconstraints.c:1977-1980 *)
Definition adm_momrhs1_3 (a : adm_in) : R := if a_null a 17 then adm_momrhs1 a else adm_momrhs1_2 a. (* ADMconstraints.c:1947 *)
Definition adm_momrhs2_3 (a : adm_in) : R := if a_null a 17 then adm_momrhs2 a else adm_momrhs2_2 a. (* ADMconstraints.c:1947 *)
Definition adm_momrhs3_3 (a : adm_in) : R := if a_null a 17 then adm_momrhs3 a else adm_momrhs3_2 a. (* ADMconstraints.c:1947 *)
Definition adm_ham (a : adm_in) : R := (- (adm_hamrhs_3 a)) - (adm_KudKud a) + (adm_R a) + pow2 ((adm_K a)). (* ADMconstraints.c:1985-1988 *)
Definition adm_momu1 (a : adm_in) : R := ((adm_cdKudd212 a) + (adm_cdKudd313 a)) * (adm_ginv11 a) + ((- (adm_cdKudd112 a)) + (adm_cdKudd222 a) + (adm_cdKudd323 a)) * (adm_ginv12 a) + ((- (adm_cdKudd113 a)) + (adm_cdKudd223 a) + (adm_cdKudd333 a)) * (adm_ginv13 a) - (adm_cdKudd122 a) * (adm_ginv22 a) - 2 * (adm_cdKudd123 a) * (adm_ginv23 a) - (adm_cdKudd133 a) * (adm_ginv33 a). (* ADMconstraints.c:1990-1996 *)
Definition adm_momu2 (a : adm_in) : R := (- ((adm_cdKudd211 a) * (adm_ginv11 a))) + ((adm_cdKudd111 a) - (adm_cdKudd212 a) + (adm_cdKudd313 a)) * (adm_ginv12 a) - 2 * (adm_cdKudd213 a) * (adm_ginv13 a) + ((adm_cdKudd112 a) + (adm_cdKudd323 a)) * (adm_ginv22 a) + ((adm_cdKudd113 a) - (adm_cdKudd223 a) + (adm_cdKudd333 a)) * (adm_ginv23 a) - (adm_cdKudd233 a) * (adm_ginv33 a). (* ADMconstraints.c:1998-2003 *)
Definition adm_momu3 (a : adm_in) : R := (- ((adm_cdKudd311 a) * (adm_ginv11 a))) - 2 * (adm_cdKudd312 a) * (adm_ginv12 a) + ((adm_cdKudd111 a) + (adm_cdKudd212 a) - (adm_cdKudd313 a)) * (adm_ginv13 a) - (adm_cdKudd322 a) * (adm_ginv22 a) + ((adm_cdKudd112 a) + (adm_cdKudd222 a) - (adm_cdKudd323 a)) * (adm_ginv23 a) + ((adm_cdKudd113 a) + (adm_cdKudd223 a)) * (adm_ginv33 a). (* ADMconstraints.c:2005-2010 *)
Definition adm_mom1 (a : adm_in) : R := (- (adm_momrhs1_3 a)) + (adm_f a) * ((adm_momu1 a) * (adm_g11 a) + (adm_momu2 a) * (adm_g12 a) + (adm_momu3 a) * (adm_g13 a)). (* ADMconstraints.c:2012-2015 *)
Definition adm_mom2 (a : adm_in) : R := (- (adm_momrhs2_3 a)) + (adm_f a) * ((adm_momu1 a) * (adm_g12 a) + (adm_momu2 a) * (adm_g22 a) + (adm_momu3 a) * (adm_g23 a)). (* ADMconstraints.c:2017-2020 *)
Definition adm_mom3 (a : adm_in) : R := (- (adm_momrhs3_3 a)) + (adm_f a) * ((adm_momu1 a) * (adm_g13 a) + (adm_momu2 a) * (adm_g23 a) + (adm_momu3 a) * (adm_g33 a)). (* ADMconstraints.c:2022-2025 *)
Definition adm_trK (a : adm_in) : R := (adm_K a). (* ADMconstraints.c:2027-2030 *)
Definition adm_cdda11 (a : adm_in) : R := (- ((adm_gamma111 a) * (adm_dalp1 a))) - (adm_gamma211 a) * (adm_dalp2 a) - (adm_gamma311 a) * (adm_dalp3 a) + (adm_ddalp11 a). (* ADMconstraints.c:2032-2036 *)
Definition adm_cdda12 (a : adm_in) : R := (- ((adm_gamma112 a) * (adm_dalp1 a))) - (adm_gamma212 a) * (adm_dalp2 a) - (adm_gamma312 a) * (adm_dalp3 a) + (adm_ddalp12 a). (* ADMconstraints.c:2038-2042 *)
Definition adm_cdda13 (a : adm_in) : R := (- ((adm_gamma113 a) * (adm_dalp1 a))) - (adm_gamma213 a) * (adm_dalp2 a) - (adm_gamma313 a) * (adm_dalp3 a) + (adm_ddalp13 a). (* ADMconstraints.c:2044-2048 *)
Definition adm_cdda21 (a : adm_in) : R := (- ((adm_gamma121 a) * (adm_dalp1 a))) - (adm_gamma221 a) * (adm_dalp2 a) - (adm_gamma321 a) * (adm_dalp3 a) + (adm_ddalp12 a). (* ADMconstraints.c:2050-2054 *)
Definition adm_cdda22 (a : adm_in) : R := (- ((adm_gamma122 a) * (adm_dalp1 a))) - (adm_gamma222 a) * (adm_dalp2 a) - (adm_gamma322 a) * (adm_dalp3 a) + (adm_ddalp22 a). (* ADMconstraints.c:2056-2060 *)
Definition adm_cdda23 (a : adm_in) : R := (- ((adm_gamma123 a) * (adm_dalp1 a))) - (adm_gamma223 a) * (adm_dalp2 a) - (adm_gamma323 a) * (adm_dalp3 a) + (adm_ddalp23 a). (* ADMconstraints.c:2062-2066 *)
Definition adm_cdda31 (a : adm_in) : R := (- ((adm_gamma131 a) * (adm_dalp1 a))) - (adm_gamma231 a) * (adm_dalp2 a) - (adm_gamma331 a) * (adm_dalp3 a) + (adm_ddalp13 a). (* ADMconstraints.c:2068-2072 *)
Definition adm_cdda32 (a : adm_in) : R := (- ((adm_gamma132 a) * (adm_dalp1 a))) - (adm_gamma232 a) * (adm_dalp2 a) - (adm_gamma332 a) * (adm_dalp3 a) + (adm_ddalp23 a). (* ADMconstraints.c:2074-2078 *)
Definition adm_cdda33 (a : adm_in) : R := (- ((adm_gamma133 a) * (adm_dalp1 a))) - (adm_gamma233 a) * (adm_dalp2 a) - (adm_gamma333 a) * (adm_dalp3 a) + (adm_ddalp33 a). (* ADMconstraints.c:2080-2084 *)
Definition adm_trcdda (a : adm_in) : R := (adm_cdda11 a) * (adm_ginv11 a) + ((adm_cdda12 a) + (adm_cdda21 a)) * (adm_ginv12 a) + ((adm_cdda13 a) + (adm_cdda31 a)) * (adm_ginv13 a) + (adm_cdda22 a) * (adm_ginv22 a) + ((adm_cdda23 a) + (adm_cdda32 a)) * (adm_ginv23 a) + (adm_cdda33 a) * (adm_ginv33 a). (* ADMconstraints.c:2086-2090 *)
Definition adm_dtrK1 (a : adm_in) : R := (adm_codelK111 a) * (adm_ginv11 a) + (adm_codelK122 a) * (adm_ginv22 a) + 2 * ((adm_codelK112 a) * (adm_ginv12 a) + (adm_codelK113 a) * (adm_ginv13 a) + (adm_codelK123 a) * (adm_ginv23 a)) + (adm_codelK133 a) * (adm_ginv33 a). (* ADMconstraints.c:2092-2097 *)
Definition adm_dtrK2 (a : adm_in) : R := (adm_codelK211 a) * (adm_ginv11 a) + (adm_codelK222 a) * (adm_ginv22 a) + 2 * ((adm_codelK212 a) * (adm_ginv12 a) + (adm_codelK213 a) * (adm_ginv13 a) + (adm_codelK223 a) * (adm_ginv23 a)) + (adm_codelK233 a) * (adm_ginv33 a). (* ADMconstraints.c:2099-2104 *)
Definition adm_dtrK3 (a : adm_in) : R := (adm_codelK311 a) * (adm_ginv11 a) + (adm_codelK322 a) * (adm_ginv22 a) + 2 * ((adm_codelK312 a) * (adm_ginv12 a) + (adm_codelK313 a) * (adm_ginv13 a) + (adm_codelK323 a) * (adm_ginv23 a)) + (adm_codelK333 a) * (adm_ginv33 a). (* ADMconstraints.c:2106-2111 *)
Definition adm_betadtrK (a : adm_in) : R := (adm_dtrK1 a) * (adm_beta1 a) + (adm_dtrK2 a) * (adm_beta2 a) + (adm_dtrK3 a) * (adm_beta3 a). (* ADMconstraints.c:2113-2116 *)
Definition adm_Sminus3rho (a : adm_in) : R := 0. (* ADMconstraints.c:2121-2124 *)
Definition adm_Sminus3rho_2 (a : adm_in) : R := (- 3) * (adm_rho a) + (adm_ginv11 a) * (adm_S11 a) + (adm_ginv22 a) * (adm_S22 a) + 2 * ((adm_ginv12 a) * (adm_S12 a) + (adm_ginv13 a) * (adm_S13 a) + (adm_ginv23 a) * (adm_S23 a)) + (adm_ginv33 a) * (adm_S33 a). (* ADMconstraints.c:2129-2133 *)
Definition adm_Sminus3rho_3 (a : adm_in) : R := if a_null a 20 then adm_Sminus3rho a else adm_Sminus3rho_2 a. (* ADMconstraints.c:2119 *)
Definition adm_dtrKdt (a : adm_in) : R := (adm_betadtrK a) - (adm_trcdda a) + (adm_alpha a) * ((adm_R a) + 4 * PI * (adm_Sminus3rho_3 a) + pow2 ((adm_K a))). (* ADMconstraints.c:2138-2141 *)
Definition adm_RA11 (a : adm_in) : R := (- ((adm_deldelg1111_2 a) * (adm_ginv11 a))) - (adm_deldelg2211_2 a) * (adm_ginv22 a) - 2 * ((adm_deldelg1211_2 a) * (adm_ginv12 a) + (adm_deldelg1311_2 a) * (adm_ginv13 a) + (adm_deldelg2311_2 a) * (adm_ginv23 a)) - (adm_deldelg3311_2 a) * (adm_ginv33 a). (* ADMconstraints.c:2153-2158 *)
Definition adm_RA12 (a : adm_in) : R := (- ((adm_deldelg1112_2 a) * (adm_ginv11 a))) - (adm_deldelg2212_2 a) * (adm_ginv22 a) - 2 * ((adm_deldelg1212_2 a) * (adm_ginv12 a) + (adm_deldelg1312_2 a) * (adm_ginv13 a) + (adm_deldelg2312_2 a) * (adm_ginv23 a)) - (adm_deldelg3312_2 a) * (adm_ginv33 a). (* ADMconstraints.c:2160-2165 *)
Definition adm_RA13 (a : adm_in) : R := (- ((adm_deldelg1113_2 a) * (adm_ginv11 a))) - (adm_deldelg2213_2 a) * (adm_ginv22 a) - 2 * ((adm_deldelg1213_2 a) * (adm_ginv12 a) + (adm_deldelg1313_2 a) * (adm_ginv13 a) + (adm_deldelg2313_2 a) * (adm_ginv23 a)) - (adm_deldelg3313_2 a) * (adm_ginv33 a). (* ADMconstraints.c:2167-2172 *)
Definition adm_RA22 (a : adm_in) : R := (- ((adm_deldelg1122_2 a) * (adm_ginv11 a))) - (adm_deldelg2222_2 a) * (adm_ginv22 a) - 2 * ((adm_deldelg1222_2 a) * (adm_ginv12 a) + (adm_deldelg1322_2 a) * (adm_ginv13 a) + (adm_deldelg2322_2 a) * (adm_ginv23 a)) - (adm_deldelg3322_2 a) * (adm_ginv33 a). (* ADMconstraints.c:2174-2179 *)
Definition adm_RA23 (a : adm_in) : R := (- ((adm_deldelg1123_2 a) * (adm_ginv11 a))) - (adm_deldelg2223_2 a) * (adm_ginv22 a) - 2 * ((adm_deldelg1223_2 a) * (adm_ginv12 a) + (adm_deldelg1323_2 a) * (adm_ginv13 a) + (adm_deldelg2323_2 a) * (adm_ginv23 a)) - (adm_deldelg3323_2 a) * (adm_ginv33 a). (* ADMconstraints.c:2181-2186 *)
Definition adm_RA33 (a : adm_in) : R := (- ((adm_deldelg1133_2 a) * (adm_ginv11 a))) - (adm_deldelg2233_2 a) * (adm_ginv22 a) - 2 * ((adm_deldelg1233_2 a) * (adm_ginv12 a) + (adm_deldelg1333_2 a) * (adm_ginv13 a) + (adm_deldelg2333_2 a) * (adm_ginv23 a)) - (adm_deldelg3333_2 a) * (adm_ginv33 a). (* ADMconstraints.c:2188-2193 *)
Definition adm_RB11 (a : adm_in) : R := (adm_deldelg1111_2 a) * (adm_ginv11 a) + ((adm_deldelg1112_2 a) + (adm_deldelg1211_2 a)) * (adm_ginv12 a) + ((adm_deldelg1113_2 a) + (adm_deldelg1311_2 a)) * (adm_ginv13 a) + (adm_deldelg1212_2 a) * (adm_ginv22 a) + ((adm_deldelg1213_2 a) + (adm_deldelg1312_2 a)) * (adm_ginv23 a) + (adm_deldelg1313_2 a) * (adm_ginv33 a). (* ADMconstraints.c:2195-2200 *)
Definition adm_RB12 (a : adm_in) : R := (adm_deldelg1112_2 a) * (adm_ginv11 a) + ((adm_deldelg1122_2 a) + (adm_deldelg1212_2 a)) * (adm_ginv12 a) + ((adm_deldelg1123_2 a) + (adm_deldelg1312_2 a)) * (adm_ginv13 a) + (adm_deldelg1222_2 a) * (adm_ginv22 a) + ((adm_deldelg1223_2 a) + (adm_deldelg1322_2 a)) * (adm_ginv23 a) + (adm_deldelg1323_2 a) * (adm_ginv33 a). (* ADMconstraints.c:2202-2207 *)
Definition adm_RB12_2 (a : adm_in) : R := (adm_deldelg1211_2 a) * (adm_ginv11 a) + ((adm_deldelg1212_2 a) + (adm_deldelg2211_2 a)) * (adm_ginv12 a) + ((adm_deldelg1213_2 a) + (adm_deldelg2311_2 a)) * (adm_ginv13 a) + (adm_deldelg2212_2 a) * (adm_ginv22 a) + ((adm_deldelg2213_2 a) + (adm_deldelg2312_2 a)) * (adm_ginv23 a) + (adm_deldelg2313_2 a) * (adm_ginv33 a). (* ADMconstraints.c:2209-2214 *)
Definition adm_RB13 (a : adm_in) : R := (adm_deldelg1113_2 a) * (adm_ginv11 a) + ((adm_deldelg1123_2 a) + (adm_deldelg1213_2 a)) * (adm_ginv12 a) + ((adm_deldelg1133_2 a) + (adm_deldelg1313_2 a)) * (adm_ginv13 a) + (adm_deldelg1223_2 a) * (adm_ginv22 a) + ((adm_deldelg1233_2 a) + (adm_deldelg1323_2 a)) * (adm_ginv23 a) + (adm_deldelg1333_2 a) * (adm_ginv33 a). (* ADMconstraints.c:2216-2221 *)
Definition adm_RB13_2 (a : adm_in) : R := (adm_deldelg1311_2 a) * (adm_ginv11 a) + ((adm_deldelg1312_2 a) + (adm_deldelg2311_2 a)) * (adm_ginv12 a) + ((adm_deldelg1313_2 a) + (adm_deldelg3311_2 a)) * (adm_ginv13 a) + (adm_deldelg2312_2 a) * (adm_ginv22 a) + ((adm_deldelg2313_2 a) + (adm_deldelg3312_2 a)) * (adm_ginv23 a) + (adm_deldelg3313_2 a) * (adm_ginv33 a). (* ADMconstraints.c:2223-2228 *)
Definition adm_RB22 (a : adm_in) : R := (adm_deldelg1212_2 a) * (adm_ginv11 a) + ((adm_deldelg1222_2 a) + (adm_deldelg2212_2 a)) * (adm_ginv12 a) + ((adm_deldelg1223_2 a) + (adm_deldelg2312_2 a)) * (adm_ginv13 a) + (adm_deldelg2222_2 a) * (adm_ginv22 a) + ((adm_deldelg2223_2 a) + (adm_deldelg2322_2 a)) * (adm_ginv23 a) + (adm_deldelg2323_2 a) * (adm_ginv33 a). (* ADMconstraints.c:2230-2235 *)
Definition adm_RB23 (a : adm_in) : R := (adm_deldelg1213_2 a) * (adm_ginv11 a) + ((adm_deldelg1223_2 a) + (adm_deldelg2213_2 a)) * (adm_ginv12 a) + ((adm_deldelg1233_2 a) + (adm_deldelg2313_2 a)) * (adm_ginv13 a) + (adm_deldelg2223_2 a) * (adm_ginv22 a) + ((adm_deldelg2233_2 a) + (adm_deldelg2323_2 a)) * (adm_ginv23 a) + (adm_deldelg2333_2 a) * (adm_ginv33 a). (* ADMconstraints.c:2237-2242 *)
Definition adm_RB23_2 (a : adm_in) : R := (adm_deldelg1312_2 a) * (adm_ginv11 a) + ((adm_deldelg1322_2 a) + (adm_deldelg2312_2 a)) * (adm_ginv12 a) + ((adm_deldelg1323_2 a) + (adm_deldelg3312_2 a)) * (adm_ginv13 a) + (adm_deldelg2322_2 a) * (adm_ginv22 a) + ((adm_deldelg2323_2 a) + (adm_deldelg3322_2 a)) * (adm_ginv23 a) + (adm_deldelg3323_2 a) * (adm_ginv33 a). (* ADMconstraints.c:2244-2249 *)
Definition adm_RB33 (a : adm_in) : R := (adm_deldelg1313_2 a) * (adm_ginv11 a) + ((adm_deldelg1323_2 a) + (adm_deldelg2313_2 a)) * (adm_ginv12 a) + ((adm_deldelg1333_2 a) + (adm_deldelg3313_2 a)) * (adm_ginv13 a) + (adm_deldelg2323_2 a) * (adm_ginv22 a) + ((adm_deldelg2333_2 a) + (adm_deldelg3323_2 a)) * (adm_ginv23 a) + (adm_deldelg3333_2 a) * (adm_ginv33 a). (* ADMconstraints.c:2251-2256 *)
Definition adm_RC11 (a : adm_in) : R := ((adm_gamma111 a) * (adm_gammado111 a) + (adm_gamma211 a) * (adm_gammado211 a) + (adm_gamma311 a) * (adm_gammado311 a)) * (adm_ginv11 a) + ((adm_gamma112 a) * (adm_gammado111 a) + (adm_gamma111 a) * (adm_gammado112 a) + (adm_gamma212 a) * (adm_gammado211 a) + (adm_gamma211 a) * (adm_gammado212 a) + (adm_gamma312 a) * (adm_gammado311 a) + (adm_gamma311 a) * (adm_gammado312 a)) * (adm_ginv12 a) + ((adm_gamma113 a) * (adm_gammado111 a) + (adm_gamma111 a) * (adm_gammado113 a) + (adm_gamma213 a) * (adm_gammado211 a) + (adm_gamma211 a) * (adm_gammado213 a) + (adm_gamma313 a) * (adm_gammado311 a) + (adm_gamma311 a) * (adm_gammado313 a)) * (adm_ginv13 a) + ((adm_gamma112 a) * (adm_gammado112 a) + (adm_gamma212 a) * (adm_gammado212 a) + (adm_gamma312 a) * (adm_gammado312 a)) * (adm_ginv22 a) + ((adm_gamma113 a) * (adm_gammado112 a) + (adm_gamma112 a) * (adm_gammado113 a) + (adm_gamma213 a) * (adm_gammado212 a) + (adm_gamma212 a) * (adm_gammado213 a) + (adm_gamma313 a) * (adm_gammado312 a) + (adm_gamma312 a) * (adm_gammado313 a)) * (adm_ginv23 a) + ((adm_gamma113 a) * (adm_gammado113 a) + (adm_gamma213 a) * (adm_gammado213 a) + (adm_gamma313 a) * (adm_gammado313 a)) * (adm_ginv33 a). (* ADMconstraints.c:2258-2269 *)
Definition adm_RC12 (a : adm_in) : R := ((adm_gamma121 a) * (adm_gammado111 a) + (adm_gamma221 a) * (adm_gammado211 a) + (adm_gamma321 a) * (adm_gammado311 a)) * (adm_ginv11 a) + ((adm_gamma122 a) * (adm_gammado111 a) + (adm_gamma121 a) * (adm_gammado112 a) + (adm_gamma222 a) * (adm_gammado211 a) + (adm_gamma221 a) * (adm_gammado212 a) + (adm_gamma322 a) * (adm_gammado311 a) + (adm_gamma321 a) * (adm_gammado312 a)) * (adm_ginv12 a) + ((adm_gamma123 a) * (adm_gammado111 a) + (adm_gamma121 a) * (adm_gammado113 a) + (adm_gamma223 a) * (adm_gammado211 a) + (adm_gamma221 a) * (adm_gammado213 a) + (adm_gamma323 a) * (adm_gammado311 a) + (adm_gamma321 a) * (adm_gammado313 a)) * (adm_ginv13 a) + ((adm_gamma122 a) * (adm_gammado112 a) + (adm_gamma222 a) * (adm_gammado212 a) + (adm_gamma322 a) * (adm_gammado312 a)) * (adm_ginv22 a) + ((adm_gamma123 a) * (adm_gammado112 a) + (adm_gamma122 a) * (adm_gammado113 a) + (adm_gamma223 a) * (adm_gammado212 a) + (adm_gamma222 a) * (adm_gammado213 a) + (adm_gamma323 a) * (adm_gammado312 a) + (adm_gamma322 a) * (adm_gammado313 a)) * (adm_ginv23 a) + ((adm_gamma123 a) * (adm_gammado113 a) + (adm_gamma223 a) * (adm_gammado213 a) + (adm_gamma323 a) * (adm_gammado313 a)) * (adm_ginv33 a). (* ADMconstraints.c:2271-2282 *)
Definition adm_RC12_2 (a : adm_in) : R := ((adm_gamma111 a) * (adm_gammado121 a) + (adm_gamma211 a) * (adm_gammado221 a) + (adm_gamma311 a) * (adm_gammado321 a)) * (adm_ginv11 a) + ((adm_gamma112 a) * (adm_gammado121 a) + (adm_gamma111 a) * (adm_gammado122 a) + (adm_gamma212 a) * (adm_gammado221 a) + (adm_gamma211 a) * (adm_gammado222 a) + (adm_gamma312 a) * (adm_gammado321 a) + (adm_gamma311 a) * (adm_gammado322 a)) * (adm_ginv12 a) + ((adm_gamma113 a) * (adm_gammado121 a) + (adm_gamma111 a) * (adm_gammado123 a) + (adm_gamma213 a) * (adm_gammado221 a) + (adm_gamma211 a) * (adm_gammado223 a) + (adm_gamma313 a) * (adm_gammado321 a) + (adm_gamma311 a) * (adm_gammado323 a)) * (adm_ginv13 a) + ((adm_gamma112 a) * (adm_gammado122 a) + (adm_gamma212 a) * (adm_gammado222 a) + (adm_gamma312 a) * (adm_gammado322 a)) * (adm_ginv22 a) + ((adm_gamma113 a) * (adm_gammado122 a) + (adm_gamma112 a) * (adm_gammado123 a) + (adm_gamma213 a) * (adm_gammado222 a) + (adm_gamma212 a) * (adm_gammado223 a) + (adm_gamma313 a) * (adm_gammado322 a) + (adm_gamma312 a) * (adm_gammado323 a)) * (adm_ginv23 a) + ((adm_gamma113 a) * (adm_gammado123 a) + (adm_gamma213 a) * (adm_gammado223 a) + (adm_gamma313 a) * (adm_gammado323 a)) * (adm_ginv33 a). (* ADMconstraints.c:2284-2295 *)
Definition adm_RC13 (a : adm_in) : R := ((adm_gamma131 a) * (adm_gammado111 a) + (adm_gamma231 a) * (adm_gammado211 a) + (adm_gamma331 a) * (adm_gammado311 a)) * (adm_ginv11 a) + ((adm_gamma132 a) * (adm_gammado111 a) + (adm_gamma131 a) * (adm_gammado112 a) + (adm_gamma232 a) * (adm_gammado211 a) + (adm_gamma231 a) * (adm_gammado212 a) + (adm_gamma332 a) * (adm_gammado311 a) + (adm_gamma331 a) * (adm_gammado312 a)) * (adm_ginv12 a) + ((adm_gamma133 a) * (adm_gammado111 a) + (adm_gamma131 a) * (adm_gammado113 a) + (adm_gamma233 a) * (adm_gammado211 a) + (adm_gamma231 a) * (adm_gammado213 a) + (adm_gamma333 a) * (adm_gammado311 a) + (adm_gamma331 a) * (adm_gammado313 a)) * (adm_ginv13 a) + ((adm_gamma132 a) * (adm_gammado112 a) + (adm_gamma232 a) * (adm_gammado212 a) + (adm_gamma332 a) * (adm_gammado312 a)) * (adm_ginv22 a) + ((adm_gamma133 a) * (adm_gammado112 a) + (adm_gamma132 a) * (adm_gammado113 a) + (adm_gamma233 a) * (adm_gammado212 a) + (adm_gamma232 a) * (adm_gammado213 a) + (adm_gamma333 a) * (adm_gammado312 a) + (adm_gamma332 a) * (adm_gammado313 a)) * (adm_ginv23 a) + ((adm_gamma133 a) * (adm_gammado113 a) + (adm_gamma233 a) * (adm_gammado213 a) + (adm_gamma333 a) * (adm_gammado313 a)) * (adm_ginv33 a). (* ADMconstraints.c:2297-2308 *)
Definition adm_RC13_2 (a : adm_in) : R := ((adm_gamma111 a) * (adm_gammado131 a) + (adm_gamma211 a) * (adm_gammado231 a) + (adm_gamma311 a) * (adm_gammado331 a)) * (adm_ginv11 a) + ((adm_gamma112 a) * (adm_gammado131 a) + (adm_gamma111 a) * (adm_gammado132 a) + (adm_gamma212 a) * (adm_gammado231 a) + (adm_gamma211 a) * (adm_gammado232 a) + (adm_gamma312 a) * (adm_gammado331 a) + (adm_gamma311 a) * (adm_gammado332 a)) * (adm_ginv12 a) + ((adm_gamma113 a) * (adm_gammado131 a) + (adm_gamma111 a) * (adm_gammado133 a) + (adm_gamma213 a) * (adm_gammado231 a) + (adm_gamma211 a) * (adm_gammado233 a) + (adm_gamma313 a) * (adm_gammado331 a) + (adm_gamma311 a) * (adm_gammado333 a)) * (adm_ginv13 a) + ((adm_gamma112 a) * (adm_gammado132 a) + (adm_gamma212 a) * (adm_gammado232 a) + (adm_gamma312 a) * (adm_gammado332 a)) * (adm_ginv22 a) + ((adm_gamma113 a) * (adm_gammado132 a) + (adm_gamma112 a) * (adm_gammado133 a) + (adm_gamma213 a) * (adm_gammado232 a) + (adm_gamma212 a) * (adm_gammado233 a) + (adm_gamma313 a) * (adm_gammado332 a) + (adm_gamma312 a) * (adm_gammado333 a)) * (adm_ginv23 a) + ((adm_gamma113 a) * (adm_gammado133 a) + (adm_gamma213 a) * (adm_gammado233 a) + (adm_gamma313 a) * (adm_gammado333 a)) * (adm_ginv33 a). (* ADMconstraints.c:2310-2321 *)
Definition adm_RC22 (a : adm_in) : R := ((adm_gamma121 a) * (adm_gammado121 a) + (adm_gamma221 a) * (adm_gammado221 a) + (adm_gamma321 a) * (adm_gammado321 a)) * (adm_ginv11 a) + ((adm_gamma122 a) * (adm_gammado121 a) + (adm_gamma121 a) * (adm_gammado122 a) + (adm_gamma222 a) * (adm_gammado221 a) + (adm_gamma221 a) * (adm_gammado222 a) + (adm_gamma322 a) * (adm_gammado321 a) + (adm_gamma321 a) * (adm_gammado322 a)) * (adm_ginv12 a) + ((adm_gamma123 a) * (adm_gammado121 a) + (adm_gamma121 a) * (adm_gammado123 a) + (adm_gamma223 a) * (adm_gammado221 a) + (adm_gamma221 a) * (adm_gammado223 a) + (adm_gamma323 a) * (adm_gammado321 a) + (adm_gamma321 a) * (adm_gammado323 a)) * (adm_ginv13 a) + ((adm_gamma122 a) * (adm_gammado122 a) + (adm_gamma222 a) * (adm_gammado222 a) + (adm_gamma322 a) * (adm_gammado322 a)) * (adm_ginv22 a) + ((adm_gamma123 a) * (adm_gammado122 a) + (adm_gamma122 a) * (adm_gammado123 a) + (adm_gamma223 a) * (adm_gammado222 a) + (adm_gamma222 a) * (adm_gammado223 a) + (adm_gamma323 a) * (adm_gammado322 a) + (adm_gamma322 a) * (adm_gammado323 a)) * (adm_ginv23 a) + ((adm_gamma123 a) * (adm_gammado123 a) + (adm_gamma223 a) * (adm_gammado223 a) + (adm_gamma323 a) * (adm_gammado323 a)) * (adm_ginv33 a). (* ADMconstraints.c:2323-2334 *)
Definition adm_RC23 (a : adm_in) : R := ((adm_gamma131 a) * (adm_gammado121 a) + (adm_gamma231 a) * (adm_gammado221 a) + (adm_gamma331 a) * (adm_gammado321 a)) * (adm_ginv11 a) + ((adm_gamma132 a) * (adm_gammado121 a) + (adm_gamma131 a) * (adm_gammado122 a) + (adm_gamma232 a) * (adm_gammado221 a) + (adm_gamma231 a) * (adm_gammado222 a) + (adm_gamma332 a) * (adm_gammado321 a) + (adm_gamma331 a) * (adm_gammado322 a)) * (adm_ginv12 a) + ((adm_gamma133 a) * (adm_gammado121 a) + (adm_gamma131 a) * (adm_gammado123 a) + (adm_gamma233 a) * (adm_gammado221 a) + (adm_gamma231 a) * (adm_gammado223 a) + (adm_gamma333 a) * (adm_gammado321 a) + (adm_gamma331 a) * (adm_gammado323 a)) * (adm_ginv13 a) + ((adm_gamma132 a) * (adm_gammado122 a) + (adm_gamma232 a) * (adm_gammado222 a) + (adm_gamma332 a) * (adm_gammado322 a)) * (adm_ginv22 a) + ((adm_gamma133 a) * (adm_gammado122 a) + (adm_gamma132 a) * (adm_gammado123 a) + (adm_gamma233 a) * (adm_gammado222 a) + (adm_gamma232 a) * (adm_gammado223 a) + (adm_gamma333 a) * (adm_gammado322 a) + (adm_gamma332 a) * (adm_gammado323 a)) * (adm_ginv23 a) + ((adm_gamma133 a) * (adm_gammado123 a) + (adm_gamma233 a) * (adm_gammado223 a) + (adm_gamma333 a) * (adm_gammado323 a)) * (adm_ginv33 a). (* ADMconstraints.c:2336-2347 *)
Definition adm_RC23_2 (a : adm_in) : R := ((adm_gamma121 a) * (adm_gammado131 a) + (adm_gamma221 a) * (adm_gammado231 a) + (adm_gamma321 a) * (adm_gammado331 a)) * (adm_ginv11 a) + ((adm_gamma122 a) * (adm_gammado131 a) + (adm_gamma121 a) * (adm_gammado132 a) + (adm_gamma222 a) * (adm_gammado231 a) + (adm_gamma221 a) * (adm_gammado232 a) + (adm_gamma322 a) * (adm_gammado331 a) + (adm_gamma321 a) * (adm_gammado332 a)) * (adm_ginv12 a) + ((adm_gamma123 a) * (adm_gammado131 a) + (adm_gamma121 a) * (adm_gammado133 a) + (adm_gamma223 a) * (adm_gammado231 a) + (adm_gamma221 a) * (adm_gammado233 a) + (adm_gamma323 a) * (adm_gammado331 a) + (adm_gamma321 a) * (adm_gammado333 a)) * (adm_ginv13 a) + ((adm_gamma122 a) * (adm_gammado132 a) + (adm_gamma222 a) * (adm_gammado232 a) + (adm_gamma322 a) * (adm_gammado332 a)) * (adm_ginv22 a) + ((adm_gamma123 a) * (adm_gammado132 a) + (adm_gamma122 a) * (adm_gammado133 a) + (adm_gamma223 a) * (adm_gammado232 a) + (adm_gamma222 a) * (adm_gammado233 a) + (adm_gamma323 a) * (adm_gammado332 a) + (adm_gamma322 a) * (adm_gammado333 a)) * (adm_ginv23 a) + ((adm_gamma123 a) * (adm_gammado133 a) + (adm_gamma223 a) * (adm_gammado233 a) + (adm_gamma323 a) * (adm_gammado333 a)) * (adm_ginv33 a). (* ADMconstraints.c:2349-2360 *)
Definition adm_RC33 (a : adm_in) : R := ((adm_gamma131 a) * (adm_gammado131 a) + (adm_gamma231 a) * (adm_gammado231 a) + (adm_gamma331 a) * (adm_gammado331 a)) * (adm_ginv11 a) + ((adm_gamma132 a) * (adm_gammado131 a) + (adm_gamma131 a) * (adm_gammado132 a) + (adm_gamma232 a) * (adm_gammado231 a) + (adm_gamma231 a) * (adm_gammado232 a) + (adm_gamma332 a) * (adm_gammado331 a) + (adm_gamma331 a) * (adm_gammado332 a)) * (adm_ginv12 a) + ((adm_gamma133 a) * (adm_gammado131 a) + (adm_gamma131 a) * (adm_gammado133 a) + (adm_gamma233 a) * (adm_gammado231 a) + (adm_gamma231 a) * (adm_gammado233 a) + (adm_gamma333 a) * (adm_gammado331 a) + (adm_gamma331 a) * (adm_gammado333 a)) * (adm_ginv13 a) + ((adm_gamma132 a) * (adm_gammado132 a) + (adm_gamma232 a) * (adm_gammado232 a) + (adm_gamma332 a) * (adm_gammado332 a)) * (adm_ginv22 a) + ((adm_gamma133 a) * (adm_gammado132 a) + (adm_gamma132 a) * (adm_gammado133 a) + (adm_gamma233 a) * (adm_gammado232 a) + (adm_gamma232 a) * (adm_gammado233 a) + (adm_gamma333 a) * (adm_gammado332 a) + (adm_gamma332 a) * (adm_gammado333 a)) * (adm_ginv23 a) + ((adm_gamma133 a) * (adm_gammado133 a) + (adm_gamma233 a) * (adm_gammado233 a) + (adm_gamma333 a) * (adm_gammado333 a)) * (adm_ginv33 a). (* ADMconstraints.c:2362-2373 *)
Definition adm_RD11 (a : adm_in) : R := (- (((adm_gamma111 a) * (adm_gammado111 a) + (adm_gamma211 a) * (adm_gammado211 a) + (adm_gamma311 a) * (adm_gammado311 a)) * (adm_ginv11 a))) - ((adm_gamma111 a) * ((adm_gammado112 a) + (adm_gammado121 a)) + (adm_gamma211 a) * ((adm_gammado212 a) + (adm_gammado221 a)) + (adm_gamma311 a) * ((adm_gammado312 a) + (adm_gammado321 a))) * (adm_ginv12 a) - ((adm_gamma111 a) * ((adm_gammado113 a) + (adm_gammado131 a)) + (adm_gamma211 a) * ((adm_gammado213 a) + (adm_gammado231 a)) + (adm_gamma311 a) * ((adm_gammado313 a) + (adm_gammado331 a))) * (adm_ginv13 a) - ((adm_gamma111 a) * (adm_gammado122 a) + (adm_gamma211 a) * (adm_gammado222 a) + (adm_gamma311 a) * (adm_gammado322 a)) * (adm_ginv22 a) - ((adm_gamma111 a) * ((adm_gammado123 a) + (adm_gammado132 a)) + (adm_gamma211 a) * ((adm_gammado223 a) + (adm_gammado232 a)) + (adm_gamma311 a) * ((adm_gammado323 a) + (adm_gammado332 a))) * (adm_ginv23 a) - ((adm_gamma111 a) * (adm_gammado133 a) + (adm_gamma211 a) * (adm_gammado233 a) + (adm_gamma311 a) * (adm_gammado333 a)) * (adm_ginv33 a). (* ADMconstraints.c:2375-2389 *)
Definition adm_RD12 (a : adm_in) : R := (- (((adm_gamma112 a) * (adm_gammado111 a) + (adm_gamma212 a) * (adm_gammado211 a) + (adm_gamma312 a) * (adm_gammado311 a)) * (adm_ginv11 a))) - ((adm_gamma112 a) * ((adm_gammado112 a) + (adm_gammado121 a)) + (adm_gamma212 a) * ((adm_gammado212 a) + (adm_gammado221 a)) + (adm_gamma312 a) * ((adm_gammado312 a) + (adm_gammado321 a))) * (adm_ginv12 a) - ((adm_gamma112 a) * ((adm_gammado113 a) + (adm_gammado131 a)) + (adm_gamma212 a) * ((adm_gammado213 a) + (adm_gammado231 a)) + (adm_gamma312 a) * ((adm_gammado313 a) + (adm_gammado331 a))) * (adm_ginv13 a) - ((adm_gamma112 a) * (adm_gammado122 a) + (adm_gamma212 a) * (adm_gammado222 a) + (adm_gamma312 a) * (adm_gammado322 a)) * (adm_ginv22 a) - ((adm_gamma112 a) * ((adm_gammado123 a) + (adm_gammado132 a)) + (adm_gamma212 a) * ((adm_gammado223 a) + (adm_gammado232 a)) + (adm_gamma312 a) * ((adm_gammado323 a) + (adm_gammado332 a))) * (adm_ginv23 a) - ((adm_gamma112 a) * (adm_gammado133 a) + (adm_gamma212 a) * (adm_gammado233 a) + (adm_gamma312 a) * (adm_gammado333 a)) * (adm_ginv33 a). (* ADMconstraints.c:2391-2405 *)
Definition adm_RD12_2 (a : adm_in) : R := (- (((adm_gamma121 a) * (adm_gammado111 a) + (adm_gamma221 a) * (adm_gammado211 a) + (adm_gamma321 a) * (adm_gammado311 a)) * (adm_ginv11 a))) - ((adm_gamma121 a) * ((adm_gammado112 a) + (adm_gammado121 a)) + (adm_gamma221 a) * ((adm_gammado212 a) + (adm_gammado221 a)) + (adm_gamma321 a) * ((adm_gammado312 a) + (adm_gammado321 a))) * (adm_ginv12 a) - ((adm_gamma121 a) * ((adm_gammado113 a) + (adm_gammado131 a)) + (adm_gamma221 a) * ((adm_gammado213 a) + (adm_gammado231 a)) + (adm_gamma321 a) * ((adm_gammado313 a) + (adm_gammado331 a))) * (adm_ginv13 a) - ((adm_gamma121 a) * (adm_gammado122 a) + (adm_gamma221 a) * (adm_gammado222 a) + (adm_gamma321 a) * (adm_gammado322 a)) * (adm_ginv22 a) - ((adm_gamma121 a) * ((adm_gammado123 a) + (adm_gammado132 a)) + (adm_gamma221 a) * ((adm_gammado223 a) + (adm_gammado232 a)) + (adm_gamma321 a) * ((adm_gammado323 a) + (adm_gammado332 a))) * (adm_ginv23 a) - ((adm_gamma121 a) * (adm_gammado133 a) + (adm_gamma221 a) * (adm_gammado233 a) + (adm_gamma321 a) * (adm_gammado333 a)) * (adm_ginv33 a). (* ADMconstraints.c:2407-2421 *)
Definition adm_RD13 (a : adm_in) : R := (- (((adm_gamma113 a) * (adm_gammado111 a) + (adm_gamma213 a) * (adm_gammado211 a) + (adm_gamma313 a) * (adm_gammado311 a)) * (adm_ginv11 a))) - ((adm_gamma113 a) * ((adm_gammado112 a) + (adm_gammado121 a)) + (adm_gamma213 a) * ((adm_gammado212 a) + (adm_gammado221 a)) + (adm_gamma313 a) * ((adm_gammado312 a) + (adm_gammado321 a))) * (adm_ginv12 a) - ((adm_gamma113 a) * ((adm_gammado113 a) + (adm_gammado131 a)) + (adm_gamma213 a) * ((adm_gammado213 a) + (adm_gammado231 a)) + (adm_gamma313 a) * ((adm_gammado313 a) + (adm_gammado331 a))) * (adm_ginv13 a) - ((adm_gamma113 a) * (adm_gammado122 a) + (adm_gamma213 a) * (adm_gammado222 a) + (adm_gamma313 a) * (adm_gammado322 a)) * (adm_ginv22 a) - ((adm_gamma113 a) * ((adm_gammado123 a) + (adm_gammado132 a)) + (adm_gamma213 a) * ((adm_gammado223 a) + (adm_gammado232 a)) + (adm_gamma313 a) * ((adm_gammado323 a) + (adm_gammado332 a))) * (adm_ginv23 a) - ((adm_gamma113 a) * (adm_gammado133 a) + (adm_gamma213 a) * (adm_gammado233 a) + (adm_gamma313 a) * (adm_gammado333 a)) * (adm_ginv33 a). (* ADMconstraints.c:2423-2437 *)
Definition adm_RD13_2 (a : adm_in) : R := (- (((adm_gamma131 a) * (adm_gammado111 a) + (adm_gamma231 a) * (adm_gammado211 a) + (adm_gamma331 a) * (adm_gammado311 a)) * (adm_ginv11 a))) - ((adm_gamma131 a) * ((adm_gammado112 a) + (adm_gammado121 a)) + (adm_gamma231 a) * ((adm_gammado212 a) + (adm_gammado221 a)) + (adm_gamma331 a) * ((adm_gammado312 a) + (adm_gammado321 a))) * (adm_ginv12 a) - ((adm_gamma131 a) * ((adm_gammado113 a) + (adm_gammado131 a)) + (adm_gamma231 a) * ((adm_gammado213 a) + (adm_gammado231 a)) + (adm_gamma331 a) * ((adm_gammado313 a) + (adm_gammado331 a))) * (adm_ginv13 a) - ((adm_gamma131 a) * (adm_gammado122 a) + (adm_gamma231 a) * (adm_gammado222 a) + (adm_gamma331 a) * (adm_gammado322 a)) * (adm_ginv22 a) - ((adm_gamma131 a) * ((adm_gammado123 a) + (adm_gammado132 a)) + (adm_gamma231 a) * ((adm_gammado223 a) + (adm_gammado232 a)) + (adm_gamma331 a) * ((adm_gammado323 a) + (adm_gammado332 a))) * (adm_ginv23 a) - ((adm_gamma131 a) * (adm_gammado133 a) + (adm_gamma231 a) * (adm_gammado233 a) + (adm_gamma331 a) * (adm_gammado333 a)) * (adm_ginv33 a). (* ADMconstraints.c:2439-2453 *)
Definition adm_RD22 (a : adm_in) : R := (- (((adm_gamma122 a) * (adm_gammado111 a) + (adm_gamma222 a) * (adm_gammado211 a) + (adm_gamma322 a) * (adm_gammado311 a)) * (adm_ginv11 a))) - ((adm_gamma122 a) * ((adm_gammado112 a) + (adm_gammado121 a)) + (adm_gamma222 a) * ((adm_gammado212 a) + (adm_gammado221 a)) + (adm_gamma322 a) * ((adm_gammado312 a) + (adm_gammado321 a))) * (adm_ginv12 a) - ((adm_gamma122 a) * ((adm_gammado113 a) + (adm_gammado131 a)) + (adm_gamma222 a) * ((adm_gammado213 a) + (adm_gammado231 a)) + (adm_gamma322 a) * ((adm_gammado313 a) + (adm_gammado331 a))) * (adm_ginv13 a) - ((adm_gamma122 a) * (adm_gammado122 a) + (adm_gamma222 a) * (adm_gammado222 a) + (adm_gamma322 a) * (adm_gammado322 a)) * (adm_ginv22 a) - ((adm_gamma122 a) * ((adm_gammado123 a) + (adm_gammado132 a)) + (adm_gamma222 a) * ((adm_gammado223 a) + (adm_gammado232 a)) + (adm_gamma322 a) * ((adm_gammado323 a) + (adm_gammado332 a))) * (adm_ginv23 a) - ((adm_gamma122 a) * (adm_gammado133 a) + (adm_gamma222 a) * (adm_gammado233 a) + (adm_gamma322 a) * (adm_gammado333 a)) * (adm_ginv33 a). (* ADMconstraints.c:2455-2469 *)
Definition adm_RD23 (a : adm_in) : R := (- (((adm_gamma123 a) * (adm_gammado111 a) + (adm_gamma223 a) * (adm_gammado211 a) + (adm_gamma323 a) * (adm_gammado311 a)) * (adm_ginv11 a))) - ((adm_gamma123 a) * ((adm_gammado112 a) + (adm_gammado121 a)) + (adm_gamma223 a) * ((adm_gammado212 a) + (adm_gammado221 a)) + (adm_gamma323 a) * ((adm_gammado312 a) + (adm_gammado321 a))) * (adm_ginv12 a) - ((adm_gamma123 a) * ((adm_gammado113 a) + (adm_gammado131 a)) + (adm_gamma223 a) * ((adm_gammado213 a) + (adm_gammado231 a)) + (adm_gamma323 a) * ((adm_gammado313 a) + (adm_gammado331 a))) * (adm_ginv13 a) - ((adm_gamma123 a) * (adm_gammado122 a) + (adm_gamma223 a) * (adm_gammado222 a) + (adm_gamma323 a) * (adm_gammado322 a)) * (adm_ginv22 a) - ((adm_gamma123 a) * ((adm_gammado123 a) + (adm_gammado132 a)) + (adm_gamma223 a) * ((adm_gammado223 a) + (adm_gammado232 a)) + (adm_gamma323 a) * ((adm_gammado323 a) + (adm_gammado332 a))) * (adm_ginv23 a) - ((adm_gamma123 a) * (adm_gammado133 a) + (adm_gamma223 a) * (adm_gammado233 a) + (adm_gamma323 a) * (adm_gammado333 a)) * (adm_ginv33 a). (* ADMconstraints.c:2471-2485 *)
Definition adm_RD23_2 (a : adm_in) : R := (- (((adm_gamma132 a) * (adm_gammado111 a) + (adm_gamma232 a) * (adm_gammado211 a) + (adm_gamma332 a) * (adm_gammado311 a)) * (adm_ginv11 a))) - ((adm_gamma132 a) * ((adm_gammado112 a) + (adm_gammado121 a)) + (adm_gamma232 a) * ((adm_gammado212 a) + (adm_gammado221 a)) + (adm_gamma332 a) * ((adm_gammado312 a) + (adm_gammado321 a))) * (adm_ginv12 a) - ((adm_gamma132 a) * ((adm_gammado113 a) + (adm_gammado131 a)) + (adm_gamma232 a) * ((adm_gammado213 a) + (adm_gammado231 a)) + (adm_gamma332 a) * ((adm_gammado313 a) + (adm_gammado331 a))) * (adm_ginv13 a) - ((adm_gamma132 a) * (adm_gammado122 a) + (adm_gamma232 a) * (adm_gammado222 a) + (adm_gamma332 a) * (adm_gammado322 a)) * (adm_ginv22 a) - ((adm_gamma132 a) * ((adm_gammado123 a) + (adm_gammado132 a)) + (adm_gamma232 a) * ((adm_gammado223 a) + (adm_gammado232 a)) + (adm_gamma332 a) * ((adm_gammado323 a) + (adm_gammado332 a))) * (adm_ginv23 a) - ((adm_gamma132 a) * (adm_gammado133 a) + (adm_gamma232 a) * (adm_gammado233 a) + (adm_gamma332 a) * (adm_gammado333 a)) * (adm_ginv33 a). (* ADMconstraints.c:2487-2501 *)
Definition adm_RD33 (a : adm_in) : R := (- (((adm_gamma133 a) * (adm_gammado111 a) + (adm_gamma233 a) * (adm_gammado211 a) + (adm_gamma333 a) * (adm_gammado311 a)) * (adm_ginv11 a))) - ((adm_gamma133 a) * ((adm_gammado112 a) + (adm_gammado121 a)) + (adm_gamma233 a) * ((adm_gammado212 a) + (adm_gammado221 a)) + (adm_gamma333 a) * ((adm_gammado312 a) + (adm_gammado321 a))) * (adm_ginv12 a) - ((adm_gamma133 a) * ((adm_gammado113 a) + (adm_gammado131 a)) + (adm_gamma233 a) * ((adm_gammado213 a) + (adm_gammado231 a)) + (adm_gamma333 a) * ((adm_gammado313 a) + (adm_gammado331 a))) * (adm_ginv13 a) - ((adm_gamma133 a) * (adm_gammado122 a) + (adm_gamma233 a) * (adm_gammado222 a) + (adm_gamma333 a) * (adm_gammado322 a)) * (adm_ginv22 a) - ((adm_gamma133 a) * ((adm_gammado123 a) + (adm_gammado132 a)) + (adm_gamma233 a) * ((adm_gammado223 a) + (adm_gammado232 a)) + (adm_gamma333 a) * ((adm_gammado323 a) + (adm_gammado332 a))) * (adm_ginv23 a) - ((adm_gamma133 a) * (adm_gammado133 a) + (adm_gamma233 a) * (adm_gammado233 a) + (adm_gamma333 a) * (adm_gammado333 a)) * (adm_ginv33 a). (* ADMconstraints.c:2503-2517 *)
Definition adm_RA (a : adm_in) : R := (adm_ginv11 a) * (adm_RA11 a) + (adm_ginv22 a) * (adm_RA22 a) + 2 * ((adm_ginv12 a) * (adm_RA12 a) + (adm_ginv13 a) * (adm_RA13 a) + (adm_ginv23 a) * (adm_RA23 a)) + (adm_ginv33 a) * (adm_RA33 a). (* ADMconstraints.c:2519-2523 *)
Definition adm_RB (a : adm_in) : R := (adm_ginv11 a) * (adm_RB11 a) + (adm_ginv22 a) * (adm_RB22 a) + 2 * ((adm_ginv12 a) * (adm_RB12_2 a) + (adm_ginv13 a) * (adm_RB13_2 a) + (adm_ginv23 a) * (adm_RB23_2 a)) + (adm_ginv33 a) * (adm_RB33 a). (* ADMconstraints.c:2525-2529 *)
Definition adm_RC (a : adm_in) : R := (adm_ginv11 a) * (adm_RC11 a) + (adm_ginv22 a) * (adm_RC22 a) + 2 * ((adm_ginv12 a) * (adm_RC12_2 a) + (adm_ginv13 a) * (adm_RC13_2 a) + (adm_ginv23 a) * (adm_RC23_2 a)) + (adm_ginv33 a) * (adm_RC33 a). (* ADMconstraints.c:2531-2535 *)
Definition adm_RD (a : adm_in) : R := (adm_ginv11 a) * (adm_RD11 a) + (adm_ginv22 a) * (adm_RD22 a) + 2 * ((adm_ginv12 a) * (adm_RD12_2 a) + (adm_ginv13 a) * (adm_RD13_2 a) + (adm_ginv23 a) * (adm_RD23_2 a)) + (adm_ginv33 a) * (adm_RD33 a). (* ADMconstraints.c:2537-2541 *)
Definition adm_denom (a : adm_in) : R := Rabs ((adm_hamrhs_3 a)) + Rabs ((adm_KudKud a)) + Rabs ((adm_RA a)) + Rabs ((adm_RB a)) + Rabs ((adm_RC a)) + Rabs ((adm_RD a)) + pow2 ((adm_K a)). (* ADMconstraints.c:2543-2547 *)
Definition adm_denom_2 (a : adm_in) : R := Rabs ((adm_hamrhs_3 a)) + Rabs ((adm_KudKud a)) + Rabs ((adm_R a)) + pow2 ((adm_K a)). (* ADMconstraints.c:2552-2555 *)
Definition adm_denom_3 (a : adm_in) : R := if a_term a then adm_denom a else adm_denom_2 a. (* ADMconstraints.c:2151 *)
Definition adm_normham (a : adm_in) : R := (if Rle_dec ((adm_denom_3 a)) (0) then 0 else (adm_ham a) / (adm_denom_3 a)). (* ADMconstraints.c:2561-2564 *)
Definition adm_codelKA111 (a : adm_in) : R := (adm_delK111 a). (* ADMconstraints.c:2571-2574 *)
Definition adm_codelKA112 (a : adm_in) : R := (adm_delK112 a). (* ADMconstraints.c:2576-2579 *)
Definition adm_codelKA113 (a : adm_in) : R := (adm_delK113 a). (* ADMconstraints.c:2581-2584 *)
Definition adm_codelKA122 (a : adm_in) : R := (adm_delK122 a). (* ADMconstraints.c:2586-2589 *)
Definition adm_codelKA123 (a : adm_in) : R := (adm_delK123 a). (* ADMconstraints.c:2591-2594 *)
Definition adm_codelKA133 (a : adm_in) : R := (adm_delK133 a). (* ADMconstraints.c:2596-2599 *)
Definition adm_codelKA211 (a : adm_in) : R := (adm_delK211 a). (* ADMconstraints.c:2601-2604 *)
Definition adm_codelKA212 (a : adm_in) : R := (adm_delK212 a). (* ADMconstraints.c:2606-2609 *)
Definition adm_codelKA213 (a : adm_in) : R := (adm_delK213 a). (* ADMconstraints.c:2611-2614 *)
Definition adm_codelKA222 (a : adm_in) : R := (adm_delK222 a). (* ADMconstraints.c:2616-2619 *)
Definition adm_codelKA223 (a : adm_in) : R := (adm_delK223 a). (* ADMconstraints.c:2621-2624 *)
Definition adm_codelKA233 (a : adm_in) : R := (adm_delK233 a). (* ADMconstraints.c:2626-2629 *)
Definition adm_codelKA311 (a : adm_in) : R := (adm_delK311 a). (* ADMconstraints.c:2631-2634 *)
Definition adm_codelKA312 (a : adm_in) : R := (adm_delK312 a). (* ADMconstraints.c:2636-2639 *)
Definition adm_codelKA313 (a : adm_in) : R := (adm_delK313 a). (* ADMconstraints.c:2641-2644 *)
Definition adm_codelKA322 (a : adm_in) : R := (adm_delK322 a). (* ADMconstraints.c:2646-2649 *)
Definition adm_codelKA323 (a : adm_in) : R := (adm_delK323 a). (* ADMconstraints.c:2651-2654 *)
Definition adm_codelKA333 (a : adm_in) : R := (adm_delK333 a). (* ADMconstraints.c:2656-2659 *)
Definition adm_codelKB111 (a : adm_in) : R := (- ((adm_gamma111 a) * (adm_K11 a))) - (adm_gamma211 a) * (adm_K12 a) - (adm_gamma311 a) * (adm_K13 a). (* ADMconstraints.c:2661-2664 *)
Definition adm_codelKB112 (a : adm_in) : R := (- ((adm_gamma112 a) * (adm_K11 a))) - (adm_gamma212 a) * (adm_K12 a) - (adm_gamma312 a) * (adm_K13 a). (* ADMconstraints.c:2666-2669 *)
Definition adm_codelKB112_2 (a : adm_in) : R := (- ((adm_gamma111 a) * (adm_K12 a))) - (adm_gamma211 a) * (adm_K22 a) - (adm_gamma311 a) * (adm_K23 a). (* ADMconstraints.c:2671-2674 *)
Definition adm_codelKB113 (a : adm_in) : R := (- ((adm_gamma113 a) * (adm_K11 a))) - (adm_gamma213 a) * (adm_K12 a) - (adm_gamma313 a) * (adm_K13 a). (* ADMconstraints.c:2676-2679 *)
Definition adm_codelKB113_2 (a : adm_in) : R := (- ((adm_gamma111 a) * (adm_K13 a))) - (adm_gamma211 a) * (adm_K23 a) - (adm_gamma311 a) * (adm_K33 a). (* ADMconstraints.c:2681-2684 *)
Definition adm_codelKB122 (a : adm_in) : R := (- ((adm_gamma112 a) * (adm_K12 a))) - (adm_gamma212 a) * (adm_K22 a) - (adm_gamma312 a) * (adm_K23 a). (* ADMconstraints.c:2686-2689 *)
Definition adm_codelKB123 (a : adm_in) : R := (- ((adm_gamma113 a) * (adm_K12 a))) - (adm_gamma213 a) * (adm_K22 a) - (adm_gamma313 a) * (adm_K23 a). (* ADMconstraints.c:2691-2694 *)
Definition adm_codelKB123_2 (a : adm_in) : R := (- ((adm_gamma112 a) * (adm_K13 a))) - (adm_gamma212 a) * (adm_K23 a) - (adm_gamma312 a) * (adm_K33 a). (* ADMconstraints.c:2696-2699 *)
Definition adm_codelKB133 (a : adm_in) : R := (- ((adm_gamma113 a) * (adm_K13 a))) - (adm_gamma213 a) * (adm_K23 a) - (adm_gamma313 a) * (adm_K33 a). (* ADMconstraints.c:2701-2704 *)
Definition adm_codelKB211 (a : adm_in) : R := (- ((adm_gamma121 a) * (adm_K11 a))) - (adm_gamma221 a) * (adm_K12 a) - (adm_gamma321 a) * (adm_K13 a). (* ADMconstraints.c:2706-2709 *)
Definition adm_codelKB212 (a : adm_in) : R := (- ((adm_gamma122 a) * (adm_K11 a))) - (adm_gamma222 a) * (adm_K12 a) - (adm_gamma322 a) * (adm_K13 a). (* ADMconstraints.c:2711-2714 *)
Definition adm_codelKB212_2 (a : adm_in) : R := (- ((adm_gamma121 a) * (adm_K12 a))) - (adm_gamma221 a) * (adm_K22 a) - (adm_gamma321 a) * (adm_K23 a). (* ADMconstraints.c:2716-2719 *)
Definition adm_codelKB213 (a : adm_in) : R := (- ((adm_gamma123 a) * (adm_K11 a))) - (adm_gamma223 a) * (adm_K12 a) - (adm_gamma323 a) * (adm_K13 a). (* ADMconstraints.c:2721-2724 *)
Definition adm_codelKB213_2 (a : adm_in) : R := (- ((adm_gamma121 a) * (adm_K13 a))) - (adm_gamma221 a) * (adm_K23 a) - (adm_gamma321 a) * (adm_K33 a). (* ADMconstraints.c:2726-2729 *)
Definition adm_codelKB222 (a : adm_in) : R := (- ((adm_gamma122 a) * (adm_K12 a))) - (adm_gamma222 a) * (adm_K22 a) - (adm_gamma322 a) * (adm_K23 a). (* ADMconstraints.c:2731-2734 *)
Definition adm_codelKB223 (a : adm_in) : R := (- ((adm_gamma123 a) * (adm_K12 a))) - (adm_gamma223 a) * (adm_K22 a) - (adm_gamma323 a) * (adm_K23 a). (* ADMconstraints.c:2736-2739 *)
Definition adm_codelKB223_2 (a : adm_in) : R := (- ((adm_gamma122 a) * (adm_K13 a))) - (adm_gamma222 a) * (adm_K23 a) - (adm_gamma322 a) * (adm_K33 a). (* ADMconstraints.c:2741-2744 *)
Definition adm_codelKB233 (a : adm_in) : R := (- ((adm_gamma123 a) * (adm_K13 a))) - (adm_gamma223 a) * (adm_K23 a) - (adm_gamma323 a) * (adm_K33 a). (* ADMconstraints.c:2746-2749 *)
Definition adm_codelKB311 (a : adm_in) : R := (- ((adm_gamma131 a) * (adm_K11 a))) - (adm_gamma231 a) * (adm_K12 a) - (adm_gamma331 a) * (adm_K13 a). (* ADMconstraints.c:2751-2754 *)
Definition adm_codelKB312 (a : adm_in) : R := (- ((adm_gamma132 a) * (adm_K11 a))) - (adm_gamma232 a) * (adm_K12 a) - (adm_gamma332 a) * (adm_K13 a). (* ADMconstraints.c:2756-2759 *)
Definition adm_codelKB312_2 (a : adm_in) : R := (- ((adm_gamma131 a) * (adm_K12 a))) - (adm_gamma231 a) * (adm_K22 a) - (adm_gamma331 a) * (adm_K23 a). (* ADMconstraints.c:2761-2764 *)
Definition adm_codelKB313 (a : adm_in) : R := (- ((adm_gamma133 a) * (adm_K11 a))) - (adm_gamma233 a) * (adm_K12 a) - (adm_gamma333 a) * (adm_K13 a). (* ADMconstraints.c:2766-2769 *)
Definition adm_codelKB313_2 (a : adm_in) : R := (- ((adm_gamma131 a) * (adm_K13 a))) - (adm_gamma231 a) * (adm_K23 a) - (adm_gamma331 a) * (adm_K33 a). (* ADMconstraints.c:2771-2774 *)
Definition adm_codelKB322 (a : adm_in) : R := (- ((adm_gamma132 a) * (adm_K12 a))) - (adm_gamma232 a) * (adm_K22 a) - (adm_gamma332 a) * (adm_K23 a). (* ADMconstraints.c:2776-2779 *)
Definition adm_codelKB323 (a : adm_in) : R := (- ((adm_gamma133 a) * (adm_K12 a))) - (adm_gamma233 a) * (adm_K22 a) - (adm_gamma333 a) * (adm_K23 a). (* ADMconstraints.c:2781-2784 *)
Definition adm_codelKB323_2 (a : adm_in) : R := (- ((adm_gamma132 a) * (adm_K13 a))) - (adm_gamma232 a) * (adm_K23 a) - (adm_gamma332 a) * (adm_K33 a). (* ADMconstraints.c:2786-2789 *)
Definition adm_codelKB333 (a : adm_in) : R := (- ((adm_gamma133 a) * (adm_K13 a))) - (adm_gamma233 a) * (adm_K23 a) - (adm_gamma333 a) * (adm_K33 a). (* ADMconstraints.c:2791-2794 *)
Definition adm_codelKC111 (a : adm_in) : R := (- ((adm_gamma111 a) * (adm_K11 a))) - (adm_gamma211 a) * (adm_K12 a) - (adm_gamma311 a) * (adm_K13 a). (* ADMconstraints.c:2796-2799 *)
Definition adm_codelKC112 (a : adm_in) : R := (- ((adm_gamma112 a) * (adm_K11 a))) - (adm_gamma212 a) * (adm_K12 a) - (adm_gamma312 a) * (adm_K13 a). (* ADMconstraints.c:2801-2804 *)
Definition adm_codelKC112_2 (a : adm_in) : R := (- ((adm_gamma111 a) * (adm_K12 a))) - (adm_gamma211 a) * (adm_K22 a) - (adm_gamma311 a) * (adm_K23 a). (* ADMconstraints.c:2806-2809 *)
Definition adm_codelKC113 (a : adm_in) : R := (- ((adm_gamma113 a) * (adm_K11 a))) - (adm_gamma213 a) * (adm_K12 a) - (adm_gamma313 a) * (adm_K13 a). (* ADMconstraints.c:2811-2814 *)
Definition adm_codelKC113_2 (a : adm_in) : R := (- ((adm_gamma111 a) * (adm_K13 a))) - (adm_gamma211 a) * (adm_K23 a) - (adm_gamma311 a) * (adm_K33 a). (* ADMconstraints.c:2816-2819 *)
Definition adm_codelKC122 (a : adm_in) : R := (- ((adm_gamma112 a) * (adm_K12 a))) - (adm_gamma212 a) * (adm_K22 a) - (adm_gamma312 a) * (adm_K23 a). (* ADMconstraints.c:2821-2824 *)
Definition adm_codelKC123 (a : adm_in) : R := (- ((adm_gamma113 a) * (adm_K12 a))) - (adm_gamma213 a) * (adm_K22 a) - (adm_gamma313 a) * (adm_K23 a). (* ADMconstraints.c:2826-2829 *)
Definition adm_codelKC123_2 (a : adm_in) : R := (- ((adm_gamma112 a) * (adm_K13 a))) - (adm_gamma212 a) * (adm_K23 a) - (adm_gamma312 a) * (adm_K33 a). (* ADMconstraints.c:2831-2834 *)
Definition adm_codelKC133 (a : adm_in) : R := (- ((adm_gamma113 a) * (adm_K13 a))) - (adm_gamma213 a) * (adm_K23 a) - (adm_gamma313 a) * (adm_K33 a). (* ADMconstraints.c:2836-2839 *)
Definition adm_codelKC211 (a : adm_in) : R := (- ((adm_gamma121 a) * (adm_K11 a))) - (adm_gamma221 a) * (adm_K12 a) - (adm_gamma321 a) * (adm_K13 a). (* ADMconstraints.c:2841-2844 *)
Definition adm_codelKC212 (a : adm_in) : R := (- ((adm_gamma122 a) * (adm_K11 a))) - (adm_gamma222 a) * (adm_K12 a) - (adm_gamma322 a) * (adm_K13 a). (* ADMconstraints.c:2846-2849 *)
Definition adm_codelKC212_2 (a : adm_in) : R := (- ((adm_gamma121 a) * (adm_K12 a))) - (adm_gamma221 a) * (adm_K22 a) - (adm_gamma321 a) * (adm_K23 a). (* ADMconstraints.c:2851-2854 *)
Definition adm_codelKC213 (a : adm_in) : R := (- ((adm_gamma123 a) * (adm_K11 a))) - (adm_gamma223 a) * (adm_K12 a) - (adm_gamma323 a) * (adm_K13 a). (* ADMconstraints.c:2856-2859 *)
Definition adm_codelKC213_2 (a : adm_in) : R := (- ((adm_gamma121 a) * (adm_K13 a))) - (adm_gamma221 a) * (adm_K23 a) - (adm_gamma321 a) * (adm_K33 a). (* ADMconstraints.c:2861-2864 *)
Definition adm_codelKC222 (a : adm_in) : R := (- ((adm_gamma122 a) * (adm_K12 a))) - (adm_gamma222 a) * (adm_K22 a) - (adm_gamma322 a) * (adm_K23 a). (* ADMconstraints.c:2866-2869 *)
Definition adm_codelKC223 (a : adm_in) : R := (- ((adm_gamma123 a) * (adm_K12 a))) - (adm_gamma223 a) * (adm_K22 a) - (adm_gamma323 a) * (adm_K23 a). (* ADMconstraints.c:2871-2874 *)
Definition adm_codelKC223_2 (a : adm_in) : R := (- ((adm_gamma122 a) * (adm_K13 a))) - (adm_gamma222 a) * (adm_K23 a) - (adm_gamma322 a) * (adm_K33 a). (* ADMconstraints.c:2876-2879 *)
Definition adm_codelKC233 (a : adm_in) : R := (- ((adm_gamma123 a) * (adm_K13 a))) - (adm_gamma223 a) * (adm_K23 a) - (adm_gamma323 a) * (adm_K33 a). (* ADMconstraints.c:2881-2884 *)
Definition adm_codelKC311 (a : adm_in) : R := (- ((adm_gamma131 a) * (adm_K11 a))) - (adm_gamma231 a) * (adm_K12 a) - (adm_gamma331 a) * (adm_K13 a). (* ADMconstraints.c:2886-2889 *)
Definition adm_codelKC312 (a : adm_in) : R := (- ((adm_gamma132 a) * (adm_K11 a))) - (adm_gamma232 a) * (adm_K12 a) - (adm_gamma332 a) * (adm_K13 a). (* ADMconstraints.c:2891-2894 *)
Definition adm_codelKC312_2 (a : adm_in) : R := (- ((adm_gamma131 a) * (adm_K12 a))) - (adm_gamma231 a) * (adm_K22 a) - (adm_gamma331 a) * (adm_K23 a). (* ADMconstraints.c:2896-2899 *)
Definition adm_codelKC313 (a : adm_in) : R := (- ((adm_gamma133 a) * (adm_K11 a))) - (adm_gamma233 a) * (adm_K12 a) - (adm_gamma333 a) * (adm_K13 a). (* ADMconstraints.c:2901-2904 *)
Definition adm_codelKC313_2 (a : adm_in) : R := (- ((adm_gamma131 a) * (adm_K13 a))) - (adm_gamma231 a) * (adm_K23 a) - (adm_gamma331 a) * (adm_K33 a). (* ADMconstraints.c:2906-2909 *)
Definition adm_codelKC322 (a : adm_in) : R := (- ((adm_gamma132 a) * (adm_K12 a))) - (adm_gamma232 a) * (adm_K22 a) - (adm_gamma332 a) * (adm_K23 a). (* ADMconstraints.c:2911-2914 *)
Definition adm_codelKC323 (a : adm_in) : R := (- ((adm_gamma133 a) * (adm_K12 a))) - (adm_gamma233 a) * (adm_K22 a) - (adm_gamma333 a) * (adm_K23 a). (* ADMconstraints.c:2916-2919 *)
Definition adm_codelKC323_2 (a : adm_in) : R := (- ((adm_gamma132 a) * (adm_K13 a))) - (adm_gamma232 a) * (adm_K23 a) - (adm_gamma332 a) * (adm_K33 a). (* ADMconstraints.c:2921-2924 *)
Definition adm_codelKC333 (a : adm_in) : R := (- ((adm_gamma133 a) * (adm_K13 a))) - (adm_gamma233 a) * (adm_K23 a) - (adm_gamma333 a) * (adm_K33 a). (* ADMconstraints.c:2926-2929 *)
Definition adm_cdKdA1 (a : adm_in) : R := (adm_codelKA111 a) * (adm_ginv11 a) + ((adm_codelKA112 a) + (adm_codelKA211 a)) * (adm_ginv12 a) + ((adm_codelKA113 a) + (adm_codelKA311 a)) * (adm_ginv13 a) + (adm_codelKA212 a) * (adm_ginv22 a) + ((adm_codelKA213 a) + (adm_codelKA312 a)) * (adm_ginv23 a) + (adm_codelKA313 a) * (adm_ginv33 a). (* ADMconstraints.c:2931-2936 *)
Definition adm_cdKdA2 (a : adm_in) : R := (adm_codelKA112 a) * (adm_ginv11 a) + ((adm_codelKA122 a) + (adm_codelKA212 a)) * (adm_ginv12 a) + ((adm_codelKA123 a) + (adm_codelKA312 a)) * (adm_ginv13 a) + (adm_codelKA222 a) * (adm_ginv22 a) + ((adm_codelKA223 a) + (adm_codelKA322 a)) * (adm_ginv23 a) + (adm_codelKA323 a) * (adm_ginv33 a). (* ADMconstraints.c:2938-2943 *)
Definition adm_cdKdA3 (a : adm_in) : R := (adm_codelKA113 a) * (adm_ginv11 a) + ((adm_codelKA123 a) + (adm_codelKA213 a)) * (adm_ginv12 a) + ((adm_codelKA133 a) + (adm_codelKA313 a)) * (adm_ginv13 a) + (adm_codelKA223 a) * (adm_ginv22 a) + ((adm_codelKA233 a) + (adm_codelKA323 a)) * (adm_ginv23 a) + (adm_codelKA333 a) * (adm_ginv33 a). (* ADMconstraints.c:2945-2950 *)
Definition adm_cdKdB1 (a : adm_in) : R := (adm_codelKB111 a) * (adm_ginv11 a) + ((adm_codelKB112_2 a) + (adm_codelKB211 a)) * (adm_ginv12 a) + ((adm_codelKB113_2 a) + (adm_codelKB311 a)) * (adm_ginv13 a) + (adm_codelKB212_2 a) * (adm_ginv22 a) + ((adm_codelKB213_2 a) + (adm_codelKB312_2 a)) * (adm_ginv23 a) + (adm_codelKB313_2 a) * (adm_ginv33 a). (* ADMconstraints.c:2952-2957 *)
Definition adm_cdKdB2 (a : adm_in) : R := (adm_codelKB112_2 a) * (adm_ginv11 a) + ((adm_codelKB122 a) + (adm_codelKB212_2 a)) * (adm_ginv12 a) + ((adm_codelKB123_2 a) + (adm_codelKB312_2 a)) * (adm_ginv13 a) + (adm_codelKB222 a) * (adm_ginv22 a) + ((adm_codelKB223_2 a) + (adm_codelKB322 a)) * (adm_ginv23 a) + (adm_codelKB323_2 a) * (adm_ginv33 a). (* ADMconstraints.c:2959-2964 *)
Definition adm_cdKdB3 (a : adm_in) : R := (adm_codelKB113_2 a) * (adm_ginv11 a) + ((adm_codelKB123_2 a) + (adm_codelKB213_2 a)) * (adm_ginv12 a) + ((adm_codelKB133 a) + (adm_codelKB313_2 a)) * (adm_ginv13 a) + (adm_codelKB223_2 a) * (adm_ginv22 a) + ((adm_codelKB233 a) + (adm_codelKB323_2 a)) * (adm_ginv23 a) + (adm_codelKB333 a) * (adm_ginv33 a). (* ADMconstraints.c:2966-2971 *)
Definition adm_cdKdC1 (a : adm_in) : R := (adm_codelKC111 a) * (adm_ginv11 a) + ((adm_codelKC112_2 a) + (adm_codelKC211 a)) * (adm_ginv12 a) + ((adm_codelKC113_2 a) + (adm_codelKC311 a)) * (adm_ginv13 a) + (adm_codelKC212_2 a) * (adm_ginv22 a) + ((adm_codelKC213_2 a) + (adm_codelKC312_2 a)) * (adm_ginv23 a) + (adm_codelKC313_2 a) * (adm_ginv33 a). (* ADMconstraints.c:2973-2978 *)
Definition adm_cdKdC2 (a : adm_in) : R := (adm_codelKC112_2 a) * (adm_ginv11 a) + ((adm_codelKC122 a) + (adm_codelKC212_2 a)) * (adm_ginv12 a) + ((adm_codelKC123_2 a) + (adm_codelKC312_2 a)) * (adm_ginv13 a) + (adm_codelKC222 a) * (adm_ginv22 a) + ((adm_codelKC223_2 a) + (adm_codelKC322 a)) * (adm_ginv23 a) + (adm_codelKC323_2 a) * (adm_ginv33 a). (* ADMconstraints.c:2980-2985 *)
Definition adm_cdKdC3 (a : adm_in) : R := (adm_codelKC113_2 a) * (adm_ginv11 a) + ((adm_codelKC123_2 a) + (adm_codelKC213_2 a)) * (adm_ginv12 a) + ((adm_codelKC133 a) + (adm_codelKC313_2 a)) * (adm_ginv13 a) + (adm_codelKC223_2 a) * (adm_ginv22 a) + ((adm_codelKC233 a) + (adm_codelKC323_2 a)) * (adm_ginv23 a) + (adm_codelKC333 a) * (adm_ginv33 a). (* ADMconstraints.c:2987-2992 *)
Definition adm_codelTrKA1 (a : adm_in) : R := (adm_codelKA111 a) * (adm_ginv11 a) + (adm_codelKA122 a) * (adm_ginv22 a) + 2 * ((adm_codelKA112 a) * (adm_ginv12 a) + (adm_codelKA113 a) * (adm_ginv13 a) + (adm_codelKA123 a) * (adm_ginv23 a)) + (adm_codelKA133 a) * (adm_ginv33 a). (* ADMconstraints.c:2994-2999 *)
Definition adm_codelTrKA2 (a : adm_in) : R := (adm_codelKA211 a) * (adm_ginv11 a) + (adm_codelKA222 a) * (adm_ginv22 a) + 2 * ((adm_codelKA212 a) * (adm_ginv12 a) + (adm_codelKA213 a) * (adm_ginv13 a) + (adm_codelKA223 a) * (adm_ginv23 a)) + (adm_codelKA233 a) * (adm_ginv33 a). (* ADMconstraints.c:3001-3006 *)
Definition adm_codelTrKA3 (a : adm_in) : R := (adm_codelKA311 a) * (adm_ginv11 a) + (adm_codelKA322 a) * (adm_ginv22 a) + 2 * ((adm_codelKA312 a) * (adm_ginv12 a) + (adm_codelKA313 a) * (adm_ginv13 a) + (adm_codelKA323 a) * (adm_ginv23 a)) + (adm_codelKA333 a) * (adm_ginv33 a). (* ADMconstraints.c:3008-3013 *)
Definition adm_codelTrKB1 (a : adm_in) : R := (adm_codelKB111 a) * (adm_ginv11 a) + (adm_codelKB122 a) * (adm_ginv22 a) + 2 * ((adm_codelKB112_2 a) * (adm_ginv12 a) + (adm_codelKB113_2 a) * (adm_ginv13 a) + (adm_codelKB123_2 a) * (adm_ginv23 a)) + (adm_codelKB133 a) * (adm_ginv33 a). (* ADMconstraints.c:3015-3020 *)
Definition adm_codelTrKB2 (a : adm_in) : R := (adm_codelKB211 a) * (adm_ginv11 a) + (adm_codelKB222 a) * (adm_ginv22 a) + 2 * ((adm_codelKB212_2 a) * (adm_ginv12 a) + (adm_codelKB213_2 a) * (adm_ginv13 a) + (adm_codelKB223_2 a) * (adm_ginv23 a)) + (adm_codelKB233 a) * (adm_ginv33 a). (* ADMconstraints.c:3022-3027 *)
Definition adm_codelTrKB3 (a : adm_in) : R := (adm_codelKB311 a) * (adm_ginv11 a) + (adm_codelKB322 a) * (adm_ginv22 a) + 2 * ((adm_codelKB312_2 a) * (adm_ginv12 a) + (adm_codelKB313_2 a) * (adm_ginv13 a) + (adm_codelKB323_2 a) * (adm_ginv23 a)) + (adm_codelKB333 a) * (adm_ginv33 a). (* ADMconstraints.c:3029-3034 *)
Definition adm_codelTrKC1 (a : adm_in) : R := (adm_codelKC111 a) * (adm_ginv11 a) + (adm_codelKC122 a) * (adm_ginv22 a) + 2 * ((adm_codelKC112_2 a) * (adm_ginv12 a) + (adm_codelKC113_2 a) * (adm_ginv13 a) + (adm_codelKC123_2 a) * (adm_ginv23 a)) + (adm_codelKC133 a) * (adm_ginv33 a). (* ADMconstraints.c:3036-3041 *)
Definition adm_codelTrKC2 (a : adm_in) : R := (adm_codelKC211 a) * (adm_ginv11 a) + (adm_codelKC222 a) * (adm_ginv22 a) + 2 * ((adm_codelKC212_2 a) * (adm_ginv12 a) + (adm_codelKC213_2 a) * (adm_ginv13 a) + (adm_codelKC223_2 a) * (adm_ginv23 a)) + (adm_codelKC233 a) * (adm_ginv33 a). (* ADMconstraints.c:3043-3048 *)
Definition adm_codelTrKC3 (a : adm_in) : R := (adm_codelKC311 a) * (adm_ginv11 a) + (adm_codelKC322 a) * (adm_ginv22 a) + 2 * ((adm_codelKC312_2 a) * (adm_ginv12 a) + (adm_codelKC313_2 a) * (adm_ginv13 a) + (adm_codelKC323_2 a) * (adm_ginv23 a)) + (adm_codelKC333 a) * (adm_ginv33 a). (* ADMconstraints.c:3050-3055 *)
Definition adm_denom1 (a : adm_in) : R := Rabs ((adm_cdKdA1 a)) + Rabs ((adm_cdKdB1 a)) + Rabs ((adm_cdKdC1 a)) + Rabs ((adm_codelTrKA1 a)) + Rabs ((adm_codelTrKB1 a)) + Rabs ((adm_codelTrKC1 a)) + Rabs ((adm_momrhs1_3 a)). (* ADMconstraints.c:3057-3061 *)
Definition adm_denom2 (a : adm_in) : R := Rabs ((adm_cdKdA2 a)) + Rabs ((adm_cdKdB2 a)) + Rabs ((adm_cdKdC2 a)) + Rabs ((adm_codelTrKA2 a)) + Rabs ((adm_codelTrKB2 a)) + Rabs ((adm_codelTrKC2 a)) + Rabs ((adm_momrhs2_3 a)). (* ADMconstraints.c:3063-3067 *)
Definition adm_denom3 (a : adm_in) : R := Rabs ((adm_cdKdA3 a)) + Rabs ((adm_cdKdB3 a)) + Rabs ((adm_cdKdC3 a)) + Rabs ((adm_codelTrKA3 a)) + Rabs ((adm_codelTrKB3 a)) + Rabs ((adm_codelTrKC3 a)) + Rabs ((adm_momrhs3_3 a)). (* ADMconstraints.c:3069-3073 *)
Definition adm_denom1_2 (a : adm_in) : R := Rabs ((adm_cdKudd111 a) + (adm_cdKudd212 a) + (adm_cdKudd313 a)) + Rabs ((adm_codelK111 a) * (adm_ginv11 a) + (adm_codelK122 a) * (adm_ginv22 a) + 2 * ((adm_codelK112 a) * (adm_ginv12 a) + (adm_codelK113 a) * (adm_ginv13 a) + (adm_codelK123 a) * (adm_ginv23 a)) + (adm_codelK133 a) * (adm_ginv33 a)) + Rabs ((adm_momrhs1_3 a)). (* ADMconstraints.c:3078-3084 *)
Definition adm_denom2_2 (a : adm_in) : R := Rabs ((adm_cdKudd112 a) + (adm_cdKudd222 a) + (adm_cdKudd323 a)) + Rabs ((adm_codelK211 a) * (adm_ginv11 a) + (adm_codelK222 a) * (adm_ginv22 a) + 2 * ((adm_codelK212 a) * (adm_ginv12 a) + (adm_codelK213 a) * (adm_ginv13 a) + (adm_codelK223 a) * (adm_ginv23 a)) + (adm_codelK233 a) * (adm_ginv33 a)) + Rabs ((adm_momrhs2_3 a)). (* ADMconstraints.c:3086-3092 *)
Definition adm_denom3_2 (a : adm_in) : R := Rabs ((adm_cdKudd113 a) + (adm_cdKudd223 a) + (adm_cdKudd333 a)) + Rabs ((adm_codelK311 a) * (adm_ginv11 a) + (adm_codelK322 a) * (adm_ginv22 a) + 2 * ((adm_codelK312 a) * (adm_ginv12 a) + (adm_codelK313 a) * (adm_ginv13 a) + (adm_codelK323 a) * (adm_ginv23 a)) + (adm_codelK333 a) * (adm_ginv33 a)) + Rabs ((adm_momrhs3_3 a)). (* ADMconstraints.c:3094-3100 *)
Definition adm_denom1_3 (a : adm_in) : R := if a_term a then adm_denom1 a else adm_denom1_2 a. (* ADMconstraints.c:2569 *)
Definition adm_denom2_3 (a : adm_in) : R := if a_term a then adm_denom2 a else adm_denom2_2 a. (* ADMconstraints.c:2569 *)
Definition adm_denom3_3 (a : adm_in) : R := if a_term a then adm_denom3 a else adm_denom3_2 a. (* ADMconstraints.c:2569 *)
Definition adm_denom_4 (a : adm_in) : R := (adm_denom1_3 a) + (adm_denom2_3 a) + (adm_denom3_3 a). (* ADMconstraints.c:3106-3109 *)
Definition adm_normmom1 (a : adm_in) : R := (if Rle_dec ((adm_denom_4 a)) (0) then 0 else (adm_mom1 a) / (adm_denom_4 a)). (* ADMconstraints.c:3111-3114 *)
Definition adm_normmom2 (a : adm_in) : R := (if Rle_dec ((adm_denom_4 a)) (0) then 0 else (adm_mom2 a) / (adm_denom_4 a)). (* ADMconstraints.c:3116-3119 *)
Definition adm_normmom3 (a : adm_in) : R := (if Rle_dec ((adm_denom_4 a)) (0) then 0 else (adm_mom3 a) / (adm_denom_4 a)). (* ADMconstraints.c:3121-3124 *)
