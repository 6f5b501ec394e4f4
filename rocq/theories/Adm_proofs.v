(** From the generated assignments of ADMconstraints.c to formulas with indices. *)
From Verif Require Import Rutil Coord_model Coord_spec Adm_model Adm_spec.
Local Open Scope R_scope.
(** ** the scalar variables of the code as tensors *)
Definition v_delg0 (a : adm_in) (i j k : d3) : R := match i, j, k with D1, D1, D1 => adm_delg111 a | D1, D1, D2 => adm_delg112 a | D1, D1, D3 => adm_delg113 a | D1, D2, D1 => adm_delg112 a | D1, D2, D2 => adm_delg122 a | D1, D2, D3 => adm_delg123 a | D1, D3, D1 => adm_delg113 a | D1, D3, D2 => adm_delg123 a | D1, D3, D3 => adm_delg133 a | D2, D1, D1 => adm_delg211 a | D2, D1, D2 => adm_delg212 a | D2, D1, D3 => adm_delg213 a | D2, D2, D1 => adm_delg212 a | D2, D2, D2 => adm_delg222 a | D2, D2, D3 => adm_delg223 a | D2, D3, D1 => adm_delg213 a | D2, D3, D2 => adm_delg223 a | D2, D3, D3 => adm_delg233 a | D3, D1, D1 => adm_delg311 a | D3, D1, D2 => adm_delg312 a | D3, D1, D3 => adm_delg313 a | D3, D2, D1 => adm_delg312 a | D3, D2, D2 => adm_delg322 a | D3, D2, D3 => adm_delg323 a | D3, D3, D1 => adm_delg313 a | D3, D3, D2 => adm_delg323 a | D3, D3, D3 => adm_delg333 a end.
Ltac u_v_delg0 := cbv beta iota delta [v_delg0 adm_delg111 adm_delg112 adm_delg113 adm_delg122 adm_delg123 adm_delg133 adm_delg211 adm_delg212 adm_delg213 adm_delg222 adm_delg223 adm_delg233 adm_delg311 adm_delg312 adm_delg313 adm_delg322 adm_delg323 adm_delg333].
Definition v_ddg0 (a : adm_in) (i j k l : d3) : R := match i, j, k, l with D1, D1, D1, D1 => adm_deldelg1111 a | D1, D1, D1, D2 => adm_deldelg1112 a | D1, D1, D1, D3 => adm_deldelg1113 a | D1, D1, D2, D1 => adm_deldelg1112 a | D1, D1, D2, D2 => adm_deldelg1122 a | D1, D1, D2, D3 => adm_deldelg1123 a | D1, D1, D3, D1 => adm_deldelg1113 a | D1, D1, D3, D2 => adm_deldelg1123 a | D1, D1, D3, D3 => adm_deldelg1133 a | D1, D2, D1, D1 => adm_deldelg1211 a | D1, D2, D1, D2 => adm_deldelg1212 a | D1, D2, D1, D3 => adm_deldelg1213 a | D1, D2, D2, D1 => adm_deldelg1212 a | D1, D2, D2, D2 => adm_deldelg1222 a | D1, D2, D2, D3 => adm_deldelg1223 a | D1, D2, D3, D1 => adm_deldelg1213 a | D1, D2, D3, D2 => adm_deldelg1223 a | D1, D2, D3, D3 => adm_deldelg1233 a | D1, D3, D1, D1 => adm_deldelg1311 a | D1, D3, D1, D2 => adm_deldelg1312 a | D1, D3, D1, D3 => adm_deldelg1313 a | D1, D3, D2, D1 => adm_deldelg1312 a | D1, D3, D2, D2 => adm_deldelg1322 a | D1, D3, D2, D3 => adm_deldelg1323 a | D1, D3, D3, D1 => adm_deldelg1313 a | D1, D3, D3, D2 => adm_deldelg1323 a | D1, D3, D3, D3 => adm_deldelg1333 a | D2, D1, D1, D1 => adm_deldelg1211 a | D2, D1, D1, D2 => adm_deldelg1212 a | D2, D1, D1, D3 => adm_deldelg1213 a | D2, D1, D2, D1 => adm_deldelg1212 a | D2, D1, D2, D2 => adm_deldelg1222 a | D2, D1, D2, D3 => adm_deldelg1223 a | D2, D1, D3, D1 => adm_deldelg1213 a | D2, D1, D3, D2 => adm_deldelg1223 a | D2, D1, D3, D3 => adm_deldelg1233 a | D2, D2, D1, D1 => adm_deldelg2211 a | D2, D2, D1, D2 => adm_deldelg2212 a | D2, D2, D1, D3 => adm_deldelg2213 a | D2, D2, D2, D1 => adm_deldelg2212 a | D2, D2, D2, D2 => adm_deldelg2222 a | D2, D2, D2, D3 => adm_deldelg2223 a | D2, D2, D3, D1 => adm_deldelg2213 a | D2, D2, D3, D2 => adm_deldelg2223 a | D2, D2, D3, D3 => adm_deldelg2233 a | D2, D3, D1, D1 => adm_deldelg2311 a | D2, D3, D1, D2 => adm_deldelg2312 a | D2, D3, D1, D3 => adm_deldelg2313 a | D2, D3, D2, D1 => adm_deldelg2312 a | D2, D3, D2, D2 => adm_deldelg2322 a | D2, D3, D2, D3 => adm_deldelg2323 a | D2, D3, D3, D1 => adm_deldelg2313 a | D2, D3, D3, D2 => adm_deldelg2323 a | D2, D3, D3, D3 => adm_deldelg2333 a | D3, D1, D1, D1 => adm_deldelg1311 a | D3, D1, D1, D2 => adm_deldelg1312 a | D3, D1, D1, D3 => adm_deldelg1313 a | D3, D1, D2, D1 => adm_deldelg1312 a | D3, D1, D2, D2 => adm_deldelg1322 a | D3, D1, D2, D3 => adm_deldelg1323 a | D3, D1, D3, D1 => adm_deldelg1313 a | D3, D1, D3, D2 => adm_deldelg1323 a | D3, D1, D3, D3 => adm_deldelg1333 a | D3, D2, D1, D1 => adm_deldelg2311 a | D3, D2, D1, D2 => adm_deldelg2312 a | D3, D2, D1, D3 => adm_deldelg2313 a | D3, D2, D2, D1 => adm_deldelg2312 a | D3, D2, D2, D2 => adm_deldelg2322 a | D3, D2, D2, D3 => adm_deldelg2323 a | D3, D2, D3, D1 => adm_deldelg2313 a | D3, D2, D3, D2 => adm_deldelg2323 a | D3, D2, D3, D3 => adm_deldelg2333 a | D3, D3, D1, D1 => adm_deldelg3311 a | D3, D3, D1, D2 => adm_deldelg3312 a | D3, D3, D1, D3 => adm_deldelg3313 a | D3, D3, D2, D1 => adm_deldelg3312 a | D3, D3, D2, D2 => adm_deldelg3322 a | D3, D3, D2, D3 => adm_deldelg3323 a | D3, D3, D3, D1 => adm_deldelg3313 a | D3, D3, D3, D2 => adm_deldelg3323 a | D3, D3, D3, D3 => adm_deldelg3333 a end.
Ltac u_v_ddg0 := cbv beta iota delta [v_ddg0 adm_deldelg1111 adm_deldelg1112 adm_deldelg1113 adm_deldelg1122 adm_deldelg1123 adm_deldelg1133 adm_deldelg1211 adm_deldelg1212 adm_deldelg1213 adm_deldelg1222 adm_deldelg1223 adm_deldelg1233 adm_deldelg1311 adm_deldelg1312 adm_deldelg1313 adm_deldelg1322 adm_deldelg1323 adm_deldelg1333 adm_deldelg2211 adm_deldelg2212 adm_deldelg2213 adm_deldelg2222 adm_deldelg2223 adm_deldelg2233 adm_deldelg2311 adm_deldelg2312 adm_deldelg2313 adm_deldelg2322 adm_deldelg2323 adm_deldelg2333 adm_deldelg3311 adm_deldelg3312 adm_deldelg3313 adm_deldelg3322 adm_deldelg3323 adm_deldelg3333].
Definition v_delf (a : adm_in) (i : d3) : R := match i with D1 => adm_delf1 a | D2 => adm_delf2 a | D3 => adm_delf3 a end.
Ltac u_v_delf := cbv beta iota delta [v_delf adm_delf1 adm_delf2 adm_delf3].
Definition v_ddf (a : adm_in) (i j : d3) : R := match i, j with D1, D1 => adm_deldelf11 a | D1, D2 => adm_deldelf12 a | D1, D3 => adm_deldelf13 a | D2, D1 => adm_deldelf12 a | D2, D2 => adm_deldelf22 a | D2, D3 => adm_deldelf23 a | D3, D1 => adm_deldelf13 a | D3, D2 => adm_deldelf23 a | D3, D3 => adm_deldelf33 a end.
Ltac u_v_ddf := cbv beta iota delta [v_ddf adm_deldelf11 adm_deldelf12 adm_deldelf13 adm_deldelf22 adm_deldelf23 adm_deldelf33].
Definition v_ddg (a : adm_in) (i j k l : d3) : R := match i, j, k, l with D1, D1, D1, D1 => adm_deldelg1111_2 a | D1, D1, D1, D2 => adm_deldelg1112_2 a | D1, D1, D1, D3 => adm_deldelg1113_2 a | D1, D1, D2, D1 => adm_deldelg1112_2 a | D1, D1, D2, D2 => adm_deldelg1122_2 a | D1, D1, D2, D3 => adm_deldelg1123_2 a | D1, D1, D3, D1 => adm_deldelg1113_2 a | D1, D1, D3, D2 => adm_deldelg1123_2 a | D1, D1, D3, D3 => adm_deldelg1133_2 a | D1, D2, D1, D1 => adm_deldelg1211_2 a | D1, D2, D1, D2 => adm_deldelg1212_2 a | D1, D2, D1, D3 => adm_deldelg1213_2 a | D1, D2, D2, D1 => adm_deldelg1212_2 a | D1, D2, D2, D2 => adm_deldelg1222_2 a | D1, D2, D2, D3 => adm_deldelg1223_2 a | D1, D2, D3, D1 => adm_deldelg1213_2 a | D1, D2, D3, D2 => adm_deldelg1223_2 a | D1, D2, D3, D3 => adm_deldelg1233_2 a | D1, D3, D1, D1 => adm_deldelg1311_2 a | D1, D3, D1, D2 => adm_deldelg1312_2 a | D1, D3, D1, D3 => adm_deldelg1313_2 a | D1, D3, D2, D1 => adm_deldelg1312_2 a | D1, D3, D2, D2 => adm_deldelg1322_2 a | D1, D3, D2, D3 => adm_deldelg1323_2 a | D1, D3, D3, D1 => adm_deldelg1313_2 a | D1, D3, D3, D2 => adm_deldelg1323_2 a | D1, D3, D3, D3 => adm_deldelg1333_2 a | D2, D1, D1, D1 => adm_deldelg1211_2 a | D2, D1, D1, D2 => adm_deldelg1212_2 a | D2, D1, D1, D3 => adm_deldelg1213_2 a | D2, D1, D2, D1 => adm_deldelg1212_2 a | D2, D1, D2, D2 => adm_deldelg1222_2 a | D2, D1, D2, D3 => adm_deldelg1223_2 a | D2, D1, D3, D1 => adm_deldelg1213_2 a | D2, D1, D3, D2 => adm_deldelg1223_2 a | D2, D1, D3, D3 => adm_deldelg1233_2 a | D2, D2, D1, D1 => adm_deldelg2211_2 a | D2, D2, D1, D2 => adm_deldelg2212_2 a | D2, D2, D1, D3 => adm_deldelg2213_2 a | D2, D2, D2, D1 => adm_deldelg2212_2 a | D2, D2, D2, D2 => adm_deldelg2222_2 a | D2, D2, D2, D3 => adm_deldelg2223_2 a | D2, D2, D3, D1 => adm_deldelg2213_2 a | D2, D2, D3, D2 => adm_deldelg2223_2 a | D2, D2, D3, D3 => adm_deldelg2233_2 a | D2, D3, D1, D1 => adm_deldelg2311_2 a | D2, D3, D1, D2 => adm_deldelg2312_2 a | D2, D3, D1, D3 => adm_deldelg2313_2 a | D2, D3, D2, D1 => adm_deldelg2312_2 a | D2, D3, D2, D2 => adm_deldelg2322_2 a | D2, D3, D2, D3 => adm_deldelg2323_2 a | D2, D3, D3, D1 => adm_deldelg2313_2 a | D2, D3, D3, D2 => adm_deldelg2323_2 a | D2, D3, D3, D3 => adm_deldelg2333_2 a | D3, D1, D1, D1 => adm_deldelg1311_2 a | D3, D1, D1, D2 => adm_deldelg1312_2 a | D3, D1, D1, D3 => adm_deldelg1313_2 a | D3, D1, D2, D1 => adm_deldelg1312_2 a | D3, D1, D2, D2 => adm_deldelg1322_2 a | D3, D1, D2, D3 => adm_deldelg1323_2 a | D3, D1, D3, D1 => adm_deldelg1313_2 a | D3, D1, D3, D2 => adm_deldelg1323_2 a | D3, D1, D3, D3 => adm_deldelg1333_2 a | D3, D2, D1, D1 => adm_deldelg2311_2 a | D3, D2, D1, D2 => adm_deldelg2312_2 a | D3, D2, D1, D3 => adm_deldelg2313_2 a | D3, D2, D2, D1 => adm_deldelg2312_2 a | D3, D2, D2, D2 => adm_deldelg2322_2 a | D3, D2, D2, D3 => adm_deldelg2323_2 a | D3, D2, D3, D1 => adm_deldelg2313_2 a | D3, D2, D3, D2 => adm_deldelg2323_2 a | D3, D2, D3, D3 => adm_deldelg2333_2 a | D3, D3, D1, D1 => adm_deldelg3311_2 a | D3, D3, D1, D2 => adm_deldelg3312_2 a | D3, D3, D1, D3 => adm_deldelg3313_2 a | D3, D3, D2, D1 => adm_deldelg3312_2 a | D3, D3, D2, D2 => adm_deldelg3322_2 a | D3, D3, D2, D3 => adm_deldelg3323_2 a | D3, D3, D3, D1 => adm_deldelg3313_2 a | D3, D3, D3, D2 => adm_deldelg3323_2 a | D3, D3, D3, D3 => adm_deldelg3333_2 a end.
Ltac u_v_ddg := cbv beta iota delta [v_ddg adm_deldelg1111_2 adm_deldelg1112_2 adm_deldelg1113_2 adm_deldelg1122_2 adm_deldelg1123_2 adm_deldelg1133_2 adm_deldelg1211_2 adm_deldelg1212_2 adm_deldelg1213_2 adm_deldelg1222_2 adm_deldelg1223_2 adm_deldelg1233_2 adm_deldelg1311_2 adm_deldelg1312_2 adm_deldelg1313_2 adm_deldelg1322_2 adm_deldelg1323_2 adm_deldelg1333_2 adm_deldelg2211_2 adm_deldelg2212_2 adm_deldelg2213_2 adm_deldelg2222_2 adm_deldelg2223_2 adm_deldelg2233_2 adm_deldelg2311_2 adm_deldelg2312_2 adm_deldelg2313_2 adm_deldelg2322_2 adm_deldelg2323_2 adm_deldelg2333_2 adm_deldelg3311_2 adm_deldelg3312_2 adm_deldelg3313_2 adm_deldelg3322_2 adm_deldelg3323_2 adm_deldelg3333_2].
Definition v_dg (a : adm_in) (i j k : d3) : R := match i, j, k with D1, D1, D1 => adm_delg111_2 a | D1, D1, D2 => adm_delg112_2 a | D1, D1, D3 => adm_delg113_2 a | D1, D2, D1 => adm_delg112_2 a | D1, D2, D2 => adm_delg122_2 a | D1, D2, D3 => adm_delg123_2 a | D1, D3, D1 => adm_delg113_2 a | D1, D3, D2 => adm_delg123_2 a | D1, D3, D3 => adm_delg133_2 a | D2, D1, D1 => adm_delg211_2 a | D2, D1, D2 => adm_delg212_2 a | D2, D1, D3 => adm_delg213_2 a | D2, D2, D1 => adm_delg212_2 a | D2, D2, D2 => adm_delg222_2 a | D2, D2, D3 => adm_delg223_2 a | D2, D3, D1 => adm_delg213_2 a | D2, D3, D2 => adm_delg223_2 a | D2, D3, D3 => adm_delg233_2 a | D3, D1, D1 => adm_delg311_2 a | D3, D1, D2 => adm_delg312_2 a | D3, D1, D3 => adm_delg313_2 a | D3, D2, D1 => adm_delg312_2 a | D3, D2, D2 => adm_delg322_2 a | D3, D2, D3 => adm_delg323_2 a | D3, D3, D1 => adm_delg313_2 a | D3, D3, D2 => adm_delg323_2 a | D3, D3, D3 => adm_delg333_2 a end.
Ltac u_v_dg := cbv beta iota delta [v_dg adm_delg111_2 adm_delg112_2 adm_delg113_2 adm_delg122_2 adm_delg123_2 adm_delg133_2 adm_delg211_2 adm_delg212_2 adm_delg213_2 adm_delg222_2 adm_delg223_2 adm_delg233_2 adm_delg311_2 adm_delg312_2 adm_delg313_2 adm_delg322_2 adm_delg323_2 adm_delg333_2].
Definition v_ginv (a : adm_in) (i j : d3) : R := match i, j with D1, D1 => adm_ginv11 a | D1, D2 => adm_ginv12 a | D1, D3 => adm_ginv13 a | D2, D1 => adm_ginv12 a | D2, D2 => adm_ginv22 a | D2, D3 => adm_ginv23 a | D3, D1 => adm_ginv13 a | D3, D2 => adm_ginv23 a | D3, D3 => adm_ginv33 a end.
Ltac u_v_ginv := cbv beta iota delta [v_ginv adm_ginv11 adm_ginv12 adm_ginv13 adm_ginv22 adm_ginv23 adm_ginv33].
Definition v_gd (a : adm_in) (i j k : d3) : R := match i, j, k with D1, D1, D1 => adm_gammado111 a | D1, D1, D2 => adm_gammado112 a | D1, D1, D3 => adm_gammado113 a | D1, D2, D1 => adm_gammado121 a | D1, D2, D2 => adm_gammado122 a | D1, D2, D3 => adm_gammado123 a | D1, D3, D1 => adm_gammado131 a | D1, D3, D2 => adm_gammado132 a | D1, D3, D3 => adm_gammado133 a | D2, D1, D1 => adm_gammado211 a | D2, D1, D2 => adm_gammado212 a | D2, D1, D3 => adm_gammado213 a | D2, D2, D1 => adm_gammado221 a | D2, D2, D2 => adm_gammado222 a | D2, D2, D3 => adm_gammado223 a | D2, D3, D1 => adm_gammado231 a | D2, D3, D2 => adm_gammado232 a | D2, D3, D3 => adm_gammado233 a | D3, D1, D1 => adm_gammado311 a | D3, D1, D2 => adm_gammado312 a | D3, D1, D3 => adm_gammado313 a | D3, D2, D1 => adm_gammado321 a | D3, D2, D2 => adm_gammado322 a | D3, D2, D3 => adm_gammado323 a | D3, D3, D1 => adm_gammado331 a | D3, D3, D2 => adm_gammado332 a | D3, D3, D3 => adm_gammado333 a end.
Ltac u_v_gd := cbv beta iota delta [v_gd adm_gammado111 adm_gammado112 adm_gammado113 adm_gammado121 adm_gammado122 adm_gammado123 adm_gammado131 adm_gammado132 adm_gammado133 adm_gammado211 adm_gammado212 adm_gammado213 adm_gammado221 adm_gammado222 adm_gammado223 adm_gammado231 adm_gammado232 adm_gammado233 adm_gammado311 adm_gammado312 adm_gammado313 adm_gammado321 adm_gammado322 adm_gammado323 adm_gammado331 adm_gammado332 adm_gammado333].
Definition v_ga (a : adm_in) (i j k : d3) : R := match i, j, k with D1, D1, D1 => adm_gamma111 a | D1, D1, D2 => adm_gamma112 a | D1, D1, D3 => adm_gamma113 a | D1, D2, D1 => adm_gamma121 a | D1, D2, D2 => adm_gamma122 a | D1, D2, D3 => adm_gamma123 a | D1, D3, D1 => adm_gamma131 a | D1, D3, D2 => adm_gamma132 a | D1, D3, D3 => adm_gamma133 a | D2, D1, D1 => adm_gamma211 a | D2, D1, D2 => adm_gamma212 a | D2, D1, D3 => adm_gamma213 a | D2, D2, D1 => adm_gamma221 a | D2, D2, D2 => adm_gamma222 a | D2, D2, D3 => adm_gamma223 a | D2, D3, D1 => adm_gamma231 a | D2, D3, D2 => adm_gamma232 a | D2, D3, D3 => adm_gamma233 a | D3, D1, D1 => adm_gamma311 a | D3, D1, D2 => adm_gamma312 a | D3, D1, D3 => adm_gamma313 a | D3, D2, D1 => adm_gamma321 a | D3, D2, D2 => adm_gamma322 a | D3, D2, D3 => adm_gamma323 a | D3, D3, D1 => adm_gamma331 a | D3, D3, D2 => adm_gamma332 a | D3, D3, D3 => adm_gamma333 a end.
Ltac u_v_ga := cbv beta iota delta [v_ga adm_gamma111 adm_gamma112 adm_gamma113 adm_gamma121 adm_gamma122 adm_gamma123 adm_gamma131 adm_gamma132 adm_gamma133 adm_gamma211 adm_gamma212 adm_gamma213 adm_gamma221 adm_gamma222 adm_gamma223 adm_gamma231 adm_gamma232 adm_gamma233 adm_gamma311 adm_gamma312 adm_gamma313 adm_gamma321 adm_gamma322 adm_gamma323 adm_gamma331 adm_gamma332 adm_gamma333].
Definition v_g (a : adm_in) (i j : d3) : R := match i, j with D1, D1 => adm_g11 a | D1, D2 => adm_g12 a | D1, D3 => adm_g13 a | D2, D1 => adm_g12 a | D2, D2 => adm_g22 a | D2, D3 => adm_g23 a | D3, D1 => adm_g13 a | D3, D2 => adm_g23 a | D3, D3 => adm_g33 a end.
Ltac u_v_g := cbv beta iota delta [v_g adm_g11 adm_g12 adm_g13 adm_g22 adm_g23 adm_g33].
Definition v_K (a : adm_in) (i j : d3) : R := match i, j with D1, D1 => adm_K11 a | D1, D2 => adm_K12 a | D1, D3 => adm_K13 a | D2, D1 => adm_K12 a | D2, D2 => adm_K22 a | D2, D3 => adm_K23 a | D3, D1 => adm_K13 a | D3, D2 => adm_K23 a | D3, D3 => adm_K33 a end.
Ltac u_v_K := cbv beta iota delta [v_K adm_K11 adm_K12 adm_K13 adm_K22 adm_K23 adm_K33].
Definition v_Kud (a : adm_in) (i j : d3) : R := match i, j with D1, D1 => adm_Kud11 a | D1, D2 => adm_Kud12 a | D1, D3 => adm_Kud13 a | D2, D1 => adm_Kud21 a | D2, D2 => adm_Kud22 a | D2, D3 => adm_Kud23 a | D3, D1 => adm_Kud31 a | D3, D2 => adm_Kud32 a | D3, D3 => adm_Kud33 a end.
Ltac u_v_Kud := cbv beta iota delta [v_Kud adm_Kud11 adm_Kud12 adm_Kud13 adm_Kud21 adm_Kud22 adm_Kud23 adm_Kud31 adm_Kud32 adm_Kud33].
Definition v_delK (a : adm_in) (i j k : d3) : R := match i, j, k with D1, D1, D1 => adm_delK111 a | D1, D1, D2 => adm_delK112 a | D1, D1, D3 => adm_delK113 a | D1, D2, D1 => adm_delK112 a | D1, D2, D2 => adm_delK122 a | D1, D2, D3 => adm_delK123 a | D1, D3, D1 => adm_delK113 a | D1, D3, D2 => adm_delK123 a | D1, D3, D3 => adm_delK133 a | D2, D1, D1 => adm_delK211 a | D2, D1, D2 => adm_delK212 a | D2, D1, D3 => adm_delK213 a | D2, D2, D1 => adm_delK212 a | D2, D2, D2 => adm_delK222 a | D2, D2, D3 => adm_delK223 a | D2, D3, D1 => adm_delK213 a | D2, D3, D2 => adm_delK223 a | D2, D3, D3 => adm_delK233 a | D3, D1, D1 => adm_delK311 a | D3, D1, D2 => adm_delK312 a | D3, D1, D3 => adm_delK313 a | D3, D2, D1 => adm_delK312 a | D3, D2, D2 => adm_delK322 a | D3, D2, D3 => adm_delK323 a | D3, D3, D1 => adm_delK313 a | D3, D3, D2 => adm_delK323 a | D3, D3, D3 => adm_delK333 a end.
Ltac u_v_delK := cbv beta iota delta [v_delK adm_delK111 adm_delK112 adm_delK113 adm_delK122 adm_delK123 adm_delK133 adm_delK211 adm_delK212 adm_delK213 adm_delK222 adm_delK223 adm_delK233 adm_delK311 adm_delK312 adm_delK313 adm_delK322 adm_delK323 adm_delK333].
Definition v_cK (a : adm_in) (i j k : d3) : R := match i, j, k with D1, D1, D1 => adm_codelK111 a | D1, D1, D2 => adm_codelK112 a | D1, D1, D3 => adm_codelK113 a | D1, D2, D1 => adm_codelK112 a | D1, D2, D2 => adm_codelK122 a | D1, D2, D3 => adm_codelK123 a | D1, D3, D1 => adm_codelK113 a | D1, D3, D2 => adm_codelK123 a | D1, D3, D3 => adm_codelK133 a | D2, D1, D1 => adm_codelK211 a | D2, D1, D2 => adm_codelK212 a | D2, D1, D3 => adm_codelK213 a | D2, D2, D1 => adm_codelK212 a | D2, D2, D2 => adm_codelK222 a | D2, D2, D3 => adm_codelK223 a | D2, D3, D1 => adm_codelK213 a | D2, D3, D2 => adm_codelK223 a | D2, D3, D3 => adm_codelK233 a | D3, D1, D1 => adm_codelK311 a | D3, D1, D2 => adm_codelK312 a | D3, D1, D3 => adm_codelK313 a | D3, D2, D1 => adm_codelK312 a | D3, D2, D2 => adm_codelK322 a | D3, D2, D3 => adm_codelK323 a | D3, D3, D1 => adm_codelK313 a | D3, D3, D2 => adm_codelK323 a | D3, D3, D3 => adm_codelK333 a end.
Ltac u_v_cK := cbv beta iota delta [v_cK adm_codelK111 adm_codelK112 adm_codelK113 adm_codelK122 adm_codelK123 adm_codelK133 adm_codelK211 adm_codelK212 adm_codelK213 adm_codelK222 adm_codelK223 adm_codelK233 adm_codelK311 adm_codelK312 adm_codelK313 adm_codelK322 adm_codelK323 adm_codelK333].
Definition v_cKu (a : adm_in) (i j k : d3) : R := match i, j, k with D1, D1, D1 => adm_cdKudd111 a | D1, D1, D2 => adm_cdKudd112 a | D1, D1, D3 => adm_cdKudd113 a | D1, D2, D1 => adm_cdKudd112 a | D1, D2, D2 => adm_cdKudd122 a | D1, D2, D3 => adm_cdKudd123 a | D1, D3, D1 => adm_cdKudd113 a | D1, D3, D2 => adm_cdKudd123 a | D1, D3, D3 => adm_cdKudd133 a | D2, D1, D1 => adm_cdKudd211 a | D2, D1, D2 => adm_cdKudd212 a | D2, D1, D3 => adm_cdKudd213 a | D2, D2, D1 => adm_cdKudd212 a | D2, D2, D2 => adm_cdKudd222 a | D2, D2, D3 => adm_cdKudd223 a | D2, D3, D1 => adm_cdKudd213 a | D2, D3, D2 => adm_cdKudd223 a | D2, D3, D3 => adm_cdKudd233 a | D3, D1, D1 => adm_cdKudd311 a | D3, D1, D2 => adm_cdKudd312 a | D3, D1, D3 => adm_cdKudd313 a | D3, D2, D1 => adm_cdKudd312 a | D3, D2, D2 => adm_cdKudd322 a | D3, D2, D3 => adm_cdKudd323 a | D3, D3, D1 => adm_cdKudd313 a | D3, D3, D2 => adm_cdKudd323 a | D3, D3, D3 => adm_cdKudd333 a end.
Ltac u_v_cKu := cbv beta iota delta [v_cKu adm_cdKudd111 adm_cdKudd112 adm_cdKudd113 adm_cdKudd122 adm_cdKudd123 adm_cdKudd133 adm_cdKudd211 adm_cdKudd212 adm_cdKudd213 adm_cdKudd222 adm_cdKudd223 adm_cdKudd233 adm_cdKudd311 adm_cdKudd312 adm_cdKudd313 adm_cdKudd322 adm_cdKudd323 adm_cdKudd333].
Definition v_momu (a : adm_in) (i : d3) : R := match i with D1 => adm_momu1 a | D2 => adm_momu2 a | D3 => adm_momu3 a end.
Ltac u_v_momu := cbv beta iota delta [v_momu adm_momu1 adm_momu2 adm_momu3].
Definition v_cdda (a : adm_in) (i j : d3) : R := match i, j with D1, D1 => adm_cdda11 a | D1, D2 => adm_cdda12 a | D1, D3 => adm_cdda13 a | D2, D1 => adm_cdda21 a | D2, D2 => adm_cdda22 a | D2, D3 => adm_cdda23 a | D3, D1 => adm_cdda31 a | D3, D2 => adm_cdda32 a | D3, D3 => adm_cdda33 a end.
Ltac u_v_cdda := cbv beta iota delta [v_cdda adm_cdda11 adm_cdda12 adm_cdda13 adm_cdda21 adm_cdda22 adm_cdda23 adm_cdda31 adm_cdda32 adm_cdda33].
Definition v_dtrK (a : adm_in) (i : d3) : R := match i with D1 => adm_dtrK1 a | D2 => adm_dtrK2 a | D3 => adm_dtrK3 a end.
Ltac u_v_dtrK := cbv beta iota delta [v_dtrK adm_dtrK1 adm_dtrK2 adm_dtrK3].
Definition v_mom (a : adm_in) (i : d3) : R := match i with D1 => adm_mom1 a | D2 => adm_mom2 a | D3 => adm_mom3 a end.
Ltac u_v_mom := cbv beta iota delta [v_mom adm_mom1 adm_mom2 adm_mom3].
Definition v_R (a : adm_in) (i j : d3) : R := match i, j with D1, D1 => adm_R11 a | D1, D2 | D2, D1 => adm_R12_2 a | D1, D3 | D3, D1 => adm_R13_2 a | D2, D2 => adm_R22 a | D2, D3 | D3, D2 => adm_R23_2 a | D3, D3 => adm_R33 a end.
Ltac u_v_R := cbv beta iota delta [v_R adm_R11 adm_R12_2 adm_R13_2 adm_R22 adm_R23_2 adm_R33].

Ltac idx := unfold SS, S3; cbv beta.
(** the inputs *)
Definition i_g (a : adm_in) (i j : d3) : R := a_u a (s6 i j).
Definition i_K (a : adm_in) (i j : d3) : R := a_u a (6 + s6 i j).
Definition i_dg (a : adm_in) (k i j : d3) : R := a_dg a (3 * s6 i j + n3 k).
Definition i_ddg (a : adm_in) (k l i j : d3) : R := a_ddg a (6 * s6 i j + s6 k l).
Definition i_dK (a : adm_in) (k i j : d3) : R := a_dK a (3 * s6 i j + n3 k).
Definition i_dpop (a : adm_in) (k : d3) : R := a_psi a (1 + n3 k).
Definition i_ddpop (a : adm_in) (k l : d3) : R := a_psi a (4 + s6 k l).
Lemma g_i a i j : v_g a i j = i_g a i j.
Proof. destruct i, j; reflexivity. Qed.
Lemma K_i a i j : v_K a i j = i_K a i j.
Proof. destruct i, j; reflexivity. Qed.
Lemma delg0_i a k i j : v_delg0 a k i j = i_dg a k i j.
Proof. destruct k, i, j; reflexivity. Qed.
Lemma ddg0_i a k l i j : v_ddg0 a k l i j = i_ddg a k l i j.
Proof. destruct k, l, i, j; reflexivity. Qed.
Lemma delK_i a k i j : v_delK a k i j = i_dK a k i j.
Proof. destruct k, i, j; reflexivity. Qed.
Lemma delf_i a k : v_delf a k = 4 * adm_f a * i_dpop a k.
Proof. destruct k; reflexivity. Qed.
Lemma ddf_i a k l : v_ddf a k l = adm_f a * (4 * i_ddpop a k l + 12 * (i_dpop a k * i_dpop a l)).
Proof. destruct k, l; u_v_ddf; unfold pow2, i_ddpop, i_dpop; cbn [n3 s6]; unfold adm_dpop1, adm_dpop2, adm_dpop3, adm_ddpop11, adm_ddpop12, adm_ddpop13, adm_ddpop22, adm_ddpop23, adm_ddpop33; cbn [Nat.add]; ring. Qed.
Lemma dg_i a k i j : v_dg a k i j = adm_f a * i_dg a k i j + v_delf a k * i_g a i j.
Proof. rewrite <- delg0_i, <- g_i. destruct k, i, j; cbv beta iota delta [v_delg0 v_delf v_g]; u_v_dg; ring. Qed.
Lemma ddg_i a k l i j : v_ddg a k l i j = adm_f a * i_ddg a k l i j + v_ddf a k l * i_g a i j + v_delf a k * i_dg a l i j + v_delf a l * i_dg a k i j.
Proof. rewrite <- ddg0_i, <- !delg0_i, <- g_i. destruct k, l, i, j; cbv beta iota delta [v_ddg0 v_ddf v_delg0 v_delf v_g]; u_v_ddg; ring. Qed.
Lemma gd_i a c i j : v_gd a c i j = 1 / 2 * (v_dg a i j c + v_dg a j i c - v_dg a c i j).
Proof. destruct c, i, j; cbv beta iota delta [v_dg]; u_v_gd; field. Qed.
Lemma ga_i a c i j : v_ga a c i j = S3 (fun d => v_ginv a c d * v_gd a d i j).
Proof. idx. destruct c, i, j; cbv beta iota delta [v_gd v_ginv]; u_v_ga; ring. Qed.
Lemma R_i a i j : (n3 j <= n3 i)%nat -> v_R a i j = SS (fun c d => v_ginv a c d * (1 / 2 * (v_ddg a i c j d + v_ddg a j c i d - v_ddg a c d i j - v_ddg a i j c d) + S3 (fun e => v_ga a e i c * v_gd a e j d - v_ga a e i j * v_gd a e c d))).
Proof. idx. destruct i, j; cbn [n3]; intros L; try (exfalso; lia); clear L; cbv beta iota delta [v_gd v_ginv v_ddg v_ga]; u_v_R; field. Qed.
Lemma Rs_i a : adm_R a = trace (v_ginv a) (v_R a).
Proof. unfold trace. idx. cbv beta iota delta [v_ginv v_R adm_R]. ring. Qed.
Lemma K_s a : adm_K a = trace (v_ginv a) (i_K a).
Proof. unfold trace. idx. rewrite <- !K_i. unfold adm_K. cbv beta iota delta [v_ginv v_K]. u_v_Kud. ring. Qed.
Lemma KK_s a : adm_KudKud a = square (v_ginv a) (i_K a).
Proof. unfold square. idx. rewrite <- !K_i. unfold adm_KudKud, pow2. cbv beta iota delta [v_ginv v_K]. u_v_Kud. ring. Qed.
Lemma gd_sym a c i j : v_gd a c i j = v_gd a c j i.
Proof. rewrite !gd_i. assert (S : forall k m n, v_dg a k m n = v_dg a k n m) by (intros k m n; destruct m, n; reflexivity). rewrite (S c i j). ring. Qed.
Lemma ga_sym a c i j : v_ga a c i j = v_ga a c j i.
Proof. rewrite !ga_i. unfold S3. now rewrite !(gd_sym a _ i j). Qed.
Lemma cK_i a k i j : v_cK a k i j = cov (v_ga a) (i_K a) (i_dK a) k i j.
Proof. unfold cov. idx. rewrite <- !K_i, <- delK_i. destruct k, i, j; cbv beta iota delta [v_ga v_K v_delK]; u_v_cK; ring. Qed.
Lemma cKu_i a k i j : v_cKu a k i j = S3 (fun d => v_ginv a k d * v_cK a d i j).
Proof. idx. destruct k, i, j; cbv beta iota delta [v_ginv v_cK]; u_v_cKu; ring. Qed.
Lemma momu_i a i : v_momu a i = SS (fun b c => v_ginv a i b * v_cKu a c b c) - SS (fun b c => v_ginv a b c * v_cKu a i b c).
Proof. idx. destruct i; cbv beta iota delta [v_ginv v_cKu]; u_v_momu; ring. Qed.
Definition momrhs (a : adm_in) (i : d3) : R := match i with D1 => adm_momrhs1_3 a | D2 => adm_momrhs2_3 a | D3 => adm_momrhs3_3 a end.
Lemma mom_i a i : v_mom a i = adm_f a * S3 (fun j => i_g a i j * v_momu a j) - momrhs a i.
Proof. idx. rewrite <- !g_i. destruct i; cbv beta iota delta [v_g v_momu momrhs]; u_v_mom; ring. Qed.
Definition i_dalp (a : adm_in) (k : d3) : R := a_dalp a (n3 k).
Definition i_ddalp (a : adm_in) (k l : d3) : R := a_ddalp a (s6 k l).
Lemma cdda_i a i j : v_cdda a i j = hessian (v_ga a) (i_dalp a) (i_ddalp a) i j.
Proof. unfold hessian. idx. unfold i_dalp, i_ddalp. destruct i, j; cbv beta iota delta [v_ga]; u_v_cdda; cbn [n3 s6]; unfold adm_dalp1, adm_dalp2, adm_dalp3, adm_ddalp11, adm_ddalp12, adm_ddalp13, adm_ddalp22, adm_ddalp23, adm_ddalp33; ring. Qed.
Lemma trcdda_i a : adm_trcdda a = trace (v_ginv a) (v_cdda a).
Proof. unfold trace. idx. unfold adm_trcdda. cbv beta iota delta [v_ginv v_cdda]. ring. Qed.
Lemma dtrK_i a k : v_dtrK a k = trace (v_ginv a) (fun i j => v_cK a k i j).
Proof. unfold trace. idx. destruct k; cbv beta iota delta [v_ginv v_cK]; u_v_dtrK; ring. Qed.
Lemma bdtrK_i a : adm_betadtrK a = S3 (fun k => a_u a (13 + n3 k) * v_dtrK a k).
Proof. idx. unfold adm_betadtrK. cbv beta iota delta [v_dtrK]. cbn [n3 Nat.add]. unfold adm_beta1, adm_beta2, adm_beta3. ring. Qed.
(** ** algebra: the Ricci tensor from second derivatives of the metric *)
Definition dgamma (hi : d3 -> d3 -> R) (dh : d3 -> d3 -> d3 -> R) (ddh : d3 -> d3 -> d3 -> d3 -> R) (dhi : d3 -> d3 -> d3 -> R) (m i j k : d3) : R :=
  1 / 2 * S3 (fun l => dhi m i l * (dh j l k + dh k l j - dh l j k) + hi i l * (ddh m j l k + ddh m k l j - ddh m l j k)).
Lemma ricci_formula (hi : d3 -> d3 -> R) dh ddh dhi i j : (forall a b, hi a b = hi b a) -> (forall k a b, dh k a b = dh k b a) -> (forall k l a b, ddh k l a b = ddh k l b a) -> (forall k l a b, ddh k l a b = ddh l k a b) ->
  (forall k a b, dhi k a b = - SS (fun c d => hi a c * hi b d * dh k c d)) ->
  ricci (christoffel hi dh) (dgamma hi dh ddh dhi) i j =
  SS (fun c d => hi c d * (1 / 2 * (ddh i c j d + ddh j c i d - ddh c d i j - ddh i j c d) + S3 (fun e => christoffel hi dh e i c * (1 / 2 * (dh j d e + dh d j e - dh e j d)) - christoffel hi dh e i j * (1 / 2 * (dh c d e + dh d c e - dh e c d))))).
Proof.
  intros S1 S2 S3' S4 E. unfold ricci, dgamma, christoffel. idx. rewrite !E. idx.
  rewrite ?(S1 D2 D1), ?(S1 D3 D1), ?(S1 D3 D2). rewrite ?(S1 i D1), ?(S1 i D2).
  destruct i, j; rewrite ?(S4 D2 D1), ?(S4 D3 D1), ?(S4 D3 D2), ?(S3' _ _ D2 D1), ?(S3' _ _ D3 D1), ?(S3' _ _ D3 D2), ?(S2 _ D2 D1), ?(S2 _ D3 D1), ?(S2 _ D3 D2), ?(S1 D2 D1), ?(S1 D3 D1), ?(S1 D3 D2).
  all: field.
Qed.
Definition ric_form (hi : d3 -> d3 -> R) (dh : d3 -> d3 -> d3 -> R) (ddh : d3 -> d3 -> d3 -> d3 -> R) (i j : d3) : R :=
  SS (fun c d => hi c d * (1 / 2 * (ddh i c j d + ddh j c i d - ddh c d i j - ddh i j c d) + S3 (fun e => christoffel hi dh e i c * (1 / 2 * (dh j d e + dh d j e - dh e j d)) - christoffel hi dh e i j * (1 / 2 * (dh c d e + dh d c e - dh e c d))))).
Lemma ric_form_sym (hi : d3 -> d3 -> R) dh ddh i j : (forall a b, hi a b = hi b a) -> (forall k a b, dh k a b = dh k b a) -> (forall k l a b, ddh k l a b = ddh k l b a) -> (forall k l a b, ddh k l a b = ddh l k a b) ->
  ric_form hi dh ddh i j = ric_form hi dh ddh j i.
Proof.
  intros S1 S2 S3' S4. destruct i, j; try reflexivity; unfold ric_form, christoffel; idx;
    rewrite ?(S4 D2 D1), ?(S4 D3 D1), ?(S4 D3 D2), ?(S3' _ _ D2 D1), ?(S3' _ _ D3 D1), ?(S3' _ _ D3 D2), ?(S2 _ D2 D1), ?(S2 _ D3 D1), ?(S2 _ D3 D2), ?(S1 D2 D1), ?(S1 D3 D1), ?(S1 D3 D2); field.
Qed.
