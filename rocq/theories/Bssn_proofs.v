(** From the generated assignments of BSSN_rhs.c to formulas with indices. *)
From Verif Require Import Rutil Coord_model Coord_spec Adm_model Adm_spec Adm_proofs Conf_proofs Bssn_model.
Local Open Scope R_scope.
(** ** the scalar variables of the code as tensors *)
Definition w_g (a : bs_in) (i j : d3) : R := match i, j with D1, D1 => bs_g11 a | D1, D2 => bs_g12 a | D1, D3 => bs_g13 a | D2, D1 => bs_g12 a | D2, D2 => bs_g22 a | D2, D3 => bs_g23 a | D3, D1 => bs_g13 a | D3, D2 => bs_g23 a | D3, D3 => bs_g33 a end.
Ltac u_w_g := cbv beta iota delta [w_g bs_g11 bs_g12 bs_g13 bs_g22 bs_g23 bs_g33].
Definition w_A (a : bs_in) (i j : d3) : R := match i, j with D1, D1 => bs_A11 a | D1, D2 => bs_A12 a | D1, D3 => bs_A13 a | D2, D1 => bs_A12 a | D2, D2 => bs_A22 a | D2, D3 => bs_A23 a | D3, D1 => bs_A13 a | D3, D2 => bs_A23 a | D3, D3 => bs_A33 a end.
Ltac u_w_A := cbv beta iota delta [w_A bs_A11 bs_A12 bs_A13 bs_A22 bs_A23 bs_A33].
Definition w_gi (a : bs_in) (i j : d3) : R := match i, j with D1, D1 => bs_ginv11 a | D1, D2 => bs_ginv12 a | D1, D3 => bs_ginv13 a | D2, D1 => bs_ginv12 a | D2, D2 => bs_ginv22 a | D2, D3 => bs_ginv23 a | D3, D1 => bs_ginv13 a | D3, D2 => bs_ginv23 a | D3, D3 => bs_ginv33 a end.
Ltac u_w_gi := cbv beta iota delta [w_gi bs_ginv11 bs_ginv12 bs_ginv13 bs_ginv22 bs_ginv23 bs_ginv33].
Definition w_dg (a : bs_in) (i j k : d3) : R := match i, j, k with D1, D1, D1 => bs_delg111 a | D1, D1, D2 => bs_delg112 a | D1, D1, D3 => bs_delg113 a | D1, D2, D1 => bs_delg112 a | D1, D2, D2 => bs_delg122 a | D1, D2, D3 => bs_delg123 a | D1, D3, D1 => bs_delg113 a | D1, D3, D2 => bs_delg123 a | D1, D3, D3 => bs_delg133 a | D2, D1, D1 => bs_delg211 a | D2, D1, D2 => bs_delg212 a | D2, D1, D3 => bs_delg213 a | D2, D2, D1 => bs_delg212 a | D2, D2, D2 => bs_delg222 a | D2, D2, D3 => bs_delg223 a | D2, D3, D1 => bs_delg213 a | D2, D3, D2 => bs_delg223 a | D2, D3, D3 => bs_delg233 a | D3, D1, D1 => bs_delg311 a | D3, D1, D2 => bs_delg312 a | D3, D1, D3 => bs_delg313 a | D3, D2, D1 => bs_delg312 a | D3, D2, D2 => bs_delg322 a | D3, D2, D3 => bs_delg323 a | D3, D3, D1 => bs_delg313 a | D3, D3, D2 => bs_delg323 a | D3, D3, D3 => bs_delg333 a end.
Ltac u_w_dg := cbv beta iota delta [w_dg bs_delg111 bs_delg112 bs_delg113 bs_delg122 bs_delg123 bs_delg133 bs_delg211 bs_delg212 bs_delg213 bs_delg222 bs_delg223 bs_delg233 bs_delg311 bs_delg312 bs_delg313 bs_delg322 bs_delg323 bs_delg333].
Definition w_ddg (a : bs_in) (i j k l : d3) : R := match i, j, k, l with D1, D1, D1, D1 => bs_deldelg1111 a | D1, D1, D1, D2 => bs_deldelg1112 a | D1, D1, D1, D3 => bs_deldelg1113 a | D1, D1, D2, D1 => bs_deldelg1112 a | D1, D1, D2, D2 => bs_deldelg1122 a | D1, D1, D2, D3 => bs_deldelg1123 a | D1, D1, D3, D1 => bs_deldelg1113 a | D1, D1, D3, D2 => bs_deldelg1123 a | D1, D1, D3, D3 => bs_deldelg1133 a | D1, D2, D1, D1 => bs_deldelg1211 a | D1, D2, D1, D2 => bs_deldelg1212 a | D1, D2, D1, D3 => bs_deldelg1213 a | D1, D2, D2, D1 => bs_deldelg1212 a | D1, D2, D2, D2 => bs_deldelg1222 a | D1, D2, D2, D3 => bs_deldelg1223 a | D1, D2, D3, D1 => bs_deldelg1213 a | D1, D2, D3, D2 => bs_deldelg1223 a | D1, D2, D3, D3 => bs_deldelg1233 a | D1, D3, D1, D1 => bs_deldelg1311 a | D1, D3, D1, D2 => bs_deldelg1312 a | D1, D3, D1, D3 => bs_deldelg1313 a | D1, D3, D2, D1 => bs_deldelg1312 a | D1, D3, D2, D2 => bs_deldelg1322 a | D1, D3, D2, D3 => bs_deldelg1323 a | D1, D3, D3, D1 => bs_deldelg1313 a | D1, D3, D3, D2 => bs_deldelg1323 a | D1, D3, D3, D3 => bs_deldelg1333 a | D2, D1, D1, D1 => bs_deldelg1211 a | D2, D1, D1, D2 => bs_deldelg1212 a | D2, D1, D1, D3 => bs_deldelg1213 a | D2, D1, D2, D1 => bs_deldelg1212 a | D2, D1, D2, D2 => bs_deldelg1222 a | D2, D1, D2, D3 => bs_deldelg1223 a | D2, D1, D3, D1 => bs_deldelg1213 a | D2, D1, D3, D2 => bs_deldelg1223 a | D2, D1, D3, D3 => bs_deldelg1233 a | D2, D2, D1, D1 => bs_deldelg2211 a | D2, D2, D1, D2 => bs_deldelg2212 a | D2, D2, D1, D3 => bs_deldelg2213 a | D2, D2, D2, D1 => bs_deldelg2212 a | D2, D2, D2, D2 => bs_deldelg2222 a | D2, D2, D2, D3 => bs_deldelg2223 a | D2, D2, D3, D1 => bs_deldelg2213 a | D2, D2, D3, D2 => bs_deldelg2223 a | D2, D2, D3, D3 => bs_deldelg2233 a | D2, D3, D1, D1 => bs_deldelg2311 a | D2, D3, D1, D2 => bs_deldelg2312 a | D2, D3, D1, D3 => bs_deldelg2313 a | D2, D3, D2, D1 => bs_deldelg2312 a | D2, D3, D2, D2 => bs_deldelg2322 a | D2, D3, D2, D3 => bs_deldelg2323 a | D2, D3, D3, D1 => bs_deldelg2313 a | D2, D3, D3, D2 => bs_deldelg2323 a | D2, D3, D3, D3 => bs_deldelg2333 a | D3, D1, D1, D1 => bs_deldelg1311 a | D3, D1, D1, D2 => bs_deldelg1312 a | D3, D1, D1, D3 => bs_deldelg1313 a | D3, D1, D2, D1 => bs_deldelg1312 a | D3, D1, D2, D2 => bs_deldelg1322 a | D3, D1, D2, D3 => bs_deldelg1323 a | D3, D1, D3, D1 => bs_deldelg1313 a | D3, D1, D3, D2 => bs_deldelg1323 a | D3, D1, D3, D3 => bs_deldelg1333 a | D3, D2, D1, D1 => bs_deldelg2311 a | D3, D2, D1, D2 => bs_deldelg2312 a | D3, D2, D1, D3 => bs_deldelg2313 a | D3, D2, D2, D1 => bs_deldelg2312 a | D3, D2, D2, D2 => bs_deldelg2322 a | D3, D2, D2, D3 => bs_deldelg2323 a | D3, D2, D3, D1 => bs_deldelg2313 a | D3, D2, D3, D2 => bs_deldelg2323 a | D3, D2, D3, D3 => bs_deldelg2333 a | D3, D3, D1, D1 => bs_deldelg3311 a | D3, D3, D1, D2 => bs_deldelg3312 a | D3, D3, D1, D3 => bs_deldelg3313 a | D3, D3, D2, D1 => bs_deldelg3312 a | D3, D3, D2, D2 => bs_deldelg3322 a | D3, D3, D2, D3 => bs_deldelg3323 a | D3, D3, D3, D1 => bs_deldelg3313 a | D3, D3, D3, D2 => bs_deldelg3323 a | D3, D3, D3, D3 => bs_deldelg3333 a end.
Ltac u_w_ddg := cbv beta iota delta [w_ddg bs_deldelg1111 bs_deldelg1112 bs_deldelg1113 bs_deldelg1122 bs_deldelg1123 bs_deldelg1133 bs_deldelg1211 bs_deldelg1212 bs_deldelg1213 bs_deldelg1222 bs_deldelg1223 bs_deldelg1233 bs_deldelg1311 bs_deldelg1312 bs_deldelg1313 bs_deldelg1322 bs_deldelg1323 bs_deldelg1333 bs_deldelg2211 bs_deldelg2212 bs_deldelg2213 bs_deldelg2222 bs_deldelg2223 bs_deldelg2233 bs_deldelg2311 bs_deldelg2312 bs_deldelg2313 bs_deldelg2322 bs_deldelg2323 bs_deldelg2333 bs_deldelg3311 bs_deldelg3312 bs_deldelg3313 bs_deldelg3322 bs_deldelg3323 bs_deldelg3333].
Definition w_dA (a : bs_in) (i j k : d3) : R := match i, j, k with D1, D1, D1 => bs_dA111 a | D1, D1, D2 => bs_dA112 a | D1, D1, D3 => bs_dA113 a | D1, D2, D1 => bs_dA112 a | D1, D2, D2 => bs_dA122 a | D1, D2, D3 => bs_dA123 a | D1, D3, D1 => bs_dA113 a | D1, D3, D2 => bs_dA123 a | D1, D3, D3 => bs_dA133 a | D2, D1, D1 => bs_dA211 a | D2, D1, D2 => bs_dA212 a | D2, D1, D3 => bs_dA213 a | D2, D2, D1 => bs_dA212 a | D2, D2, D2 => bs_dA222 a | D2, D2, D3 => bs_dA223 a | D2, D3, D1 => bs_dA213 a | D2, D3, D2 => bs_dA223 a | D2, D3, D3 => bs_dA233 a | D3, D1, D1 => bs_dA311 a | D3, D1, D2 => bs_dA312 a | D3, D1, D3 => bs_dA313 a | D3, D2, D1 => bs_dA312 a | D3, D2, D2 => bs_dA322 a | D3, D2, D3 => bs_dA323 a | D3, D3, D1 => bs_dA313 a | D3, D3, D2 => bs_dA323 a | D3, D3, D3 => bs_dA333 a end.
Ltac u_w_dA := cbv beta iota delta [w_dA bs_dA111 bs_dA112 bs_dA113 bs_dA122 bs_dA123 bs_dA133 bs_dA211 bs_dA212 bs_dA213 bs_dA222 bs_dA223 bs_dA233 bs_dA311 bs_dA312 bs_dA313 bs_dA322 bs_dA323 bs_dA333].
Definition w_dG (a : bs_in) (i j : d3) : R := match i, j with D1, D1 => bs_delG11 a | D1, D2 => bs_delG12 a | D1, D3 => bs_delG13 a | D2, D1 => bs_delG21 a | D2, D2 => bs_delG22 a | D2, D3 => bs_delG23 a | D3, D1 => bs_delG31 a | D3, D2 => bs_delG32 a | D3, D3 => bs_delG33 a end.
Ltac u_w_dG := cbv beta iota delta [w_dG bs_delG11 bs_delG12 bs_delG13 bs_delG21 bs_delG22 bs_delG23 bs_delG31 bs_delG32 bs_delG33].
Definition w_df (a : bs_in) (i : d3) : R := match i with D1 => bs_df1_2 a | D2 => bs_df2_2 a | D3 => bs_df3_2 a end.
Ltac u_w_df := cbv beta iota delta [w_df bs_df1_2 bs_df2_2 bs_df3_2].
Definition w_ddf (a : bs_in) (i j : d3) : R := match i, j with D1, D1 => bs_ddf11_2 a | D1, D2 => bs_ddf12_2 a | D1, D3 => bs_ddf13_2 a | D2, D1 => bs_ddf12_2 a | D2, D2 => bs_ddf22_2 a | D2, D3 => bs_ddf23_2 a | D3, D1 => bs_ddf13_2 a | D3, D2 => bs_ddf23_2 a | D3, D3 => bs_ddf33_2 a end.
Ltac u_w_ddf := cbv beta iota delta [w_ddf bs_ddf11_2 bs_ddf12_2 bs_ddf13_2 bs_ddf22_2 bs_ddf23_2 bs_ddf33_2].
Definition w_da (a : bs_in) (i : d3) : R := match i with D1 => bs_da1 a | D2 => bs_da2 a | D3 => bs_da3 a end.
Ltac u_w_da := cbv beta iota delta [w_da bs_da1 bs_da2 bs_da3].
Definition w_dda (a : bs_in) (i j : d3) : R := match i, j with D1, D1 => bs_dda11 a | D1, D2 => bs_dda12 a | D1, D3 => bs_dda13 a | D2, D1 => bs_dda12 a | D2, D2 => bs_dda22 a | D2, D3 => bs_dda23 a | D3, D1 => bs_dda13 a | D3, D2 => bs_dda23 a | D3, D3 => bs_dda33 a end.
Ltac u_w_dda := cbv beta iota delta [w_dda bs_dda11 bs_dda12 bs_dda13 bs_dda22 bs_dda23 bs_dda33].
Definition w_db (a : bs_in) (i j : d3) : R := match i, j with D1, D1 => bs_db11 a | D1, D2 => bs_db12 a | D1, D3 => bs_db13 a | D2, D1 => bs_db21 a | D2, D2 => bs_db22 a | D2, D3 => bs_db23 a | D3, D1 => bs_db31 a | D3, D2 => bs_db32 a | D3, D3 => bs_db33 a end.
Ltac u_w_db := cbv beta iota delta [w_db bs_db11 bs_db12 bs_db13 bs_db21 bs_db22 bs_db23 bs_db31 bs_db32 bs_db33].
Definition w_be (a : bs_in) (i : d3) : R := match i with D1 => bs_beta1 a | D2 => bs_beta2 a | D3 => bs_beta3 a end.
Ltac u_w_be := cbv beta iota delta [w_be bs_beta1 bs_beta2 bs_beta3].
Definition w_G (a : bs_in) (i : d3) : R := match i with D1 => bs_undiffdG1_3 a | D2 => bs_undiffdG2_3 a | D3 => bs_undiffdG3_3 a end.
Ltac u_w_G := cbv beta iota delta [w_G bs_undiffdG1_3 bs_undiffdG2_3 bs_undiffdG3_3].
Definition w_Gg (a : bs_in) (i : d3) : R := match i with D1 => bs_Gfromg1 a | D2 => bs_Gfromg2 a | D3 => bs_Gfromg3 a end.
Ltac u_w_Gg := cbv beta iota delta [w_Gg bs_Gfromg1 bs_Gfromg2 bs_Gfromg3].
Definition w_gd (a : bs_in) (i j k : d3) : R := match i, j, k with D1, D1, D1 => bs_gammado111 a | D1, D1, D2 => bs_gammado112 a | D1, D1, D3 => bs_gammado113 a | D1, D2, D1 => bs_gammado112 a | D1, D2, D2 => bs_gammado122 a | D1, D2, D3 => bs_gammado123 a | D1, D3, D1 => bs_gammado113 a | D1, D3, D2 => bs_gammado123 a | D1, D3, D3 => bs_gammado133 a | D2, D1, D1 => bs_gammado211 a | D2, D1, D2 => bs_gammado212 a | D2, D1, D3 => bs_gammado213 a | D2, D2, D1 => bs_gammado212 a | D2, D2, D2 => bs_gammado222 a | D2, D2, D3 => bs_gammado223 a | D2, D3, D1 => bs_gammado213 a | D2, D3, D2 => bs_gammado223 a | D2, D3, D3 => bs_gammado233 a | D3, D1, D1 => bs_gammado311 a | D3, D1, D2 => bs_gammado312 a | D3, D1, D3 => bs_gammado313 a | D3, D2, D1 => bs_gammado312 a | D3, D2, D2 => bs_gammado322 a | D3, D2, D3 => bs_gammado323 a | D3, D3, D1 => bs_gammado313 a | D3, D3, D2 => bs_gammado323 a | D3, D3, D3 => bs_gammado333 a end.
Ltac u_w_gd := cbv beta iota delta [w_gd bs_gammado111 bs_gammado112 bs_gammado113 bs_gammado122 bs_gammado123 bs_gammado133 bs_gammado211 bs_gammado212 bs_gammado213 bs_gammado222 bs_gammado223 bs_gammado233 bs_gammado311 bs_gammado312 bs_gammado313 bs_gammado322 bs_gammado323 bs_gammado333].
Definition w_ga (a : bs_in) (i j k : d3) : R := match i, j, k with D1, D1, D1 => bs_gamma111 a | D1, D1, D2 => bs_gamma112 a | D1, D1, D3 => bs_gamma113 a | D1, D2, D1 => bs_gamma112 a | D1, D2, D2 => bs_gamma122 a | D1, D2, D3 => bs_gamma123 a | D1, D3, D1 => bs_gamma113 a | D1, D3, D2 => bs_gamma123 a | D1, D3, D3 => bs_gamma133 a | D2, D1, D1 => bs_gamma211 a | D2, D1, D2 => bs_gamma212 a | D2, D1, D3 => bs_gamma213 a | D2, D2, D1 => bs_gamma212 a | D2, D2, D2 => bs_gamma222 a | D2, D2, D3 => bs_gamma223 a | D2, D3, D1 => bs_gamma213 a | D2, D3, D2 => bs_gamma223 a | D2, D3, D3 => bs_gamma233 a | D3, D1, D1 => bs_gamma311 a | D3, D1, D2 => bs_gamma312 a | D3, D1, D3 => bs_gamma313 a | D3, D2, D1 => bs_gamma312 a | D3, D2, D2 => bs_gamma322 a | D3, D2, D3 => bs_gamma323 a | D3, D3, D1 => bs_gamma313 a | D3, D3, D2 => bs_gamma323 a | D3, D3, D3 => bs_gamma333 a end.
Ltac u_w_ga := cbv beta iota delta [w_ga bs_gamma111 bs_gamma112 bs_gamma113 bs_gamma122 bs_gamma123 bs_gamma133 bs_gamma211 bs_gamma212 bs_gamma213 bs_gamma222 bs_gamma223 bs_gamma233 bs_gamma311 bs_gamma312 bs_gamma313 bs_gamma322 bs_gamma323 bs_gamma333].
Definition w_cddf (a : bs_in) (i j : d3) : R := match i, j with D1, D1 => bs_cddf11 a | D1, D2 => bs_cddf12 a | D1, D3 => bs_cddf13 a | D2, D1 => bs_cddf12 a | D2, D2 => bs_cddf22 a | D2, D3 => bs_cddf23 a | D3, D1 => bs_cddf13 a | D3, D2 => bs_cddf23 a | D3, D3 => bs_cddf33 a end.
Ltac u_w_cddf := cbv beta iota delta [w_cddf bs_cddf11 bs_cddf12 bs_cddf13 bs_cddf22 bs_cddf23 bs_cddf33].
Definition w_rphi (a : bs_in) (i j : d3) : R := match i, j with D1, D1 => bs_Rphi11 a | D1, D2 => bs_Rphi12 a | D1, D3 => bs_Rphi13 a | D2, D1 => bs_Rphi12 a | D2, D2 => bs_Rphi22 a | D2, D3 => bs_Rphi23 a | D3, D1 => bs_Rphi13 a | D3, D2 => bs_Rphi23 a | D3, D3 => bs_Rphi33 a end.
Ltac u_w_rphi := cbv beta iota delta [w_rphi bs_Rphi11 bs_Rphi12 bs_Rphi13 bs_Rphi22 bs_Rphi23 bs_Rphi33].
Definition w_cdda (a : bs_in) (i j : d3) : R := match i, j with D1, D1 => bs_cdda11 a | D1, D2 => bs_cdda12 a | D1, D3 => bs_cdda13 a | D2, D1 => bs_cdda12 a | D2, D2 => bs_cdda22 a | D2, D3 => bs_cdda23 a | D3, D1 => bs_cdda13 a | D3, D2 => bs_cdda23 a | D3, D3 => bs_cdda33 a end.
Ltac u_w_cdda := cbv beta iota delta [w_cdda bs_cdda11 bs_cdda12 bs_cdda13 bs_cdda22 bs_cdda23 bs_cdda33].
Definition w_AA (a : bs_in) (i j : d3) : R := match i, j with D1, D1 => bs_AA11 a | D1, D2 => bs_AA12 a | D1, D3 => bs_AA13 a | D2, D1 => bs_AA12 a | D2, D2 => bs_AA22 a | D2, D3 => bs_AA23 a | D3, D1 => bs_AA13 a | D3, D2 => bs_AA23 a | D3, D3 => bs_AA33 a end.
Ltac u_w_AA := cbv beta iota delta [w_AA bs_AA11 bs_AA12 bs_AA13 bs_AA22 bs_AA23 bs_AA33].
Definition w_rg (a : bs_in) (i j : d3) : R := match i, j with D1, D1 => bs_rg11 a | D1, D2 => bs_rg12 a | D1, D3 => bs_rg13 a | D2, D1 => bs_rg12 a | D2, D2 => bs_rg22 a | D2, D3 => bs_rg23 a | D3, D1 => bs_rg13 a | D3, D2 => bs_rg23 a | D3, D3 => bs_rg33 a end.
Ltac u_w_rg := cbv beta iota delta [w_rg bs_rg11 bs_rg12 bs_rg13 bs_rg22 bs_rg23 bs_rg33].
Definition w_rA (a : bs_in) (i j : d3) : R := match i, j with D1, D1 => bs_rA11 a | D1, D2 => bs_rA12 a | D1, D3 => bs_rA13 a | D2, D1 => bs_rA12 a | D2, D2 => bs_rA22 a | D2, D3 => bs_rA23 a | D3, D1 => bs_rA13 a | D3, D2 => bs_rA23 a | D3, D3 => bs_rA33 a end.
Ltac u_w_rA := cbv beta iota delta [w_rA bs_rA11 bs_rA12 bs_rA13 bs_rA22 bs_rA23 bs_rA33].
Definition w_R (a : bs_in) (i j : d3) : R := match i, j with D1, D1 => bs_R11 a | D1, D2 => bs_R12_2 a | D1, D3 => bs_R13_2 a | D2, D1 => bs_R12_2 a | D2, D2 => bs_R22 a | D2, D3 => bs_R23_2 a | D3, D1 => bs_R13_2 a | D3, D2 => bs_R23_2 a | D3, D3 => bs_R33 a end.
Ltac u_w_R := cbv beta iota delta [w_R bs_R11 bs_R12_2 bs_R13_2 bs_R22 bs_R23_2 bs_R33].
Definition w_lieg (a : bs_in) (i j : d3) : R := match i, j with D1, D1 => bs_lieg11 a | D1, D2 => bs_lieg12_2 a | D1, D3 => bs_lieg13_2 a | D2, D1 => bs_lieg12_2 a | D2, D2 => bs_lieg22 a | D2, D3 => bs_lieg23_2 a | D3, D1 => bs_lieg13_2 a | D3, D2 => bs_lieg23_2 a | D3, D3 => bs_lieg33 a end.
Ltac u_w_lieg := cbv beta iota delta [w_lieg bs_lieg11 bs_lieg12_2 bs_lieg13_2 bs_lieg22 bs_lieg23_2 bs_lieg33].
Definition w_lieA (a : bs_in) (i j : d3) : R := match i, j with D1, D1 => bs_lieA11 a | D1, D2 => bs_lieA12_2 a | D1, D3 => bs_lieA13_2 a | D2, D1 => bs_lieA12_2 a | D2, D2 => bs_lieA22 a | D2, D3 => bs_lieA23_2 a | D3, D1 => bs_lieA13_2 a | D3, D2 => bs_lieA23_2 a | D3, D3 => bs_lieA33 a end.
Ltac u_w_lieA := cbv beta iota delta [w_lieA bs_lieA11 bs_lieA12_2 bs_lieA13_2 bs_lieA22 bs_lieA23_2 bs_lieA33].
(** ** what they are *)
Section B.
Variable a : bs_in.
Lemma gd_w c i j : w_gd a c i j = low (w_dg a) c i j.
Proof. unfold low. destruct c, i, j; u_w_gd; cbv beta iota delta [w_dg]; field. Qed.
Lemma ga_w c i j : w_ga a c i j = S3 (fun d => w_gi a c d * w_gd a d i j).
Proof. idx. destruct c, i, j; u_w_ga; cbv beta iota delta [w_gi w_gd]; ring. Qed.
Lemma Gg_w k : w_Gg a k = SS (fun i j => w_gi a i j * w_ga a k i j).
Proof. idx. destruct k; u_w_Gg; cbv beta iota delta [w_gi w_ga]; ring. Qed.
Lemma R_w i j : (n3 i <= n3 j)%nat -> w_R a i j = - (1 / 2) * SS (fun l m => w_gi a l m * w_ddg a l m i j) + 1 / 2 * S3 (fun k => w_g a k i * w_dG a j k + w_g a k j * w_dG a i k) + 1 / 2 * S3 (fun k => w_G a k * (w_gd a i j k + w_gd a j i k))
  + SS (fun l m => w_gi a l m * S3 (fun k => w_ga a k l i * w_gd a j k m + w_ga a k l j * w_gd a i k m + w_ga a k i m * w_gd a k l j)).
Proof.
  intros L. destruct i, j; try (exfalso; cbn [n3] in L; lia); idx; u_w_R; cbv beta iota delta [w_gi w_ddg w_g w_dG w_G w_gd w_ga]; field.
Qed.
Lemma cddf_w i j : w_cddf a i j = hessian (w_ga a) (w_df a) (w_ddf a) i j.
Proof. unfold hessian. idx. destruct i, j; u_w_cddf; cbv beta iota delta [w_ddf w_df w_ga]; ring. Qed.
Lemma trcddf_w : bs_trcddf a = trace (w_gi a) (w_cddf a).
Proof. unfold trace. idx. unfold bs_trcddf. cbv beta iota delta [w_gi w_cddf]. ring. Qed.
Lemma rphi_w i j : w_rphi a i j = - 2 * w_cddf a i j - 2 * w_g a i j * bs_trcddf a + 4 * (w_df a i * w_df a j) - 4 * w_g a i j * S3 (fun k => S3 (fun l => w_gi a k l * w_df a l) * w_df a k).
Proof. idx. destruct i, j; u_w_rphi; unfold pow2; cbv beta iota delta [w_cddf w_g w_df w_gi]; ring. Qed.
Lemma cdda_w i j : w_cdda a i j = hessian (w_ga a) (w_da a) (w_dda a) i j - 2 * (w_da a i * w_df a j + w_da a j * w_df a i) + 2 * w_g a i j * SS (fun k l => w_gi a k l * w_da a k * w_df a l).
Proof. unfold hessian. idx. destruct i, j; u_w_cdda; cbv beta iota delta [w_dda w_da w_df w_ga w_g w_gi]; ring. Qed.
Lemma trcdda_w : bs_trcdda a = bs_psim4 a * trace (w_gi a) (w_cdda a).
Proof. unfold trace. idx. unfold bs_trcdda. cbv beta iota delta [w_gi w_cdda]. ring. Qed.
Lemma AA_w i j : w_AA a i j = SS (fun k l => w_gi a k l * w_A a i k * w_A a j l).
Proof. idx. destruct i, j; u_w_AA; unfold pow2; cbv beta iota delta [w_A w_gi]; ring. Qed.
Lemma AAs_w : bs_AA a = trace (w_gi a) (w_AA a).
Proof. unfold trace. idx. unfold bs_AA. cbv beta iota delta [w_gi w_AA]. ring. Qed.
Lemma trRicci_w : bs_trRicci a = bs_psim4 a * trace (w_gi a) (fun i j => w_R a i j + w_rphi a i j).
Proof. unfold trace. idx. unfold bs_trRicci. cbv beta iota delta [w_gi w_R w_rphi]. ring. Qed.
Definition divb : R := S3 (fun k => w_db a k k).
Lemma lieg_w i j : w_lieg a i j = S3 (fun k => w_be a k * w_dg a k i j + w_g a k j * w_db a i k + w_g a i k * w_db a j k) - 2 / 3 * divb * w_g a i j.
Proof.
  unfold divb. idx. destruct i, j; cbv beta iota delta [w_lieg w_db]; cbv beta iota delta [bs_lieg11 bs_lieg12_2 bs_lieg13_2 bs_lieg22 bs_lieg23_2 bs_lieg33 bs_betadg11 bs_betadg21 bs_betadg31 bs_betadg22 bs_betadg32 bs_betadg33 bs_totdivbeta bs_divbeta];
    u_w_dg; cbv beta iota delta [w_be w_g]; ring.
Qed.
Lemma lieA_w i j : w_lieA a i j = S3 (fun k => w_be a k * w_dA a k i j + w_A a k j * w_db a i k + w_A a i k * w_db a j k) - 2 / 3 * divb * w_A a i j.
Proof.
  unfold divb. idx. destruct i, j; cbv beta iota delta [w_lieA w_db]; cbv beta iota delta [bs_lieA11 bs_lieA12_2 bs_lieA13_2 bs_lieA22 bs_lieA23_2 bs_lieA33 bs_betadA11 bs_betadA21 bs_betadA31 bs_betadA22 bs_betadA32 bs_betadA33 bs_totdivbeta bs_divbeta];
    u_w_dA; cbv beta iota delta [w_be w_A]; ring.
Qed.
Lemma rg_w i j : w_rg a i j = w_lieg a i j - 2 * bs_alpha a * w_A a i j.
Proof. destruct i, j; u_w_rg; cbv beta iota delta [w_lieg w_A]; ring. Qed.
Lemma rA_w i j : w_rA a i j = w_lieA a i j + bs_psim4 a * (- w_cdda a i j + bs_alpha a * (w_R a i j + w_rphi a i j)) + 1 / 3 * bs_trcdda a * w_g a i j + bs_alpha a * (- 2 * w_AA a i j - 1 / 3 * bs_R a * w_g a i j + w_A a i j * bs_K_2 a).
Proof. destruct i, j; u_w_rA; cbv beta iota delta [w_lieA w_g w_cdda w_R w_rphi w_AA w_A]; ring. Qed.
Lemma rphi_s : bs_rphi a = S3 (fun k => w_be a k * w_df a k) + 1 / 6 * divb - 1 / 6 * bs_alpha a * bs_K_2 a.
Proof. unfold divb. idx. unfold bs_rphi, bs_liephi, bs_betadf_2, bs_betadf, bs_divbeta. u_w_df. cbv beta iota delta [w_be w_db bs_df1 bs_df2 bs_df3]. ring. Qed.
End B.
