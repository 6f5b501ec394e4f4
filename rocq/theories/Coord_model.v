(** Model of the coordinate transformations of src/utility/Coordinates/Coordinates.c: the Cartesian coordinates as functions of the box coordinates, the tables of first and second derivatives of the box coordinates with respect to x,y,z, and the code that installs them in a box.
    doubles are reals and PI is the number pi.  The macro Cot(x) is 1.0/tan(x); it is modelled as cos x/sin x, which is the same number wherever tan x is finite and non-zero.  Division by zero (r=0, sin theta=0 ...) is not modelled: every theorem excludes these points by hypothesis.
    The functions that read a parameter once into a static variable (r0, s) are modelled as functions of the parameter's value, i.e. for runs in which that parameter is not changed. *)
From Verif Require Import Rutil.
Local Open Scope R_scope.
(** the three directions; C uses the indices 1,2,3 *)
Inductive d3 := D1 | D2 | D3.
(** a function of the box coordinates (X,Y,Z); the C type also has the box (aux) and the point index (ind), which the functions below either ignore or use only for box->n2 *)
Definition fn3 := R -> R -> R -> R.
(** what a box stores: x_of_X[i], dX_dx[i][m], ddX_dxdx[i][m][n] (sgrid.h tBox); None stands for NULL *)
Record coords := Coords { x_of_X : d3 -> fn3; dX_dx : d3 -> d3 -> fn3; ddX_dxdx : d3 -> d3 -> d3 -> option fn3 }.
(** Coordinates.c:7-23 the macros *)
Definition Power (x y : R) : R := Rpower x y.
Definition Sec (x : R) : R := 1 / cos x.
Definition Csc (x : R) : R := 1 / sin x.
Definition Cot (x : R) : R := cos x / sin x.
Definition Csch (x : R) : R := 1 / sinh x.
Definition Sech (x : R) : R := 1 / cosh x.
(** the parameters and box data the functions read: box->n2, compactSphericalDF_r0, Coordinates_Spherical3_c, tan_stretch_s *)
Record cpars := CPars { n2 : nat; r0_par : R; c_par : R; s_par : R }.
(** Coordinates.c:1151-1170 trivial functions *)
Definition zero_of_xyz : fn3 := fun X Y Z => 0.
Definition one_of_xyz : fn3 := fun X Y Z => 1.
Definition x_equals_X : fn3 := fun X Y Z => X.
Definition y_equals_Y : fn3 := fun X Y Z => Y.
Definition z_equals_Z : fn3 := fun X Y Z => Z.
(** Polar coordinates *)
(** Coordinates.c:1176-1179 *)
Definition x_ofPolar : fn3 := fun rho phi Z => rho * cos phi.
(** Coordinates.c:1180-1183 *)
Definition y_ofPolar : fn3 := fun rho phi Z => rho * sin phi.
(** Coordinates.c:1184-1187 *)
Definition z_ofPolar : fn3 := fun rho phi Z => Z.
(** Coordinates.c:1190-1193 *)
Definition drho_dx : fn3 := fun rho phi Z => cos phi.
(** Coordinates.c:1194-1197 *)
Definition drho_dy : fn3 := fun rho phi Z => sin phi.
(** Coordinates.c:1199-1203 *)
Definition dphi_dx : fn3 := fun rho phi Z => if Rlt_dec 0 rho then (- sin phi) / rho else 0.
(** Coordinates.c:1204-1208 *)
Definition dphi_dy : fn3 := fun rho phi Z => if Rlt_dec 0 rho then cos phi / rho else 0.
(** PolarCE coordinates: N = box->n2 - 1 is an int, so it may be -1 for n2 = 0; the phi of lines 1288, 1296, 1311, 1322 *)
Definition N_CE (p : cpars) : R := INR (n2 p) - 1.
Definition phi_CE (p : cpars) (Y : R) : R := 2 * N_CE p / (N_CE p - 1) * acos (1 - Y / PI).
(** Coordinates.c:1312, 1323 *)
Definition dY_dphi_CE (p : cpars) (phi : R) : R := PI * ((N_CE p - 1) / (2 * N_CE p)) * sin ((N_CE p - 1) / (2 * N_CE p) * phi).
(** Coordinates.c:1284-1291 *)
Definition x_ofPolarCE (p : cpars) : fn3 := fun rho Y Z => rho * cos (phi_CE p Y).
(** Coordinates.c:1292-1299 *)
Definition y_ofPolarCE (p : cpars) : fn3 := fun rho Y Z => rho * sin (phi_CE p Y).
(** Coordinates.c:1304-1314 *)
Definition dYPolarCE_dx (p : cpars) : fn3 := fun rho Y Z => dY_dphi_CE p (phi_CE p Y) * dphi_dx rho (phi_CE p Y) Z.
(** Coordinates.c:1315-1325 *)
Definition dYPolarCE_dy (p : cpars) : fn3 := fun rho Y Z => dY_dphi_CE p (phi_CE p Y) * dphi_dy rho (phi_CE p Y) Z.
(** SphericalDF coordinates: theta as in lines 1341, 1349, ...; (1+N%2)*N is an int *)
Definition theta_DF (p : cpars) (thm : R) : R := thm + PI / INR ((1 + Nat.modulo (n2 p) 2) * n2 p).
(** Coordinates.c:1337-1344 *)
Definition x_ofSphericalDF (p : cpars) : fn3 := fun r thm phi => let theta := theta_DF p thm in r * cos phi * sin theta.
(** Coordinates.c:1345-1352 *)
Definition y_ofSphericalDF (p : cpars) : fn3 := fun r thm phi => let theta := theta_DF p thm in r * sin phi * sin theta.
(** Coordinates.c:1353-1360 *)
Definition z_ofSphericalDF (p : cpars) : fn3 := fun r thm phi => let theta := theta_DF p thm in r * cos theta.
(** Coordinates.c:1363-1370 *)
Definition dr_dx (p : cpars) : fn3 := fun r thm phi => let theta := theta_DF p thm in cos phi * sin theta.
(** Coordinates.c:1371-1378 *)
Definition dr_dy (p : cpars) : fn3 := fun r thm phi => let theta := theta_DF p thm in sin phi * sin theta.
(** Coordinates.c:1379-1386 *)
Definition dr_dz (p : cpars) : fn3 := fun r thm phi => let theta := theta_DF p thm in cos theta.
(** Coordinates.c:1388-1396 *)
Definition dthm_dx (p : cpars) : fn3 := fun r thm phi => let theta := theta_DF p thm in if Rlt_dec 0 r then cos theta * cos phi / r else 0.
(** Coordinates.c:1397-1405 *)
Definition dthm_dy (p : cpars) : fn3 := fun r thm phi => let theta := theta_DF p thm in if Rlt_dec 0 r then cos theta * sin phi / r else 0.
(** Coordinates.c:1406-1414 *)
Definition dthm_dz (p : cpars) : fn3 := fun r thm phi => let theta := theta_DF p thm in if Rlt_dec 0 r then (- sin theta) / r else 0.
(** Coordinates.c:1416-1423 *)
Definition dphiSphericalDF_dx (p : cpars) : fn3 := fun r thm phi => let theta := theta_DF p thm in (- sin phi) / (r * sin theta).
(** Coordinates.c:1424-1431 *)
Definition dphiSphericalDF_dy (p : cpars) : fn3 := fun r thm phi => let theta := theta_DF p thm in cos phi / (r * sin theta).
(** Coordinates.c:1434-1438 *)
Definition ddr_SphericalDF_dxdx (p : cpars) : fn3 := fun r thm phi => let theta := theta_DF p thm in ((cos theta) ^ 2 + (sin phi) ^ 2 * (sin theta) ^ 2) / r.
(** Coordinates.c:1440-1444 *)
Definition ddr_SphericalDF_dxdy (p : cpars) : fn3 := fun r thm phi => let theta := theta_DF p thm in (- cos phi) * sin phi * (sin theta) ^ 2 / r.
(** Coordinates.c:1446-1450 *)
Definition ddr_SphericalDF_dxdz (p : cpars) : fn3 := fun r thm phi => let theta := theta_DF p thm in (- cos phi) * cos theta * sin theta / r.
(** Coordinates.c:1452-1456 *)
Definition ddr_SphericalDF_dydy (p : cpars) : fn3 := fun r thm phi => let theta := theta_DF p thm in ((cos theta) ^ 2 + (cos phi) ^ 2 * (sin theta) ^ 2) / r.
(** Coordinates.c:1458-1462 *)
Definition ddr_SphericalDF_dydz (p : cpars) : fn3 := fun r thm phi => let theta := theta_DF p thm in (- cos theta) * sin phi * sin theta / r.
(** Coordinates.c:1464-1468 *)
Definition ddr_SphericalDF_dzdz (p : cpars) : fn3 := fun r thm phi => let theta := theta_DF p thm in (sin theta) ^ 2 / r.
(** Coordinates.c:1470-1474 *)
Definition ddthm_SphericalDF_dxdx (p : cpars) : fn3 := fun r thm phi => let theta := theta_DF p thm in (- (cos (2 * phi) - (cos phi) ^ 2 * cos (2 * theta))) * Cot theta / r ^ 2.
(** Coordinates.c:1476-1480 *)
Definition ddthm_SphericalDF_dxdy (p : cpars) : fn3 := fun r thm phi => let theta := theta_DF p thm in (1 / 2) * (- 2 + cos (2 * theta)) * Cot theta * sin (2 * phi) / r ^ 2.
(** Coordinates.c:1482-1486 *)
Definition ddthm_SphericalDF_dxdz (p : cpars) : fn3 := fun r thm phi => let theta := theta_DF p thm in (- cos phi) * cos (2 * theta) / r ^ 2.
(** Coordinates.c:1488-1492 *)
Definition ddthm_SphericalDF_dydy (p : cpars) : fn3 := fun r thm phi => let theta := theta_DF p thm in Cot theta * (cos (2 * phi) + cos (2 * theta) * (sin phi) ^ 2) / r ^ 2.
(** Coordinates.c:1494-1498 *)
Definition ddthm_SphericalDF_dydz (p : cpars) : fn3 := fun r thm phi => let theta := theta_DF p thm in (- cos (2 * theta)) * sin phi / r ^ 2.
(** Coordinates.c:1500-1504 *)
Definition ddthm_SphericalDF_dzdz (p : cpars) : fn3 := fun r thm phi => let theta := theta_DF p thm in sin (2 * theta) / r ^ 2.
(** Coordinates.c:1506-1510 *)
Definition ddphi_SphericalDF_dxdx (p : cpars) : fn3 := fun r thm phi => let theta := theta_DF p thm in (Csc theta) ^ 2 * sin (2 * phi) / r ^ 2.
(** Coordinates.c:1512-1516 *)
Definition ddphi_SphericalDF_dxdy (p : cpars) : fn3 := fun r thm phi => let theta := theta_DF p thm in (- cos (2 * phi)) * (Csc theta) ^ 2 / r ^ 2.
(** Coordinates.c:1518-1521 *)
Definition ddphi_SphericalDF_dxdz (p : cpars) : fn3 := fun r thm phi => let theta := theta_DF p thm in 0.
(** Coordinates.c:1523-1527 *)
Definition ddphi_SphericalDF_dydy (p : cpars) : fn3 := fun r thm phi => let theta := theta_DF p thm in (- (Csc theta) ^ 2) * sin (2 * phi) / r ^ 2.
(** Coordinates.c:1529-1532 *)
Definition ddphi_SphericalDF_dydz (p : cpars) : fn3 := fun r thm phi => let theta := theta_DF p thm in 0.
(** Coordinates.c:1534-1537 *)
Definition ddphi_SphericalDF_dzdz (p : cpars) : fn3 := fun r thm phi => let theta := theta_DF p thm in 0.
(** compactSphericalDF coordinates *)
(** Coordinates.c:1546-1557 *)
Definition r_of_xi (p : cpars) (xi : R) : R := tan (xi * PI / 2) + r0_par p.
(** Coordinates.c:1558-1573 *)
Definition dxi_dr (p : cpars) (xi : R) : R :=
  if Req_EM_T xi 1 then 0 else let r := tan (xi * PI / 2) + r0_par p in 2 / PI / (1 + (r - r0_par p) * (r - r0_par p)).
(** Coordinates.c:1578-1581 *)
Definition x_ofcompactSphericalDF (p : cpars) : fn3 := fun xi thm phi => x_ofSphericalDF p (r_of_xi p xi) thm phi.
(** Coordinates.c:1582-1585 *)
Definition y_ofcompactSphericalDF (p : cpars) : fn3 := fun xi thm phi => y_ofSphericalDF p (r_of_xi p xi) thm phi.
(** Coordinates.c:1586-1589 *)
Definition z_ofcompactSphericalDF (p : cpars) : fn3 := fun xi thm phi => z_ofSphericalDF p (r_of_xi p xi) thm phi.
(** Coordinates.c:1593-1597 *)
Definition dxi_dx (p : cpars) : fn3 := fun xi thm phi => if Req_EM_T xi 1 then 0 else dxi_dr p xi * dr_dx p (r_of_xi p xi) thm phi.
(** Coordinates.c:1598-1602 *)
Definition dxi_dy (p : cpars) : fn3 := fun xi thm phi => if Req_EM_T xi 1 then 0 else dxi_dr p xi * dr_dy p (r_of_xi p xi) thm phi.
(** Coordinates.c:1603-1607 *)
Definition dxi_dz (p : cpars) : fn3 := fun xi thm phi => if Req_EM_T xi 1 then 0 else dxi_dr p xi * dr_dz p (r_of_xi p xi) thm phi.
(** Coordinates.c:1609-1613 *)
Definition dthmcompactSphericalDF_dx (p : cpars) : fn3 := fun xi thm phi => if Req_EM_T xi 1 then 0 else dthm_dx p (r_of_xi p xi) thm phi.
(** Coordinates.c:1614-1618 *)
Definition dthmcompactSphericalDF_dy (p : cpars) : fn3 := fun xi thm phi => if Req_EM_T xi 1 then 0 else dthm_dy p (r_of_xi p xi) thm phi.
(** Coordinates.c:1619-1623 *)
Definition dthmcompactSphericalDF_dz (p : cpars) : fn3 := fun xi thm phi => if Req_EM_T xi 1 then 0 else dthm_dz p (r_of_xi p xi) thm phi.
(** Coordinates.c:1625-1629 *)
Definition dphicompactSphericalDF_dx (p : cpars) : fn3 := fun xi thm phi => if Req_EM_T xi 1 then 0 else dphiSphericalDF_dx p (r_of_xi p xi) thm phi.
(** Coordinates.c:1630-1634 *)
Definition dphicompactSphericalDF_dy (p : cpars) : fn3 := fun xi thm phi => if Req_EM_T xi 1 then 0 else dphiSphericalDF_dy p (r_of_xi p xi) thm phi.
(** Coordinates.c:1637-1642 *)
Definition ddxi_compactSphericalDF_dxdx (p : cpars) : fn3 := fun xi thm phi => let theta := theta_DF p thm in let r0 := r0_par p in 2 * (cos ((1 / 2) * PI * xi)) ^ 4 * ((cos theta) ^ 4 * (r0 + tan ((1 / 2) * PI * xi)) ^ 2 + (cos theta) ^ 2 * (1 + r0 ^ 2 - 2 * r0 * (r0 + tan ((1 / 2) * PI * xi)) - (cos phi) ^ 2 * (sin theta) ^ 2 * (r0 + tan ((1 / 2) * PI * xi)) ^ 2 + 2 * (sin phi) ^ 2 * (sin theta) ^ 2 * (r0 + tan ((1 / 2) * PI * xi)) ^ 2) + (sin theta) ^ 2 * (2 * r0 * (cos phi) ^ 2 * (r0 + tan ((1 / 2) * PI * xi)) - 2 * (cos phi) ^ 4 * (sin theta) ^ 2 * (r0 + tan ((1 / 2) * PI * xi)) ^ 2 + (sin phi) ^ 4 * (sin theta) ^ 2 * (r0 + tan ((1 / 2) * PI * xi)) ^ 2 - (sin phi) ^ 2 * (- 1 + r0 ^ 2 + 2 * r0 * tan ((1 / 2) * PI * xi) + (cos phi) ^ 2 * (sin theta) ^ 2 * (r0 + tan ((1 / 2) * PI * xi)) ^ 2))) / (PI * (r0 + tan ((1 / 2) * PI * xi))).
(** Coordinates.c:1644-1649 *)
Definition ddxi_compactSphericalDF_dxdy (p : cpars) : fn3 := fun xi thm phi => let theta := theta_DF p thm in let r0 := r0_par p in (cos ((1 / 2) * PI * xi)) ^ 2 * sin (2 * phi) * (sin theta) ^ 2 * (- 2 + cos (PI * xi) - r0 * sin (PI * xi)) / (PI * (r0 + tan ((1 / 2) * PI * xi))).
(** Coordinates.c:1651-1656 *)
Definition ddxi_compactSphericalDF_dxdz (p : cpars) : fn3 := fun xi thm phi => let theta := theta_DF p thm in let r0 := r0_par p in cos phi * (cos ((1 / 2) * PI * xi)) ^ 2 * sin (2 * theta) * (- 2 + cos (PI * xi) - r0 * sin (PI * xi)) / (PI * (r0 + tan ((1 / 2) * PI * xi))).
(** Coordinates.c:1658-1663 *)
Definition ddxi_compactSphericalDF_dydy (p : cpars) : fn3 := fun xi thm phi => let theta := theta_DF p thm in let r0 := r0_par p in 2 * (cos ((1 / 2) * PI * xi)) ^ 4 * ((cos theta) ^ 4 * (r0 + tan ((1 / 2) * PI * xi)) ^ 2 + (cos theta) ^ 2 * (1 + r0 ^ 2 - 2 * r0 * (r0 + tan ((1 / 2) * PI * xi)) + 2 * (cos phi) ^ 2 * (sin theta) ^ 2 * (r0 + tan ((1 / 2) * PI * xi)) ^ 2 - (sin phi) ^ 2 * (sin theta) ^ 2 * (r0 + tan ((1 / 2) * PI * xi)) ^ 2) + (sin theta) ^ 2 * (2 * r0 * (sin phi) ^ 2 * (r0 + tan ((1 / 2) * PI * xi)) + (cos phi) ^ 4 * (sin theta) ^ 2 * (r0 + tan ((1 / 2) * PI * xi)) ^ 2 - 2 * (sin phi) ^ 4 * (sin theta) ^ 2 * (r0 + tan ((1 / 2) * PI * xi)) ^ 2 - (cos phi) ^ 2 * (- 1 + r0 ^ 2 + 2 * r0 * tan ((1 / 2) * PI * xi) + (sin phi) ^ 2 * (sin theta) ^ 2 * (r0 + tan ((1 / 2) * PI * xi)) ^ 2))) / (PI * (r0 + tan ((1 / 2) * PI * xi))).
(** Coordinates.c:1665-1670 *)
Definition ddxi_compactSphericalDF_dydz (p : cpars) : fn3 := fun xi thm phi => let theta := theta_DF p thm in let r0 := r0_par p in (cos ((1 / 2) * PI * xi)) ^ 2 * sin phi * sin (2 * theta) * (- 2 + cos (PI * xi) - r0 * sin (PI * xi)) / (PI * (r0 + tan ((1 / 2) * PI * xi))).
(** Coordinates.c:1672-1677 *)
Definition ddxi_compactSphericalDF_dzdz (p : cpars) : fn3 := fun xi thm phi => let theta := theta_DF p thm in let r0 := r0_par p in (- 2) * (cos ((1 / 2) * PI * xi)) ^ 2 * (cos (2 * theta) + (cos theta) ^ 2 * (- cos (PI * xi) + r0 * sin (PI * xi))) / (PI * (r0 + tan ((1 / 2) * PI * xi))).
(** Coordinates.c:1679-1684 *)
Definition ddthm_compactSphericalDF_dxdx (p : cpars) : fn3 := fun xi thm phi => let theta := theta_DF p thm in let r0 := r0_par p in - ((cos (2 * phi) - (cos phi) ^ 2 * cos (2 * theta)) * (cos ((1 / 2) * PI * xi)) ^ 2 * Cot theta / (r0 * cos ((1 / 2) * PI * xi) + sin ((1 / 2) * PI * xi)) ^ 2).
(** Coordinates.c:1686-1691 *)
Definition ddthm_compactSphericalDF_dxdy (p : cpars) : fn3 := fun xi thm phi => let theta := theta_DF p thm in let r0 := r0_par p in (1 / 2) * (- 2 + cos (2 * theta)) * (cos ((1 / 2) * PI * xi)) ^ 2 * Cot theta * sin (2 * phi) / (r0 * cos ((1 / 2) * PI * xi) + sin ((1 / 2) * PI * xi)) ^ 2.
(** Coordinates.c:1693-1698 *)
Definition ddthm_compactSphericalDF_dxdz (p : cpars) : fn3 := fun xi thm phi => let theta := theta_DF p thm in let r0 := r0_par p in - (cos phi * cos (2 * theta) * (cos ((1 / 2) * PI * xi)) ^ 2 / (r0 * cos ((1 / 2) * PI * xi) + sin ((1 / 2) * PI * xi)) ^ 2).
(** Coordinates.c:1700-1705 *)
Definition ddthm_compactSphericalDF_dydy (p : cpars) : fn3 := fun xi thm phi => let theta := theta_DF p thm in let r0 := r0_par p in (cos ((1 / 2) * PI * xi)) ^ 2 * Cot theta * (cos (2 * phi) + cos (2 * theta) * (sin phi) ^ 2) / (r0 * cos ((1 / 2) * PI * xi) + sin ((1 / 2) * PI * xi)) ^ 2.
(** Coordinates.c:1707-1712 *)
Definition ddthm_compactSphericalDF_dydz (p : cpars) : fn3 := fun xi thm phi => let theta := theta_DF p thm in let r0 := r0_par p in - (cos (2 * theta) * (cos ((1 / 2) * PI * xi)) ^ 2 * sin phi / (r0 * cos ((1 / 2) * PI * xi) + sin ((1 / 2) * PI * xi)) ^ 2).
(** Coordinates.c:1714-1719 *)
Definition ddthm_compactSphericalDF_dzdz (p : cpars) : fn3 := fun xi thm phi => let theta := theta_DF p thm in let r0 := r0_par p in (cos ((1 / 2) * PI * xi)) ^ 2 * sin (2 * theta) / (r0 * cos ((1 / 2) * PI * xi) + sin ((1 / 2) * PI * xi)) ^ 2.
(** Coordinates.c:1721-1726 *)
Definition ddphi_compactSphericalDF_dxdx (p : cpars) : fn3 := fun xi thm phi => let theta := theta_DF p thm in let r0 := r0_par p in (Csc theta) ^ 2 * sin (2 * phi) / (r0 + tan ((1 / 2) * PI * xi)) ^ 2.
(** Coordinates.c:1728-1733 *)
Definition ddphi_compactSphericalDF_dxdy (p : cpars) : fn3 := fun xi thm phi => let theta := theta_DF p thm in let r0 := r0_par p in - (cos (2 * phi) * (Csc theta) ^ 2 / (r0 + tan ((1 / 2) * PI * xi)) ^ 2).
(** Coordinates.c:1735-1738 *)
Definition ddphi_compactSphericalDF_dxdz (p : cpars) : fn3 := fun xi thm phi => let theta := theta_DF p thm in let r0 := r0_par p in 0.
(** Coordinates.c:1740-1745 *)
Definition ddphi_compactSphericalDF_dydy (p : cpars) : fn3 := fun xi thm phi => let theta := theta_DF p thm in let r0 := r0_par p in (- 2) * cos phi * (Csc theta) ^ 2 * sin phi / (r0 + tan ((1 / 2) * PI * xi)) ^ 2.
(** Coordinates.c:1747-1750 *)
Definition ddphi_compactSphericalDF_dydz (p : cpars) : fn3 := fun xi thm phi => let theta := theta_DF p thm in let r0 := r0_par p in 0.
(** Coordinates.c:1752-1755 *)
Definition ddphi_compactSphericalDF_dzdz (p : cpars) : fn3 := fun xi thm phi => let theta := theta_DF p thm in let r0 := r0_par p in 0.
(** Spherical coordinates *)
(** Coordinates.c:1762-1765 *)
Definition x_ofSpherical : fn3 := fun r theta phi => r * cos phi * sin theta.
(** Coordinates.c:1766-1769 *)
Definition y_ofSpherical : fn3 := fun r theta phi => r * sin phi * sin theta.
(** Coordinates.c:1770-1773 *)
Definition z_ofSpherical : fn3 := fun r theta phi => r * cos theta.
(** Coordinates.c:1776-1779 *)
Definition drSpherical_dx : fn3 := fun r theta phi => cos phi * sin theta.
(** Coordinates.c:1780-1783 *)
Definition drSpherical_dy : fn3 := fun r theta phi => sin phi * sin theta.
(** Coordinates.c:1784-1787 *)
Definition drSpherical_dz : fn3 := fun r theta phi => cos theta.
(** Coordinates.c:1788-1792 *)
Definition dthetaSpherical_dx : fn3 := fun r theta phi => if Rlt_dec 0 r then cos theta * cos phi / r else 0.
(** Coordinates.c:1793-1797 *)
Definition dthetaSpherical_dy : fn3 := fun r theta phi => if Rlt_dec 0 r then cos theta * sin phi / r else 0.
(** Coordinates.c:1798-1802 *)
Definition dthetaSpherical_dz : fn3 := fun r theta phi => if Rlt_dec 0 r then (- sin theta) / r else 0.
(** Coordinates.c:1803-1806 *)
Definition dphiSpherical_dx : fn3 := fun r theta phi => (- sin phi) / (r * sin theta).
(** Coordinates.c:1807-1810 *)
Definition dphiSpherical_dy : fn3 := fun r theta phi => cos phi / (r * sin theta).
(** Coordinates.c:1813-1816 *)
Definition ddr_Spherical_dxdx : fn3 := fun r theta phi => ((cos theta) ^ 2 + (sin phi) ^ 2 * (sin theta) ^ 2) / r.
(** Coordinates.c:1818-1821 *)
Definition ddr_Spherical_dxdy : fn3 := fun r theta phi => (- cos phi) * sin phi * (sin theta) ^ 2 / r.
(** Coordinates.c:1823-1826 *)
Definition ddr_Spherical_dxdz : fn3 := fun r theta phi => (- cos phi) * cos theta * sin theta / r.
(** Coordinates.c:1828-1831 *)
Definition ddr_Spherical_dydy : fn3 := fun r theta phi => ((cos theta) ^ 2 + (cos phi) ^ 2 * (sin theta) ^ 2) / r.
(** Coordinates.c:1833-1836 *)
Definition ddr_Spherical_dydz : fn3 := fun r theta phi => (- cos theta) * sin phi * sin theta / r.
(** Coordinates.c:1838-1841 *)
Definition ddr_Spherical_dzdz : fn3 := fun r theta phi => (sin theta) ^ 2 / r.
(** Coordinates.c:1843-1846 *)
Definition ddtheta_Spherical_dxdx : fn3 := fun r theta phi => (- (cos (2 * phi) - (cos phi) ^ 2 * cos (2 * theta))) * Cot theta / r ^ 2.
(** Coordinates.c:1848-1851 *)
Definition ddtheta_Spherical_dxdy : fn3 := fun r theta phi => (1 / 2) * (- 2 + cos (2 * theta)) * Cot theta * sin (2 * phi) / r ^ 2.
(** Coordinates.c:1853-1856 *)
Definition ddtheta_Spherical_dxdz : fn3 := fun r theta phi => (- cos phi) * cos (2 * theta) / r ^ 2.
(** Coordinates.c:1858-1861 *)
Definition ddtheta_Spherical_dydy : fn3 := fun r theta phi => Cot theta * (cos (2 * phi) + cos (2 * theta) * (sin phi) ^ 2) / r ^ 2.
(** Coordinates.c:1863-1866 *)
Definition ddtheta_Spherical_dydz : fn3 := fun r theta phi => (- cos (2 * theta)) * sin phi / r ^ 2.
(** Coordinates.c:1868-1871 *)
Definition ddtheta_Spherical_dzdz : fn3 := fun r theta phi => sin (2 * theta) / r ^ 2.
(** Coordinates.c:1873-1876 *)
Definition ddphi_Spherical_dxdx : fn3 := fun r theta phi => (Csc theta) ^ 2 * sin (2 * phi) / r ^ 2.
(** Coordinates.c:1878-1881 *)
Definition ddphi_Spherical_dxdy : fn3 := fun r theta phi => (- cos (2 * phi)) * (Csc theta) ^ 2 / r ^ 2.
(** Coordinates.c:1883-1886 *)
Definition ddphi_Spherical_dxdz : fn3 := fun r theta phi => 0.
(** Coordinates.c:1888-1891 *)
Definition ddphi_Spherical_dydy : fn3 := fun r theta phi => (- (Csc theta) ^ 2) * sin (2 * phi) / r ^ 2.
(** Coordinates.c:1893-1896 *)
Definition ddphi_Spherical_dydz : fn3 := fun r theta phi => 0.
(** Coordinates.c:1898-1901 *)
Definition ddphi_Spherical_dzdz : fn3 := fun r theta phi => 0.
(** Spherical2 coordinates *)
(** Coordinates.c:1908-1911 *)
Definition x_ofSpherical2 : fn3 := fun r U phi => r * sqrt (1 - U * U) * cos phi.
(** Coordinates.c:1912-1915 *)
Definition y_ofSpherical2 : fn3 := fun r U phi => r * sqrt (1 - U * U) * sin phi.
(** Coordinates.c:1916-1919 *)
Definition z_ofSpherical2 : fn3 := fun r U phi => r * U.
(** Coordinates.c:1921-1924 *)
Definition dr_Spherical2_dx : fn3 := fun r U phi => sqrt (1 - U * U) * cos phi.
(** Coordinates.c:1925-1928 *)
Definition dr_Spherical2_dy : fn3 := fun r U phi => sqrt (1 - U * U) * sin phi.
(** Coordinates.c:1929-1932 *)
Definition dr_Spherical2_dz : fn3 := fun r U phi => U.
(** Coordinates.c:1933-1936 *)
Definition dU_Spherical2_dx : fn3 := fun r U phi => - (U * sqrt (1 - U * U) * cos phi / r).
(** Coordinates.c:1937-1940 *)
Definition dU_Spherical2_dy : fn3 := fun r U phi => - (U * sqrt (1 - U * U) * sin phi / r).
(** Coordinates.c:1941-1944 *)
Definition dU_Spherical2_dz : fn3 := fun r U phi => (1 - U * U) / r.
(** Coordinates.c:1945-1948 *)
Definition dphi_Spherical2_dx : fn3 := fun r U phi => - (sin phi / (r * sqrt (1 - U * U))).
(** Coordinates.c:1949-1952 *)
Definition dphi_Spherical2_dy : fn3 := fun r U phi => cos phi / (r * sqrt (1 - U * U)).
(** Coordinates.c:1954-1957 *)
Definition ddr_Spherical2_dxdx : fn3 := fun r U phi => (U * U - (- 1 + U * U) * (sin phi * sin phi)) / r.
(** Coordinates.c:1958-1961 *)
Definition ddr_Spherical2_dxdy : fn3 := fun r U phi => (- 1 + U * U) * cos phi * sin phi / r.
(** Coordinates.c:1962-1965 *)
Definition ddr_Spherical2_dxdz : fn3 := fun r U phi => - (U * sqrt (1 - U * U) * cos phi / r).
(** Coordinates.c:1966-1969 *)
Definition ddr_Spherical2_dydy : fn3 := fun r U phi => (U * U - (- 1 + U * U) * (cos phi * cos phi)) / r.
(** Coordinates.c:1970-1973 *)
Definition ddr_Spherical2_dydz : fn3 := fun r U phi => - (U * sqrt (1 - U * U) * sin phi / r).
(** Coordinates.c:1974-1977 *)
Definition ddr_Spherical2_dzdz : fn3 := fun r U phi => (1 - U * U) / r.
(** Coordinates.c:1978-1981 *)
Definition ddU_Spherical2_dxdx : fn3 := fun r U phi => (- (1 / 2)) * U * (- 1 + 3 * (U * U) + 3 * (- 1 + U * U) * cos (2 * phi)) / (r * r).
(** Coordinates.c:1982-1985 *)
Definition ddU_Spherical2_dxdy : fn3 := fun r U phi => (- 3) * U * (- 1 + U * U) * cos phi * sin phi / (r * r).
(** Coordinates.c:1986-1989 *)
Definition ddU_Spherical2_dxdz : fn3 := fun r U phi => sqrt (1 - U * U) * (- 1 + 3 * (U * U)) * cos phi / (r * r).
(** Coordinates.c:1990-1993 *)
Definition ddU_Spherical2_dydy : fn3 := fun r U phi => (1 / 2) * U * (1 - 3 * (U * U) + 3 * (- 1 + U * U) * cos (2 * phi)) / (r * r).
(** Coordinates.c:1994-1997 *)
Definition ddU_Spherical2_dydz : fn3 := fun r U phi => sqrt (1 - U * U) * (- 1 + 3 * (U * U)) * sin phi / (r * r).
(** Coordinates.c:1998-2001 *)
Definition ddU_Spherical2_dzdz : fn3 := fun r U phi => 3 * U * (- 1 + U * U) / (r * r).
(** Coordinates.c:2002-2005 *)
Definition ddphi_Spherical2_dxdx : fn3 := fun r U phi => - (sin (2 * phi) / (r * r * (- 1 + U * U))).
(** Coordinates.c:2006-2009 *)
Definition ddphi_Spherical2_dxdy : fn3 := fun r U phi => cos (2 * phi) / (r * r * (- 1 + U * U)).
(** Coordinates.c:2010-2013 *)
Definition ddphi_Spherical2_dxdz : fn3 := fun r U phi => 0.
(** Coordinates.c:2014-2017 *)
Definition ddphi_Spherical2_dydy : fn3 := fun r U phi => sin (2 * phi) / (r * r * (- 1 + U * U)).
(** Coordinates.c:2018-2021 *)
Definition ddphi_Spherical2_dydz : fn3 := fun r U phi => 0.
(** Coordinates.c:2022-2025 *)
Definition ddphi_Spherical2_dzdz : fn3 := fun r U phi => 0.
(** Spherical3 coordinates.  The decimal constants of the C text are modelled as the numbers they abbreviate: 1.5707963... = PI/2, 0.6366197... = 2/PI, 0.4501581... = sqrt 2/PI, 0.2026423... = 2/PI^2, 0.4052847... = 4/PI^2, 3.1415926... = PI *)
(** Coordinates.c:2032-2036 *)
Definition x_ofSpherical3 (p : cpars) : fn3 := fun r U phi => let c := c_par p in r * cos phi * cos (PI * Csch c * sinh (c * U) / 2).
(** Coordinates.c:2037-2041 *)
Definition y_ofSpherical3 (p : cpars) : fn3 := fun r U phi => let c := c_par p in r * cos (PI * Csch c * sinh (c * U) / 2) * sin phi.
(** Coordinates.c:2042-2046 *)
Definition z_ofSpherical3 (p : cpars) : fn3 := fun r U phi => let c := c_par p in r * sin (PI * Csch c * sinh (c * U) / 2).
(** Coordinates.c:2048-2052 *)
Definition dr_Spherical3_dx (p : cpars) : fn3 := fun r U phi => let c := c_par p in cos phi * cos ((PI / 2) * Csch c * sinh (c * U)).
(** Coordinates.c:2053-2057 *)
Definition dr_Spherical3_dy (p : cpars) : fn3 := fun r U phi => let c := c_par p in cos ((PI / 2) * Csch c * sinh (c * U)) * sin phi.
(** Coordinates.c:2058-2062 *)
Definition dr_Spherical3_dz (p : cpars) : fn3 := fun r U phi => let c := c_par p in sin ((PI / 2) * Csch c * sinh (c * U)).
(** Coordinates.c:2063-2067 *)
Definition dU_Spherical3_dx (p : cpars) : fn3 := fun r U phi => let c := c_par p in (- (2 / PI)) * cos phi * sin ((PI / 2) * Csch c * sinh (c * U)) * sinh c / (c * r * sqrt ((cosh (c * U)) ^ 2)).
(** Coordinates.c:2068-2072 *)
Definition dU_Spherical3_dy (p : cpars) : fn3 := fun r U phi => let c := c_par p in (- (2 / PI)) * sin phi * sin ((PI / 2) * Csch c * sinh (c * U)) * sinh c / (c * r * sqrt ((cosh (c * U)) ^ 2)).
(** Coordinates.c:2073-2077 *)
Definition dU_Spherical3_dz (p : cpars) : fn3 := fun r U phi => let c := c_par p in (sqrt 2 / PI) * sqrt (1 + (cos ((PI / 2) * Csch c * sinh (c * U))) ^ 2 - (sin ((PI / 2) * Csch c * sinh (c * U))) ^ 2) * sinh c / (c * r * sqrt ((cosh (c * U)) ^ 2)).
(** Coordinates.c:2078-2082 *)
Definition dphi_Spherical3_dx (p : cpars) : fn3 := fun r U phi => let c := c_par p in - (Sec ((PI / 2) * Csch c * sinh (c * U)) * sin phi / r).
(** Coordinates.c:2083-2087 *)
Definition dphi_Spherical3_dy (p : cpars) : fn3 := fun r U phi => let c := c_par p in cos phi * Sec ((PI / 2) * Csch c * sinh (c * U)) / r.
(** Coordinates.c:2089-2093 *)
Definition ddr_Spherical3_dxdx (p : cpars) : fn3 := fun r U phi => let c := c_par p in ((cos ((PI / 2) * Csch c * sinh (c * U))) ^ 2 * (sin phi) ^ 2 + (sin ((PI / 2) * Csch c * sinh (c * U))) ^ 2) / r.
(** Coordinates.c:2094-2098 *)
Definition ddr_Spherical3_dxdy (p : cpars) : fn3 := fun r U phi => let c := c_par p in - (cos phi * (cos ((PI / 2) * Csch c * sinh (c * U))) ^ 2 * sin phi / r).
(** Coordinates.c:2099-2103 *)
Definition ddr_Spherical3_dxdz (p : cpars) : fn3 := fun r U phi => let c := c_par p in - (cos phi * cos ((PI / 2) * Csch c * sinh (c * U)) * sin ((PI / 2) * Csch c * sinh (c * U)) / r).
(** Coordinates.c:2104-2108 *)
Definition ddr_Spherical3_dydy (p : cpars) : fn3 := fun r U phi => let c := c_par p in ((cos phi) ^ 2 * (cos ((PI / 2) * Csch c * sinh (c * U))) ^ 2 + (sin ((PI / 2) * Csch c * sinh (c * U))) ^ 2) / r.
(** Coordinates.c:2109-2113 *)
Definition ddr_Spherical3_dydz (p : cpars) : fn3 := fun r U phi => let c := c_par p in - (cos ((PI / 2) * Csch c * sinh (c * U)) * sin phi * sin ((PI / 2) * Csch c * sinh (c * U)) / r).
(** Coordinates.c:2114-2118 *)
Definition ddr_Spherical3_dzdz (p : cpars) : fn3 := fun r U phi => let c := c_par p in (cos ((PI / 2) * Csch c * sinh (c * U))) ^ 2 / r.
(** Coordinates.c:2119-2123 *)
Definition ddU_Spherical3_dxdx (p : cpars) : fn3 := fun r U phi => let c := c_par p in (- (2 / PI ^ 2)) * sinh c * (PI * (cosh (c * U)) ^ 2 * ((- 2) * (cos phi) ^ 4 * (cos ((PI / 2) * Csch c * sinh (c * U))) ^ 2 - (cos phi) ^ 2 * (cos ((PI / 2) * Csch c * sinh (c * U))) ^ 2 * (sin phi) ^ 2 + (cos ((PI / 2) * Csch c * sinh (c * U))) ^ 2 * (sin phi) ^ 4 + (sin phi) ^ 2 * (sin ((PI / 2) * Csch c * sinh (c * U))) ^ 2) + 2 * (cos phi) ^ 2 * cos ((PI / 2) * Csch c * sinh (c * U)) * sin ((PI / 2) * Csch c * sinh (c * U)) * sinh c * sinh (c * U)) * tan ((PI / 2) * Csch c * sinh (c * U)) / (c * r ^ 2 * Power ((cosh (c * U)) ^ 2) (3 / 2)).
(** Coordinates.c:2124-2128 *)
Definition ddU_Spherical3_dxdy (p : cpars) : fn3 := fun r U phi => let c := c_par p in (2 / PI ^ 2) * cos phi * sin phi * sinh c * (PI * (cosh (c * U)) ^ 2 * (2 + (cos ((PI / 2) * Csch c * sinh (c * U))) ^ 2 - (sin ((PI / 2) * Csch c * sinh (c * U))) ^ 2) - 2 * cos ((PI / 2) * Csch c * sinh (c * U)) * sin ((PI / 2) * Csch c * sinh (c * U)) * sinh c * sinh (c * U)) * tan ((PI / 2) * Csch c * sinh (c * U)) / (c * r ^ 2 * Power ((cosh (c * U)) ^ 2) (3 / 2)).
(** Coordinates.c:2129-2133 *)
Definition ddU_Spherical3_dxdz (p : cpars) : fn3 := fun r U phi => let c := c_par p in (2 / PI ^ 2) * cos phi * sinh c * (PI * (- (cos ((PI / 2) * Csch c * sinh (c * U))) ^ 2 + (sin ((PI / 2) * Csch c * sinh (c * U))) ^ 2) + 2 * cos ((PI / 2) * Csch c * sinh (c * U)) * Sech (c * U) * sin ((PI / 2) * Csch c * sinh (c * U)) * sinh c * tanh (c * U)) / (c * r ^ 2 * sqrt ((cosh (c * U)) ^ 2)).
(** Coordinates.c:2134-2138 *)
Definition ddU_Spherical3_dydy (p : cpars) : fn3 := fun r U phi => let c := c_par p in (- (2 / PI ^ 2)) * sinh c * (PI * (cosh (c * U)) ^ 2 * ((cos phi) ^ 4 * (cos ((PI / 2) * Csch c * sinh (c * U))) ^ 2 - 2 * (cos ((PI / 2) * Csch c * sinh (c * U))) ^ 2 * (sin phi) ^ 4 + (cos phi) ^ 2 * (- ((cos ((PI / 2) * Csch c * sinh (c * U))) ^ 2 * (sin phi) ^ 2) + (sin ((PI / 2) * Csch c * sinh (c * U))) ^ 2)) + 2 * cos ((PI / 2) * Csch c * sinh (c * U)) * (sin phi) ^ 2 * sin ((PI / 2) * Csch c * sinh (c * U)) * sinh c * sinh (c * U)) * tan ((PI / 2) * Csch c * sinh (c * U)) / (c * r ^ 2 * Power ((cosh (c * U)) ^ 2) (3 / 2)).
(** Coordinates.c:2139-2143 *)
Definition ddU_Spherical3_dydz (p : cpars) : fn3 := fun r U phi => let c := c_par p in (2 / PI ^ 2) * sin phi * sinh c * (PI * (- (cos ((PI / 2) * Csch c * sinh (c * U))) ^ 2 + (sin ((PI / 2) * Csch c * sinh (c * U))) ^ 2) + 2 * cos ((PI / 2) * Csch c * sinh (c * U)) * Sech (c * U) * sin ((PI / 2) * Csch c * sinh (c * U)) * sinh c * tanh (c * U)) / (c * r ^ 2 * sqrt ((cosh (c * U)) ^ 2)).
(** Coordinates.c:2144-2148 *)
Definition ddU_Spherical3_dzdz (p : cpars) : fn3 := fun r U phi => let c := c_par p in (- (4 / PI ^ 2)) * cos ((PI / 2) * Csch c * sinh (c * U)) * sinh c * (PI * sin ((PI / 2) * Csch c * sinh (c * U)) + cos ((PI / 2) * Csch c * sinh (c * U)) * Sech (c * U) * sinh c * tanh (c * U)) / (c * r ^ 2 * sqrt ((cosh (c * U)) ^ 2)).
(** Coordinates.c:2149-2153 *)
Definition ddphi_Spherical3_dxdx (p : cpars) : fn3 := fun r U phi => let c := c_par p in 2 * cos phi * (Sec ((PI / 2) * Csch c * sinh (c * U))) ^ 2 * sin phi / r ^ 2.
(** Coordinates.c:2154-2158 *)
Definition ddphi_Spherical3_dxdy (p : cpars) : fn3 := fun r U phi => let c := c_par p in (cos phi) ^ 2 * (Sec ((PI / 2) * Csch c * sinh (c * U))) ^ 2 * (- 1 + (tan phi) ^ 2) / r ^ 2.
(** Coordinates.c:2159-2162 *)
Definition ddphi_Spherical3_dxdz (p : cpars) : fn3 := fun r U phi => let c := c_par p in 0.
(** Coordinates.c:2163-2167 *)
Definition ddphi_Spherical3_dydy (p : cpars) : fn3 := fun r U phi => let c := c_par p in (- 2) * cos phi * (Sec ((PI / 2) * Csch c * sinh (c * U))) ^ 2 * sin phi / r ^ 2.
(** Coordinates.c:2168-2171 *)
Definition ddphi_Spherical3_dydz (p : cpars) : fn3 := fun r U phi => let c := c_par p in 0.
(** Coordinates.c:2172-2175 *)
Definition ddphi_Spherical3_dzdz (p : cpars) : fn3 := fun r U phi => let c := c_par p in 0.
(** tan_stretch coordinates *)
(** Coordinates.c:2185-2197 *)
Definition x_of_xs (p : cpars) (xs : R) : R := let s := s_par p in if Req_EM_T s 0 then xs else tan (xs * s * PI / 2) * 2 / (PI * s).
(** Coordinates.c:2198-2215 *)
Definition dxs_dx (p : cpars) (xs : R) : R := let arg := xs * s_par p in if Rle_dec 1 (Rabs arg) then 0 else let u := tan (arg * PI / 2) in 1 / (1 + u * u).
(** Coordinates.c:2216-2235 *)
Definition ddxs_dxdx (p : cpars) (xs : R) : R :=
  let s := s_par p in let arg := xs * s in if Rle_dec 1 (Rabs arg) then 0 else let u := tan (arg * PI / 2) in let dum := 1 / (1 + u * u) in - PI * s * u * dum * dum.
(** Coordinates.c:2237-2240 *)
Definition x_of_tan_stretch (p : cpars) : fn3 := fun xs ys zs => x_of_xs p xs.
(** Coordinates.c:2241-2244 *)
Definition y_of_tan_stretch (p : cpars) : fn3 := fun xs ys zs => x_of_xs p ys.
(** Coordinates.c:2245-2248 *)
Definition z_of_tan_stretch (p : cpars) : fn3 := fun xs ys zs => x_of_xs p zs.
(** Coordinates.c:2252-2255 *)
Definition dxs_dx_tan_stretch (p : cpars) : fn3 := fun xs ys zs => dxs_dx p xs.
(** Coordinates.c:2256-2259 *)
Definition dys_dy_tan_stretch (p : cpars) : fn3 := fun xs ys zs => dxs_dx p ys.
(** Coordinates.c:2260-2263 *)
Definition dzs_dz_tan_stretch (p : cpars) : fn3 := fun xs ys zs => dxs_dx p zs.
(** Coordinates.c:2268-2271 *)
Definition ddxs_dxdx_tan_stretch (p : cpars) : fn3 := fun xs ys zs => ddxs_dxdx p xs.
(** Coordinates.c:2272-2275 *)
Definition ddys_dydy_tan_stretch (p : cpars) : fn3 := fun xs ys zs => ddxs_dxdx p ys.
(** Coordinates.c:2276-2279 *)
Definition ddzs_dzdz_tan_stretch (p : cpars) : fn3 := fun xs ys zs => ddxs_dxdx p zs.
(** three entries, and the entries [m][n] with m <= n that init_CoordTransform_And_Derivs fills *)
Definition tab {A} (a b c : A) (i : d3) : A := match i with D1 => a | D2 => b | D3 => c end.
Definition tab6 (xx xy xz yy yz zz : fn3) (m n : d3) : option fn3 :=
  match m, n with D1, D1 => Some xx | D1, D2 => Some xy | D1, D3 => Some xz | D2, D2 => Some yy | D2, D3 => Some yz | D3, D3 => Some zz | _, _ => None end.
Definition noTab : d3 -> d3 -> d3 -> option fn3 := fun _ _ _ => None.
(** the values of box%d_Coordinates treated here *)
Inductive cname := Polar | PolarCE | SphericalDF | compactSphericalDF | Spherical | Spherical2 | Spherical3 | tan_stretch.

(** init_CoordTransform_And_Derivs, Coordinates.c:50-370, for the coordinate names above; the Cartesian, AnsorgNS, cubed sphere and other names are not modelled here *)
Definition init_Coord (p : cpars) (name : cname) : coords :=
  match name with
  (* Coordinates.c:80-121 *)
  | Polar => Coords (tab x_ofPolar y_ofPolar z_ofPolar)
      (tab (tab drho_dx drho_dy zero_of_xyz) (tab dphi_dx dphi_dy zero_of_xyz) (tab zero_of_xyz zero_of_xyz one_of_xyz))
      noTab
  (* Coordinates.c:122-141 *)
  | PolarCE => Coords (tab (x_ofPolarCE p) (y_ofPolarCE p) z_equals_Z)
      (tab (tab drho_dx drho_dy zero_of_xyz) (tab (dYPolarCE_dx p) (dYPolarCE_dy p) zero_of_xyz) (tab zero_of_xyz zero_of_xyz one_of_xyz))
      noTab
  (* Coordinates.c:142-179 *)
  | SphericalDF => Coords (tab (x_ofSphericalDF p) (y_ofSphericalDF p) (z_ofSphericalDF p))
      (tab (tab (dr_dx p) (dr_dy p) (dr_dz p)) (tab (dthm_dx p) (dthm_dy p) (dthm_dz p)) (tab (dphiSphericalDF_dx p) (dphiSphericalDF_dy p) zero_of_xyz))
      (tab (tab6 (ddr_SphericalDF_dxdx p) (ddr_SphericalDF_dxdy p) (ddr_SphericalDF_dxdz p) (ddr_SphericalDF_dydy p) (ddr_SphericalDF_dydz p) (ddr_SphericalDF_dzdz p))
        (tab6 (ddthm_SphericalDF_dxdx p) (ddthm_SphericalDF_dxdy p) (ddthm_SphericalDF_dxdz p) (ddthm_SphericalDF_dydy p) (ddthm_SphericalDF_dydz p) (ddthm_SphericalDF_dzdz p))
        (tab6 (ddphi_SphericalDF_dxdx p) (ddphi_SphericalDF_dxdy p) (ddphi_SphericalDF_dxdz p) (ddphi_SphericalDF_dydy p) (ddphi_SphericalDF_dydz p) (ddphi_SphericalDF_dzdz p)))
  (* Coordinates.c:180-217 *)
  | compactSphericalDF => Coords (tab (x_ofcompactSphericalDF p) (y_ofcompactSphericalDF p) (z_ofcompactSphericalDF p))
      (tab (tab (dxi_dx p) (dxi_dy p) (dxi_dz p)) (tab (dthmcompactSphericalDF_dx p) (dthmcompactSphericalDF_dy p) (dthmcompactSphericalDF_dz p)) (tab (dphicompactSphericalDF_dx p) (dphicompactSphericalDF_dy p) zero_of_xyz))
      (tab (tab6 (ddxi_compactSphericalDF_dxdx p) (ddxi_compactSphericalDF_dxdy p) (ddxi_compactSphericalDF_dxdz p) (ddxi_compactSphericalDF_dydy p) (ddxi_compactSphericalDF_dydz p) (ddxi_compactSphericalDF_dzdz p))
        (tab6 (ddthm_compactSphericalDF_dxdx p) (ddthm_compactSphericalDF_dxdy p) (ddthm_compactSphericalDF_dxdz p) (ddthm_compactSphericalDF_dydy p) (ddthm_compactSphericalDF_dydz p) (ddthm_compactSphericalDF_dzdz p))
        (tab6 (ddphi_compactSphericalDF_dxdx p) (ddphi_compactSphericalDF_dxdy p) (ddphi_compactSphericalDF_dxdz p) (ddphi_compactSphericalDF_dydy p) (ddphi_compactSphericalDF_dydz p) (ddphi_compactSphericalDF_dzdz p)))
  (* Coordinates.c:218-255 *)
  | Spherical => Coords (tab x_ofSpherical y_ofSpherical z_ofSpherical)
      (tab (tab drSpherical_dx drSpherical_dy drSpherical_dz) (tab dthetaSpherical_dx dthetaSpherical_dy dthetaSpherical_dz) (tab dphiSpherical_dx dphiSpherical_dy zero_of_xyz))
      (tab (tab6 ddr_Spherical_dxdx ddr_Spherical_dxdy ddr_Spherical_dxdz ddr_Spherical_dydy ddr_Spherical_dydz ddr_Spherical_dzdz)
        (tab6 ddtheta_Spherical_dxdx ddtheta_Spherical_dxdy ddtheta_Spherical_dxdz ddtheta_Spherical_dydy ddtheta_Spherical_dydz ddtheta_Spherical_dzdz)
        (tab6 ddphi_Spherical_dxdx ddphi_Spherical_dxdy ddphi_Spherical_dxdz ddphi_Spherical_dydy ddphi_Spherical_dydz ddphi_Spherical_dzdz))
  (* Coordinates.c:256-294 *)
  | Spherical2 => Coords (tab x_ofSpherical2 y_ofSpherical2 z_ofSpherical2)
      (tab (tab dr_Spherical2_dx dr_Spherical2_dy dr_Spherical2_dz) (tab dU_Spherical2_dx dU_Spherical2_dy dU_Spherical2_dz) (tab dphi_Spherical2_dx dphi_Spherical2_dy zero_of_xyz))
      (tab (tab6 ddr_Spherical2_dxdx ddr_Spherical2_dxdy ddr_Spherical2_dxdz ddr_Spherical2_dydy ddr_Spherical2_dydz ddr_Spherical2_dzdz)
        (tab6 ddU_Spherical2_dxdx ddU_Spherical2_dxdy ddU_Spherical2_dxdz ddU_Spherical2_dydy ddU_Spherical2_dydz ddU_Spherical2_dzdz)
        (tab6 ddphi_Spherical2_dxdx ddphi_Spherical2_dxdy ddphi_Spherical2_dxdz ddphi_Spherical2_dydy ddphi_Spherical2_dydz ddphi_Spherical2_dzdz))
  (* Coordinates.c:295-332 *)
  | Spherical3 => Coords (tab (x_ofSpherical3 p) (y_ofSpherical3 p) (z_ofSpherical3 p))
      (tab (tab (dr_Spherical3_dx p) (dr_Spherical3_dy p) (dr_Spherical3_dz p)) (tab (dU_Spherical3_dx p) (dU_Spherical3_dy p) (dU_Spherical3_dz p)) (tab (dphi_Spherical3_dx p) (dphi_Spherical3_dy p) zero_of_xyz))
      (tab (tab6 (ddr_Spherical3_dxdx p) (ddr_Spherical3_dxdy p) (ddr_Spherical3_dxdz p) (ddr_Spherical3_dydy p) (ddr_Spherical3_dydz p) (ddr_Spherical3_dzdz p))
        (tab6 (ddU_Spherical3_dxdx p) (ddU_Spherical3_dxdy p) (ddU_Spherical3_dxdz p) (ddU_Spherical3_dydy p) (ddU_Spherical3_dydz p) (ddU_Spherical3_dzdz p))
        (tab6 (ddphi_Spherical3_dxdx p) (ddphi_Spherical3_dxdy p) (ddphi_Spherical3_dxdz p) (ddphi_Spherical3_dydy p) (ddphi_Spherical3_dydz p) (ddphi_Spherical3_dzdz p)))
  (* Coordinates.c:333-370 *)
  | tan_stretch => Coords (tab (x_of_tan_stretch p) (y_of_tan_stretch p) (z_of_tan_stretch p))
      (tab (tab (dxs_dx_tan_stretch p) zero_of_xyz zero_of_xyz) (tab zero_of_xyz (dys_dy_tan_stretch p) zero_of_xyz) (tab zero_of_xyz zero_of_xyz (dzs_dz_tan_stretch p)))
      (tab (tab6 (ddxs_dxdx_tan_stretch p) zero_of_xyz zero_of_xyz zero_of_xyz zero_of_xyz zero_of_xyz)
        (tab6 zero_of_xyz zero_of_xyz zero_of_xyz (ddys_dydy_tan_stretch p) zero_of_xyz zero_of_xyz)
        (tab6 zero_of_xyz zero_of_xyz zero_of_xyz zero_of_xyz zero_of_xyz (ddzs_dzdz_tan_stretch p)))
  end.
