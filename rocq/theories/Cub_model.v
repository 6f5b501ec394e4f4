(** Model of src/utility/Coordinates/coordtrans_CubedSphere.c: sphered cubes ("cubed spheres"), their inverse, the derivatives of the inverse, the stretched version, and the relation of (lam,A,B) to r, Theta, Phi.
    doubles are reals; results returned through pointers are returned as tuples; a domain is a natural number (0 ... 5 in use).  The spectral interpolation in a plane (spec_Coeffs_inplaneN followed by spec_interpolate_inplaneN) is a parameter ip: array, plane index, A, B to value.  Division by zero is not modelled: the theorems exclude it. *)
From Verif Require Import Rutil Base Sparse_model Cart_model Coord_model Cheb_model Angle_model Index_model.
Local Open Scope R_scope.
(** sgrid_Coordinates.h:10-16 *)
Inductive ctype := CoordInfoNotSet | PyramidFrustum | innerCubedSphere | outerCubedSphere | CubedShell.
(** box->CI (tCoordInfo), the members used here; the index 0/1 of the inner/outer surface is a bool (true = outer), FSurf = NULL is None, dFSurfdX[si][2], [3] and idSurfdX[si][2], [3] are dFA, dFB and idA, idB *)
Record CInfo := MkCI { dom : nat; typ : ctype; xc : R; yc : R; zc : R; srad : bool -> R; iSurf : bool -> Z; idA : bool -> Z; idB : bool -> Z; useF : bool;
  FSurf : bool -> option (R -> R -> R); dFA : bool -> option (R -> R -> R); dFB : bool -> option (R -> R -> R) }.
(** the box: CI, n1, n2, bbox[2..5], box->v and the interpolation *)
Record cbox := MkCB { ci : CInfo; bn1 : Z; bn2 : Z; bbox2 : R; bbox3 : R; bbox4 : R; bbox5 : R; bv : vars; ip : list R -> Z -> R -> R -> R }.
(** box->v[i] and an access to it with int indices *)
Definition bvar (b : cbox) (i : Z) : res (list R) := if (i <? 0)%Z then UB else deref (bv b) (Z.to_nat i).
Definition zrd (a : list R) (i : Z) : res R := if (i <? 0)%Z then UB else rd a (Z.to_nat i).
(** p = (n1-1) * (si==1) *)
Definition plane_of (b : cbox) (si : bool) : Z := ((bn1 b - 1) * (if si then 1 else 0))%Z.
(** the bodies of CubedSphere_sigma_AB, CubedSphere_dsigma_dA_AB and CubedSphere_dsigma_dB_AB, coordtrans_CubedSphere.c:557-599, which differ in the function and the variable they use; interpolate_isig_in_plane1_at_p, lines 529-551, is the parameter ip on the variable *)
Definition surf_AB (b : cbox) (F : option (R -> R -> R)) (isig : Z) (si : bool) (A B : R) : res R :=
  match (if useF (ci b) then F else None) with
  | Some f => Ok (f A B)
  | None => do a <- bvar b isig; Ok (ip b a (plane_of b si) A B)
  end.
(** the bodies of CubedSphere_sigma, CubedSphere_dsigma_dA, CubedSphere_dsigma_dB, coordtrans_CubedSphere.c:607-676, which differ in the variable and in the value without a variable *)
Definition surf_val (b : cbox) (F : option (R -> R -> R)) (isig : Z) (dflt : R) (si : bool) (ind : Z) (A B : R) : res R :=
  if (isig <? 1)%Z then Ok dflt
  else if (0 <=? ind)%Z then
    let k := kOfInd ind (bn1 b) (bn2 b) in let j := jOfInd ind (bn1 b) (bn2 b) k in
    let ijk := Index (bn1 b) (bn2 b) (plane_of b si) j k in do a <- bvar b isig; zrd a ijk
  else surf_AB b F isig si A B.
(** coordtrans_CubedSphere.c:557-570, 572-585, 586-599 *)
Definition CubedSphere_sigma_AB (b : cbox) (si : bool) : R -> R -> res R := surf_AB b (FSurf (ci b) si) (iSurf (ci b) si) si.
Definition CubedSphere_dsigma_dA_AB (b : cbox) (si : bool) : R -> R -> res R := surf_AB b (dFA (ci b) si) (idA (ci b) si) si.
Definition CubedSphere_dsigma_dB_AB (b : cbox) (si : bool) : R -> R -> res R := surf_AB b (dFB (ci b) si) (idB (ci b) si) si.
(** coordtrans_CubedSphere.c:607-629, 631-653, 654-676 *)
Definition CubedSphere_sigma (b : cbox) (si : bool) : Z -> R -> R -> res R := surf_val b (FSurf (ci b) si) (iSurf (ci b) si) (srad (ci b) si) si.
Definition CubedSphere_dsigma_dA (b : cbox) (si : bool) : Z -> R -> R -> res R := surf_val b (dFA (ci b) si) (idA (ci b) si) 0 si.
Definition CubedSphere_dsigma_dB (b : cbox) (si : bool) : Z -> R -> R -> res R := surf_val b (dFB (ci b) si) (idB (ci b) si) 0 si.
(** dir = domain/2 + 1, pm = 2*(domain%2) - 1 *)
Definition cdir (b : cbox) : nat := (dom (ci b) / 2 + 1)%nat.
Definition cpm (b : cbox) : R := 2 * INR (dom (ci b) mod 2) - 1.
(** *** (lam,A,B) -> (x,y,z) *)
(** xyz_of_lamAB_CubSph, coordtrans_CubedSphere.c:38-111 *)
Definition xyz_of_lamAB_CubSph (b : cbox) (ind : Z) (lam A B : R) : res (R * R * R) :=
  let sqrt_1_A2_B2 := sqrt (1 + A * A + B * B) in let pm := cpm b in
  do (a0, a1) <- match typ (ci b) with
    | PyramidFrustum => Ok (pm * srad (ci b) false, pm * srad (ci b) true)
    | innerCubedSphere => do sigma0 <- CubedSphere_sigma b false ind A B; Ok (pm * sigma0 / sqrt_1_A2_B2, pm * srad (ci b) true)
    | outerCubedSphere => do sigma1 <- CubedSphere_sigma b true ind A B; Ok (pm * srad (ci b) false, pm * sigma1 / sqrt_1_A2_B2)
    | CubedShell => do sigma0 <- CubedSphere_sigma b false ind A B; do sigma1 <- CubedSphere_sigma b true ind A B; Ok (pm * sigma0 / sqrt_1_A2_B2, pm * sigma1 / sqrt_1_A2_B2)
    | CoordInfoNotSet => Err
    end;
  Ok (if Nat.eqb (cdir b) 1 then let rx := (a1 - a0) * lam + a0 in (xc (ci b) + rx, yc (ci b) + A * rx, zc (ci b) + B * rx)
      else if Nat.eqb (cdir b) 2 then let ry := (a1 - a0) * lam + a0 in (xc (ci b) + A * ry, yc (ci b) + ry, zc (ci b) + B * ry)
      else let rz := (a1 - a0) * lam + a0 in (xc (ci b) + B * rz, yc (ci b) + A * rz, zc (ci b) + rz)).
(** *** (x,y,z) -> (lam,A,B) *)
(** the checks of *A and *B, coordtrans_CubedSphere.c:161-176: new value and whether stat is set to -1 *)
Definition put_in_range (A lo hi : R) : R * bool :=
  if Rlt_dec A lo then if dequal A lo then (lo, false) else if dequal A hi then (hi, false) else (A, true)
  else if Rlt_dec hi A then if dequal A lo then (lo, false) else if dequal A hi then (hi, false) else (A, true)
  else (A, false).
(** lamAB_of_xyz_CubSph, coordtrans_CubedSphere.c:115-236; the result is (stat, (lam, A, B)) *)
Definition lamAB_of_xyz_CubSph (b : cbox) (ind : Z) (x y z : R) : res (Z * (R * R * R)) :=
  let pm := cpm b in let rx := x - xc (ci b) in let ry := y - yc (ci b) in let rz := z - zc (ci b) in
  let rc := sqrt (rx * rx + ry * ry + rz * rz) in
  let oosqrt_1_A2_B2 := if Nat.eqb (cdir b) 1 then Rabs rx / rc else if Nat.eqb (cdir b) 2 then Rabs ry / rc else Rabs rz / rc in
  let '(A, B) := if Nat.eqb (cdir b) 1 then (ry / rx, rz / rx) else if Nat.eqb (cdir b) 2 then (rx / ry, rz / ry) else (ry / rz, rx / rz) in
  let '(A, outA) := put_in_range A (bbox2 b) (bbox3 b) in
  let '(B, outB) := put_in_range B (bbox4 b) (bbox5 b) in
  let stat := if outA || outB then (-1)%Z else 0%Z in
  let stat2 := if (ind <? 0)%Z then (stat * 2)%Z else stat in
  do (a0, a1, stat) <- match typ (ci b) with
    | PyramidFrustum => Ok (pm * srad (ci b) false, pm * srad (ci b) true, stat)
    | innerCubedSphere => do sigma0 <- CubedSphere_sigma b false ind A B; Ok (pm * sigma0 * oosqrt_1_A2_B2, pm * srad (ci b) true, stat2)
    | outerCubedSphere => do sigma1 <- CubedSphere_sigma b true ind A B; Ok (pm * srad (ci b) false, pm * sigma1 * oosqrt_1_A2_B2, stat2)
    | CubedShell => do sigma0 <- CubedSphere_sigma b false ind A B; do sigma1 <- CubedSphere_sigma b true ind A B; Ok (pm * sigma0 * oosqrt_1_A2_B2, pm * sigma1 * oosqrt_1_A2_B2, stat2)
    | CoordInfoNotSet => Err
    end;
  let lam := if Nat.eqb (cdir b) 1 then (rx - a0) / (a1 - a0) else if Nat.eqb (cdir b) 2 then (ry - a0) / (a1 - a0) else (rz - a0) / (a1 - a0) in
  Ok (stat, (lam, A, B)).
(** *** derivatives of the inverse *)
(** dlamAB_dxyz_CubSph, coordtrans_CubedSphere.c:239-465; the result is ((x,y,z), table) with table i m = d(lam,A,B)_i/dx_m; da0, da1 are the values that the C variables da0_dx = da0_dy = da0_dz and da1_dx = ... have before they are multiplied *)
Definition dlamAB_dxyz_CubSph (b : cbox) (ind : Z) (lam A B : R) : res (R * R * R * (d3 -> d3 -> R)) :=
  let sqrt_1_A2_B2 := sqrt (1 + A * A + B * B) in let pm := cpm b in
  do (a0, a1, da0, da1, A0, B0, A1, B1) <- match typ (ci b) with
    | PyramidFrustum => Ok (pm * srad (ci b) false, pm * srad (ci b) true, 0, 0, 0, 0, 0, 0)
    | innerCubedSphere => do sigma0 <- CubedSphere_sigma b false ind A B; do sA <- CubedSphere_dsigma_dA b false ind A B; do sB <- CubedSphere_dsigma_dB b false ind A B;
        let a0 := pm * sigma0 / sqrt_1_A2_B2 in let a1 := pm * srad (ci b) true in Ok (a0, a1, a0, 0, sA / sigma0, sB / sigma0, 0, 0)
    | outerCubedSphere => let a0 := pm * srad (ci b) false in do sigma1 <- CubedSphere_sigma b true ind A B; do sA <- CubedSphere_dsigma_dA b true ind A B; do sB <- CubedSphere_dsigma_dB b true ind A B;
        let a1 := pm * sigma1 / sqrt_1_A2_B2 in Ok (a0, a1, 0, a1, 0, 0, sA / sigma1, sB / sigma1)
    | CubedShell => do sigma0 <- CubedSphere_sigma b false ind A B; do sA0 <- CubedSphere_dsigma_dA b false ind A B; do sB0 <- CubedSphere_dsigma_dB b false ind A B;
        do sigma1 <- CubedSphere_sigma b true ind A B; do sA1 <- CubedSphere_dsigma_dA b true ind A B; do sB1 <- CubedSphere_dsigma_dB b true ind A B;
        let a0 := pm * sigma0 / sqrt_1_A2_B2 in let a1 := pm * sigma1 / sqrt_1_A2_B2 in Ok (a0, a1, a0, a1, sA0 / sigma0, sB0 / sigma0, sA1 / sigma1, sB1 / sigma1)
    | CoordInfoNotSet => Err
    end;
  Ok (if Nat.eqb (cdir b) 1 then
        let rx := (a1 - a0) * lam + a0 in let '(x, y, z) := (xc (ci b) + rx, yc (ci b) + A * rx, zc (ci b) + B * rx) in
        let ry := y - yc (ci b) in let rz := z - zc (ci b) in let rx2 := rx * rx in let ry2 := ry * ry in let rz2 := rz * rz in let rc2 := rx2 + ry2 + rz2 in
        let mx := 1 / rx - rx / rc2 in let my := - ry / rc2 in let mz := - rz / rc2 in
        let mx0 := - A0 * (ry / rx2) - B0 * (rz / rx2) in let my0 := A0 / rx in let mz0 := B0 / rx in
        let mx1 := - A1 * (ry / rx2) - B1 * (rz / rx2) in let my1 := A1 / rx in let mz1 := B1 / rx in
        let da0_dx := da0 * (mx + mx0) in let da0_dy := da0 * (my + my0) in let da0_dz := da0 * (mz + mz0) in
        let da1_dx := da1 * (mx + mx1) in let da1_dy := da1 * (my + my1) in let da1_dz := da1 * (mz + mz1) in
        ((x, y, z), tab (tab ((1 - da0_dx - (da1_dx - da0_dx) * lam) / (a1 - a0)) ((- da0_dy - (da1_dy - da0_dy) * lam) / (a1 - a0)) ((- da0_dz - (da1_dz - da0_dz) * lam) / (a1 - a0)))
                        (tab (- ry / rx2) (1 / rx) 0) (tab (- rz / rx2) 0 (1 / rx)))
      else if Nat.eqb (cdir b) 2 then
        let ry := (a1 - a0) * lam + a0 in let '(x, y, z) := (xc (ci b) + A * ry, yc (ci b) + ry, zc (ci b) + B * ry) in
        let rx := x - xc (ci b) in let rz := z - zc (ci b) in let rx2 := rx * rx in let ry2 := ry * ry in let rz2 := rz * rz in let rc2 := rx2 + ry2 + rz2 in
        let mx := - rx / rc2 in let my := 1 / ry - ry / rc2 in let mz := - rz / rc2 in
        let mx0 := A0 / ry in let my0 := - A0 * (rx / ry2) - B0 * (rz / ry2) in let mz0 := B0 / ry in
        let mx1 := A1 / ry in let my1 := - A1 * (rx / ry2) - B1 * (rz / ry2) in let mz1 := B1 / ry in
        let da0_dx := da0 * (mx + mx0) in let da0_dy := da0 * (my + my0) in let da0_dz := da0 * (mz + mz0) in
        let da1_dx := da1 * (mx + mx1) in let da1_dy := da1 * (my + my1) in let da1_dz := da1 * (mz + mz1) in
        ((x, y, z), tab (tab ((- da0_dx - (da1_dx - da0_dx) * lam) / (a1 - a0)) ((1 - da0_dy - (da1_dy - da0_dy) * lam) / (a1 - a0)) ((- da0_dz - (da1_dz - da0_dz) * lam) / (a1 - a0)))
                        (tab (1 / ry) (- rx / ry2) 0) (tab 0 (- rz / ry2) (1 / ry)))
      else
        let rz := (a1 - a0) * lam + a0 in let '(x, y, z) := (xc (ci b) + B * rz, yc (ci b) + A * rz, zc (ci b) + rz) in
        let rx := x - xc (ci b) in let ry := y - yc (ci b) in let rx2 := rx * rx in let ry2 := ry * ry in let rz2 := rz * rz in let rc2 := rx2 + ry2 + rz2 in
        let mx := - rx / rc2 in let my := - ry / rc2 in let mz := 1 / rz - rz / rc2 in
        let mx0 := B0 / rz in let my0 := A0 / rz in let mz0 := - A0 * (ry / rz2) - B0 * (rx / rz2) in
        let mx1 := B1 / rz in let my1 := A1 / rz in let mz1 := - A1 * (ry / rz2) - B1 * (rx / rz2) in
        let da0_dx := da0 * (mx + mx0) in let da0_dy := da0 * (my + my0) in let da0_dz := da0 * (mz + mz0) in
        let da1_dx := da1 * (mx + mx1) in let da1_dy := da1 * (my + my1) in let da1_dz := da1 * (mz + mz1) in
        ((x, y, z), tab (tab ((- da0_dx - (da1_dx - da0_dx) * lam) / (a1 - a0)) ((- da0_dy - (da1_dy - da0_dy) * lam) / (a1 - a0)) ((1 - da0_dz - (da1_dz - da0_dz) * lam) / (a1 - a0)))
                        (tab 0 (1 / rz) (- ry / rz2)) (tab (1 / rz) 0 (- rx / rz2)))).
(** x_of_CubedSphere, y_of_..., z_of_... and dlam_dx_CubedSphere ... dB_dz_CubedSphere, coordtrans_CubedSphere.c:468-523: one component of the two functions above *)
Definition comp3 (k : d3) (p : R * R * R) : R := match k with D1 => fst (fst p) | D2 => snd (fst p) | D3 => snd p end.
Definition x_of_CubedSphere (b : cbox) (ind : Z) (k : d3) (lam A B : R) : res R := do p <- xyz_of_lamAB_CubSph b ind lam A B; Ok (comp3 k p).
Definition dlamAB_of_CubedSphere (b : cbox) (ind : Z) (i m : d3) (lam A B : R) : res R := do p <- dlamAB_dxyz_CubSph b ind lam A B; Ok (snd p i m).
(** *** r and lam *)
(** coordtrans_CubedSphere.c:691-711 *)
Definition r_of_lam_sig0sig1 (lam sig0 sig1 : R) : R := let L := sig1 - sig0 in L * lam + sig0.
Definition lam_of_r_sig0sig1 (r sig0 sig1 : R) : R := let L := sig1 - sig0 in (r - sig0) / L.
Definition dr_dlam_of_lam_sig0sig1 (lam sig0 sig1 : R) : R := let L := sig1 - sig0 in L.
Definition dlam_dr_of_lam_sig0sig1 (lam sig0 sig1 : R) : R := let L := sig1 - sig0 in 1 / L.
(** r_dr_dlam_of_lamAB_CubSph, coordtrans_CubedSphere.c:713-758; the result is (r, dr/dlam) *)
Definition r_dr_dlam_of_lamAB_CubSph (b : cbox) (ind : Z) (lam A B : R) : res (R * R) :=
  let sqrt_1_A2_B2 := sqrt (1 + A * A + B * B) in
  do (sig0, sig1) <- match typ (ci b) with
    | PyramidFrustum => Ok (srad (ci b) false * sqrt_1_A2_B2, srad (ci b) true * sqrt_1_A2_B2)
    | innerCubedSphere => do sig0 <- CubedSphere_sigma b false ind A B; Ok (sig0, srad (ci b) true * sqrt_1_A2_B2)
    | outerCubedSphere => do sig1 <- CubedSphere_sigma b true ind A B; Ok (srad (ci b) false * sqrt_1_A2_B2, sig1)
    | CubedShell => do sig0 <- CubedSphere_sigma b false ind A B; do sig1 <- CubedSphere_sigma b true ind A B; Ok (sig0, sig1)
    | CoordInfoNotSet => Err
    end;
  Ok (r_of_lam_sig0sig1 lam sig0 sig1, dr_dlam_of_lam_sig0sig1 lam sig0 sig1).
(** *** Theta, Phi and A, B *)
(** ThetaPhi_of_AB_CubSph, coordtrans_CubedSphere.c:766-818; the result is (Theta, Phi) *)
Definition ThetaPhi_of_AB_CubSph (b : cbox) (A B : R) : R * R :=
  let pm := cpm b in
  if Nat.eqb (cdir b) 1 then let Phi := Arg_plus pm (pm * A) in (Arg_plus (B * cos Phi) 1, Phi)
  else if Nat.eqb (cdir b) 2 then let Phi := Arg_plus (pm * A) pm in (Arg_plus (B * sin Phi) 1, Phi)
  else (Arg_plus pm (sqrt (A * A + B * B)), Arg_plus (pm * B) (pm * A)).
(** ThetaPhi_dThetaPhidAB_of_AB_CubSph, coordtrans_CubedSphere.c:821-910; the result is (Theta, Phi, dTheta/dA, dTheta/dB, dPhi/dA, dPhi/dB) *)
Definition ThetaPhi_dThetaPhidAB_of_AB_CubSph (b : cbox) (A B : R) : R * R * R * R * R * R :=
  let pm := cpm b in
  if Nat.eqb (cdir b) 1 then
    let Phi := Arg_plus pm (pm * A) in let Theta := Arg_plus (B * cos Phi) 1 in
    let dPhidA := dArgdy pm (pm * A) * pm in let dPhidB := 0 in
    let dThetadA := dArgdx (B * cos Phi) 1 * B * (- sin Phi) * dPhidA in
    let dThetadB := dArgdx (B * cos Phi) 1 * (cos Phi + B * (- sin Phi) * dPhidB) in (Theta, Phi, dThetadA, dThetadB, dPhidA, dPhidB)
  else if Nat.eqb (cdir b) 2 then
    let Phi := Arg_plus (pm * A) pm in let Theta := Arg_plus (B * sin Phi) 1 in
    let dPhidA := dArgdx (pm * A) pm * pm in let dPhidB := 0 in
    let dThetadA := dArgdx (B * sin Phi) 1 * B * cos Phi * dPhidA in
    let dThetadB := dArgdx (B * sin Phi) 1 * (sin Phi + B * cos Phi * dPhidB) in (Theta, Phi, dThetadA, dThetadB, dPhidA, dPhidB)
  else
    let sqrtA2B2 := sqrt (A * A + B * B) in
    let Phi := Arg_plus (pm * B) (pm * A) in let Theta := Arg_plus pm sqrtA2B2 in
    let dThetadA := dArgdy pm sqrtA2B2 * sin Phi * pm in let dThetadB := dArgdy pm sqrtA2B2 * cos Phi * pm in
    let oosqrtA2B2 := if Req_EM_T sqrtA2B2 0 then 0 else 1 / sqrtA2B2 in
    (Theta, Phi, dThetadA, dThetadB, cos Phi * pm * oosqrtA2B2, - sin Phi * pm * oosqrtA2B2).
(** *** the stretched version *)
(** coordtrans_CubedSphere.c:926-943 *)
Definition rho_of_lam_sig0sig1 (lam sig0 sig1 : R) : R := let L := sig1 - sig0 in (sig1 / L) * (1 - sig0 / (L * lam + sig0)).
Definition lam_of_rho_sig0sig1 (rho sig0 sig1 : R) : R := let L := sig1 - sig0 in (sig0 / L) * (sig1 / (sig1 - L * rho) - 1).
Definition drho_dlam_of_rho_sig0sig1 (rho sig0 sig1 : R) : R := let L := sig1 - sig0 in let d := sig1 - L * rho in d * d / (sig0 * sig1).
(** xyz_of_rhoAB_CubSph, coordtrans_CubedSphere.c:947-965 *)
Definition xyz_of_rhoAB_CubSph (b : cbox) (ind : Z) (rho A B : R) : res (R * R * R) :=
  match typ (ci b) with
  | CubedShell => do sigma0 <- CubedSphere_sigma b false ind A B; do sigma1 <- CubedSphere_sigma b true ind A B; xyz_of_lamAB_CubSph b ind (lam_of_rho_sig0sig1 rho sigma0 sigma1) A B
  | _ => Err
  end.
(** rhoAB_of_xyz_CubSph, coordtrans_CubedSphere.c:968-990 *)
Definition rhoAB_of_xyz_CubSph (b : cbox) (ind : Z) (x y z : R) : res (Z * (R * R * R)) :=
  do (stat, (lam, A, B)) <- lamAB_of_xyz_CubSph b ind x y z;
  match typ (ci b) with
  | CubedShell => do sigma0 <- CubedSphere_sigma b false ind A B; do sigma1 <- CubedSphere_sigma b true ind A B; Ok (stat, (rho_of_lam_sig0sig1 lam sigma0 sigma1, A, B))
  | _ => Err
  end.
(** drhoAB_dxyz_CubSph, coordtrans_CubedSphere.c:993-1035 *)
Definition drhoAB_dxyz_CubSph (b : cbox) (ind : Z) (rho A B : R) : res (R * R * R * (d3 -> d3 -> R)) :=
  match typ (ci b) with
  | CubedShell =>
      if (0 <? iSurf (ci b) false)%Z || (0 <? iSurf (ci b) true)%Z then Err else
      do sigma0 <- CubedSphere_sigma b false ind A B; do sigma1 <- CubedSphere_sigma b true ind A B;
      do (p, t) <- dlamAB_dxyz_CubSph b ind (lam_of_rho_sig0sig1 rho sigma0 sigma1) A B;
      let drho_dlam := drho_dlam_of_rho_sig0sig1 rho sigma0 sigma1 in
      Ok (p, fun i m => match i with D1 => drho_dlam * t D1 m | _ => t i m end)
  | _ => Err
  end.
