(** Model of the surface functions of cubed spheres, src/utility/Coordinates/FSurf_CubedSpheres.c.
    [co] is the variable Coordinates_CubedSphere_sigma01_co of the box (nnodes values), [lmax] the global of the file.  Doubles are reals. *)
From Coq Require Import Reals List ZArith.
From Verif Require Import Base Loops Sparse_model Ylm_model Cub_model.
Open Scope R_scope.

(** one term of the sum over l and m >= 0 for a real function, FSurf_CubedSpheres.c:63-74 and 150-166; sm = (-1)^m *)
Definition add_term (m : nat) (sm Rc Ic ReY ImY fv : R) : R :=
  let Re_Ylmm := sm * ReY in let Im_Ylmm := - sm * ImY in
  let Rcm := sm * Rc in let Icm := - sm * Ic in
  if Nat.eqb m 0 then fv + Rc * ReY else fv + (Rc * ReY - Ic * ImY + Rcm * Re_Ylmm - Icm * Im_Ylmm).
(** FSurf_CubSph_sigma01_func, FSurf_CubedSpheres.c:20-80; si is the side (false: lam=0), N/2 the offset of the coefficients of the other side *)
Definition FSurf_CubSph_sigma01_func (b : cbox) (co : list R) (lmax : nat) (si : bool) (A B : R) : res R :=
  let N := List.length co in
  let offset := if si then (N / 2)%nat else 0%nat in
  let nYs := ((lmax * (lmax + 1)) / 2 + lmax + 1)%nat in
  let '(Theta, Phi) := ThetaPhi_of_AB_CubSph b A B in
  do (ReY, ImY) <- set_YlmTabs lmax Theta Phi (alloc_Plm_Tab lmax) (alloc_Plm_Tab lmax);
  if (N / 4 <=? nYs)%nat then Err else
  do s <- for_nat 0 (lmax + 1) (fun l s =>
    do t <- for_nat 0 (l + 1) (fun m t =>
      let '(fv, ijk, sm) := t in
      do Rclm <- rd co ijk; do Iclm <- rd co (ijk + 1);
      do (Re_Ylm, Im_Ylm) <- Ylm_from_Tabs ReY ImY l (Z.of_nat m);
      Ok (add_term m sm Rclm Iclm Re_Ylm Im_Ylm fv, (ijk + 2)%nat, - sm)) (s, 1);
    Ok (fst t)) (0, offset);
  Ok (fst s).
(** FSurf_CubSph_sigma01_derivs, FSurf_CubedSpheres.c:83-189; the result is (dsigdA, dsigdB) *)
Definition FSurf_CubSph_sigma01_derivs (b : cbox) (co : list R) (lmax : nat) (si : bool) (A B : R) : res (R * R) :=
  let N := List.length co in
  let offset := if si then (N / 2)%nat else 0%nat in
  let nYs := ((lmax * (lmax + 1)) / 2 + lmax + 1)%nat in
  let B := if Req_EM_T A 0 then if Req_EM_T B 0 then 1 / 10000000000 else B else B in
  let '(Theta, Phi, dThetadA, dThetadB, dPhidA, dPhidB) := ThetaPhi_dThetaPhidAB_of_AB_CubSph b A B in
  do (ReY, ImY) <- set_YlmTabs lmax Theta Phi (alloc_Plm_Tab lmax) (alloc_Plm_Tab lmax);
  do csdth <- SphHarm_sin_theta_dtheta_forRealFunc (skipn offset co) (repeat 0 (nYs * 2)) lmax;
  do cdphi <- SphHarm_dphi_forRealFunc (skipn offset co) (repeat 0 (nYs * 2)) lmax;
  do s <- for_nat 0 (lmax + 1) (fun l s =>
    do t <- for_nat 0 (l + 1) (fun m t =>
      let '(ft, fp, ijk, sm) := t in
      do Rcsdth <- rd csdth ijk; do Rcdphi <- rd cdphi ijk; do Icsdth <- rd csdth (ijk + 1); do Icdphi <- rd cdphi (ijk + 1);
      do (Re_Ylm, Im_Ylm) <- Ylm_from_Tabs ReY ImY l (Z.of_nat m);
      Ok (add_term m sm Rcsdth Icsdth Re_Ylm Im_Ylm ft, add_term m sm Rcdphi Icdphi Re_Ylm Im_Ylm fp, (ijk + 2)%nat, - sm)) (s, 1);
    Ok (fst t)) (0, 0, 0%nat);
  let '(ft, fp, _) := s in
  let fth := ft / sin Theta in
  Ok (fth * dThetadA + fp * dPhidA, fth * dThetadB + fp * dPhidB).
