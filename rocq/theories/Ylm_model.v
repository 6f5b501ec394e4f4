(** Model of the Legendre functions and spherical harmonics, src/utility/Spectral/SphericalHarmonics.c.
    Doubles are reals, PI is the real number, ints are unbounded, calloc never fails.  Arrays are lists, an access outside an array is UB, errorexit is Err. *)
From Coq Require Import Reals List ZArith.
From Verif Require Import Base Loops Sparse_model.
Open Scope R_scope.

(** ind_lm, SphericalHarmonics.c:13 *)
Definition ind_lm (l m : nat) : nat := ((l * (l + 1)) / 2 + m)%nat.
(** one step of the loop SphericalHarmonics.c:28-32 *)
Definition pmm_step (somx2 : R) (s : R * R) : R * R := let '(Pmm, fact) := s in (Pmm * (- fact * somx2), fact + 2).
(** P_m^m, SphericalHarmonics.c:22-33 *)
Definition Pmm_of (m : nat) (x : R) : res R :=
  do s <- for_nat 1 (m + 1) (fun _ s => Ok (pmm_step (sqrt ((1 - x) * (1 + x))) s)) (1, 1); Ok (fst s).
(** one step of the recursion in l, SphericalHarmonics.c:45-50 and 84-89; the state is (Pmm, Pmp1_m) *)
Definition plm_step (m : nat) (x : R) (k : nat) (s : R * R) : R * R :=
  let '(Pmm, Pmp1) := s in (Pmp1, (x * INR (2 * k - 1) * Pmp1 - INR (k + m - 1) * Pmm) / INR (k - m)).
(** PLegendre, SphericalHarmonics.c:17-52 *)
Definition PLegendre (l m : Z) (x : R) : res R :=
  if ((m <? 0) || (l <? m))%Z then Err else if Rlt_dec 1 (Rabs x) then Err else
  let m' := Z.to_nat m in let l' := Z.to_nat l in
  do Pmm <- Pmm_of m' x;
  if (l =? m)%Z then Ok Pmm else
  let Pmp1 := x * INR (2 * m' + 1) * Pmm in
  if (l =? m + 1)%Z then Ok Pmp1 else
  do s <- for_nat (m' + 2) (l' + 1) (fun k s => Ok (plm_step m' x k s)) (Pmm, Pmp1); Ok (snd s).
(** alloc_Plm_Tab, SphericalHarmonics.c:55-59 *)
Definition alloc_Plm_Tab (lmax : nat) : list R := repeat 0 ((lmax * (lmax + 1)) / 2 + lmax + 1).
(** set_PlmTab_for_l_GE_m, SphericalHarmonics.c:63-90 *)
Definition set_PlmTab_for_l_GE_m (lmax m : nat) (x : R) (P : list R) : res (list R) :=
  if (lmax <? m)%nat then Err else
  do Pmm <- PLegendre (Z.of_nat m) (Z.of_nat m) x;
  do P <- wr P (ind_lm m m) Pmm;
  if (m =? lmax)%nat then Ok P else
  let Pmp1 := x * INR (2 * m + 1) * Pmm in
  do P <- wr P (ind_lm (m + 1) m) Pmp1;
  do s <- for_nat (m + 2) (lmax + 1) (fun k s => let '(P, q) := s in let q := plm_step m x k q in do P <- wr P (ind_lm k m) (snd q); Ok (P, q)) (P, (Pmm, Pmp1));
  Ok (fst s).
(** set_PlmTab, SphericalHarmonics.c:93-97 *)
Definition set_PlmTab (lmax : nat) (x : R) (Ptab : list R) : res (list R) :=
  for_nat 0 (lmax + 1) (fun m P => set_PlmTab_for_l_GE_m lmax m x P) Ptab.
(** Plm_from_Tab, SphericalHarmonics.c:100-103 *)
Definition Plm_from_Tab (Ptab : list R) (l m : nat) : res R := rd Ptab (ind_lm l m).
(** set_YlmTabs, SphericalHarmonics.c:107-132; the division by (l+m+1)*(l-m) at m=l (C: infinity, here some real) is never used *)
Definition set_YlmTabs (lmax : nat) (th ph : R) (ReY ImY : list R) : res (list R * list R) :=
  do ReY <- set_PlmTab lmax (cos th) ReY;
  let oo4pi := 1 / (4 * PI) in
  for_nat 0 (lmax + 1) (fun l t =>
    do s <- for_nat 0 (l + 1) (fun m s =>
      let '(ReY, ImY, fac) := s in
      let i := ind_lm l m in
      do P <- rd ReY i;
      let sfac := P * sqrt fac in
      do ReY <- wr ReY i (sfac * cos (INR m * ph));
      do ImY <- wr ImY i (sfac * sin (INR m * ph));
      Ok (ReY, ImY, fac / (INR (l + m + 1) * INR (l - m)))) (t, INR (2 * l + 1) * oo4pi);
    Ok (fst s)) (ReY, ImY).
(** Ylm_from_Tabs, SphericalHarmonics.c:135-154; the result is (Re, Im) *)
Definition Ylm_from_Tabs (ReY ImY : list R) (l : nat) (m : Z) : res (R * R) :=
  let mm := Z.to_nat (Z.abs m) in
  let i := ind_lm l mm in
  do a <- rd ReY i; do b <- rd ImY i;
  if (m <? 0)%Z then let pm := 1 - 2 * INR (mm mod 2) in Ok (pm * a, pm * b * (-1)) else Ok (a, b).
(** Re_Ylm_slowly and Im_Ylm_slowly, SphericalHarmonics.c:168-193, as a pair *)
Definition Ylm_slowly (l : nat) (m : Z) (theta phi : R) : res (R * R) :=
  do (a, b) <- set_YlmTabs l theta phi (alloc_Plm_Tab l) (alloc_Plm_Tab l); Ylm_from_Tabs a b l m.
(** Plm_slowly, SphericalHarmonics.c:157-167 *)
Definition Plm_slowly (l m : nat) (x : R) : res R := do P <- set_PlmTab l x (alloc_Plm_Tab l); Plm_from_Tab P l m.

(** SphHarm_dphi_forRealFunc, SphericalHarmonics.c:250-266.  [i] is carried through the loops; c and cdphi are different arrays *)
Definition SphHarm_dphi_forRealFunc (c cdphi : list R) (lmax : nat) : res (list R) :=
  do s <- for_nat 0 (lmax + 1) (fun l s => for_nat 0 (l + 1) (fun m s =>
    let '(cd, i) := s in
    do Rc <- rd c i; do Ic <- rd c (i + 1);
    do cd <- wr cd i (- INR m * Ic); do cd <- wr cd (i + 1) (INR m * Rc); Ok (cd, (i + 2)%nat)) s) (cdphi, 0%nat);
  Ok (fst s).
(** e_l^m as computed in SphericalHarmonics.c:293-295; for l=0 the denominator is -1 and the numerator 0 *)
Definition elm_of (l m : nat) : R := sqrt (Rabs ((INR l * INR l - INR m * INR m) / ((2 * INR l + 1) * (2 * INR l - 1)))).
(** e_{l+1}^m, SphericalHarmonics.c:297-301 *)
Definition elp1m_of (l m : nat) : R := let lp1 := INR l + 1 in sqrt ((lp1 * lp1 - INR m * INR m) / ((lp1 * 2 + 1) * (lp1 * 2 - 1))).
(** SphHarm_sin_theta_dtheta_forRealFunc, SphericalHarmonics.c:279-326; c and csdth are different arrays.  The index i-2l is never negative *)
Definition SphHarm_sin_theta_dtheta_forRealFunc (c csdth : list R) (lmax : nat) : res (list R) :=
  do s <- for_nat 0 (lmax + 1) (fun l s => for_nat 0 (l + 1) (fun m s =>
    let '(cd, i) := s in
    let elm := elm_of l m in let elp1m := elp1m_of l m in
    do Rclp1 <- rd c (i + 2 * (l + 1)); do Iclp1 <- rd c (i + 2 * (l + 1) + 1);
    do Rclm1 <- rd c (i - 2 * l); do Iclm1 <- rd c (i - 2 * l + 1);
    let lm1 := INR l - 1 in let lp2 := INR l + 2 in
    do cd <- wr cd i (lm1 * elm * Rclm1 - lp2 * elp1m * Rclp1);
    do cd <- wr cd (i + 1) (lm1 * elm * Iclm1 - lp2 * elp1m * Iclp1); Ok (cd, (i + 2)%nat)) s) (csdth, 0%nat);
  Ok (fst s).
