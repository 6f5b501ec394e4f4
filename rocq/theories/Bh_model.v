(** Model of src/physics/SingleBH/SingleBHisotropic.c: initial data for a single black hole in isotropic coordinates, at one point.
    The values psi, dpsiopsi, ddpsiopsi are given in the order of the list psiandderivs (sgrid_ADMvars.c:57-60: component 0, 1-3, 4-9), those of g, K, alpha, beta in the order of the list wl of computeADMconstraints (ADMvars.c:40-43: 0-5, 6-11, 12, 13-15). *)
From Verif Require Import Rutil.
From Coq Require Import List.
Import ListNotations.
Local Open Scope R_scope.
(** SingleBHisotropic, SingleBHisotropic.c:56-101; cf is the parameter SingleBH_ConformalFactor (14), M is BHmass1 (13) *)
Definition SingleBHisotropic (cf : bool) (M x1 x2 x3 : R) : (nat -> R) * (nat -> R) :=
  let r2 := x1 * x1 + x2 * x2 + x3 * x3 in
  let r := sqrt r2 in
  let psi := 1 + M / (2 * r) in
  let alpha := (1 - M / (2 * r)) / (1 + M / (2 * r)) in
  if cf then
    let r3 := r2 * r in
    let dd xa xb d := (3 * M / (2 * r3) * (xa / r) * (xb / r) - d) / psi in
    (fun n => nth n [psi; (- M / (2 * r2) * x1 / r) / psi; (- M / (2 * r2) * x2 / r) / psi; (- M / (2 * r2) * x3 / r) / psi;
       dd x1 x1 (M / (2 * r3)); dd x1 x2 0; dd x1 x3 0; dd x2 x2 (M / (2 * r3)); dd x2 x3 0; dd x3 x3 (M / (2 * r3))] 0,
     fun n => nth n [1; 0; 0; 1; 0; 1; 0; 0; 0; 0; 0; 0; alpha; 0; 0; 0] 0)
  else
    let psi4 := psi ^ 4 in
    (fun n => nth n [1; 0; 0; 0; 0; 0; 0; 0; 0; 0] 0,
     fun n => nth n [psi4; 0; 0; psi4; 0; psi4; 0; 0; 0; 0; 0; 0; alpha; 0; 0; 0] 0).
