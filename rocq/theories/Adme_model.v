(** Model of the ADM energy: ADMenergy_spheric_intergrand, src/physics/ADMvars/ADMenergy_spheric_intergrand.c:17-427 at one point, and its use in ADMvars.c:79-118.  Real numbers.  The derivatives ADMvars_dgxxx, which FirstDerivsOf_Sab computes from gxx, ..., gzz, are given: component 3*c+k is the derivative of component c of the metric in direction k.  Symmetric tensors have the components 11, 12, 13, 22, 23, 33.  In ADMvars.c the variable list, the switching on of variables and the condition timeforoutput are left out, and a box that is not SphericalDF (the program stops there) is not in the domain of the model. *)
From Verif Require Import Rutil Base Dir_model Lines_model Sphere_model.
Local Open Scope R_scope.
(** the values at one point, ADMenergy_spheric_intergrand.c:31-62 *)
Record adme_in := MkE { e_gb : nat -> R; e_x : nat -> R; e_psi : R; e_dpop : nat -> R; e_dgb : nat -> R }.
(** :10 *)
Definition pow2 (x : R) : R := x * x.
(** the expression for the integrand, :371-403 *)
Definition flux_expr (detg ginv11 ginv12 ginv13 ginv22 ginv23 ginv33 delg111 delg112 delg113 delg122 delg123 delg133 delg211 delg212 delg213 delg222 delg223 delg233 delg311 delg312 delg313 delg322 delg323 delg333 n1 n2 n3 : R) : R :=
  ((detg * (ginv22 * (0 * ginv23 * ((delg223 + delg322) * n2 + delg222 * n3) + 0.0625 * ginv33 * (( - delg233 + delg323) * n2 + (delg223 - delg322) * n3)) + ginv12 * (0 * ginv22 * (delg222 * n1 + (delg122 + delg212) * n2) + ginv33 * (0.0625 * (( - delg233 + delg323) * n1 + ( - delg133 + delg313) * n2) + (0.0625 * (delg123 + delg213) - 0.125 * delg312) * n3) + ginv13 * ((0.125 * delg123 - 0.0625 * (delg213 + delg312)) * n1 + 0.0625 * (( - delg113 + delg311) * n2 + ( - delg112 + delg211) * n3)) + ginv23 * ((0.125 * delg213 - 0.0625 * (delg123 + delg312)) * n2 + 0.0625 * (( - delg223 + delg322) * n1 + (delg122 - delg212) * n3))) + ginv13 * (ginv23 * (0.0625 * ((delg233 - delg323) * n1 + (delg133 - delg313) * n2) + ( - 0.0625 * (delg123 + delg213) + 0.125 * delg312) * n3) + 0 * ginv33 * (delg333 * n1 + (delg133 + delg313) * n3) + ginv22 * (( - 0.125 * delg213 + 0.0625 * (delg123 + delg312)) * n2 + 0.0625 * ((delg223 - delg322) * n1 + ( - delg122 + delg212) * n3))) + ginv11 * (0 * (ginv12 * ((delg112 + delg211) * n1 + delg111 * n2) + ginv13 * ((delg113 + delg311) * n1 + delg111 * n3)) + ginv23 * (( - 0.125 * delg123 + 0.0625 * (delg213 + delg312)) * n1 + 0.0625 * ((delg113 - delg311) * n2 + (delg112 - delg211) * n3)) + 0.0625 * (ginv22 * (( - delg122 + delg212) * n1 + (delg112 - delg211) * n2) + ginv33 * (( - delg133 + delg313) * n1 + (delg113 - delg311) * n3))) + 0.0625 * (((delg122 - delg212) * n1 + ( - delg112 + delg211) * n2) * pow2 (ginv12) + ((delg133 - delg313) * n1 + ( - delg113 + delg311) * n3) * pow2 (ginv13) + ((delg233 - delg323) * n2 + ( - delg223 + delg322) * n3) * pow2 (ginv23)) + 0 * (ginv23 * ginv33 * (delg333 * n2 + (delg233 + delg323) * n3) + delg111 * n1 * pow2 (ginv11) + delg222 * n2 * pow2 (ginv22) + delg333 * n3 * pow2 (ginv33)))) / PI).
(** the value of E_ADM at one point; the numbers are lines of ADMenergy_spheric_intergrand.c *)
Definition integrand_at (a : adme_in) : R :=
  let delg111 := e_dgb a 0 in (* :104-107 *)
  let delg112 := e_dgb a 3 in (* :109-112 *)
  let delg113 := e_dgb a 6 in (* :114-117 *)
  let delg122 := e_dgb a 9 in (* :119-122 *)
  let delg123 := e_dgb a 12 in (* :124-127 *)
  let delg133 := e_dgb a 15 in (* :129-132 *)
  let delg211 := e_dgb a 1 in (* :134-137 *)
  let delg212 := e_dgb a 4 in (* :139-142 *)
  let delg213 := e_dgb a 7 in (* :144-147 *)
  let delg222 := e_dgb a 10 in (* :149-152 *)
  let delg223 := e_dgb a 13 in (* :154-157 *)
  let delg233 := e_dgb a 16 in (* :159-162 *)
  let delg311 := e_dgb a 2 in (* :164-167 *)
  let delg312 := e_dgb a 5 in (* :169-172 *)
  let delg313 := e_dgb a 8 in (* :174-177 *)
  let delg322 := e_dgb a 11 in (* :179-182 *)
  let delg323 := e_dgb a 14 in (* :184-187 *)
  let delg333 := e_dgb a 17 in (* :189-192 *)
  let f := (e_psi a) ^ 4 in (* :194-197 *)
  let delf1 := 4 * f * e_dpop a 0 in (* :199-202 *)
  let delf2 := 4 * f * e_dpop a 1 in (* :204-207 *)
  let delf3 := 4 * f * e_dpop a 2 in (* :209-212 *)
  let delg111 := delg111 * f + delf1 * e_gb a 0 in (* :214-217 *)
  let delg112 := delg112 * f + delf1 * e_gb a 1 in (* :219-222 *)
  let delg113 := delg113 * f + delf1 * e_gb a 2 in (* :224-227 *)
  let delg122 := delg122 * f + delf1 * e_gb a 3 in (* :229-232 *)
  let delg123 := delg123 * f + delf1 * e_gb a 4 in (* :234-237 *)
  let delg133 := delg133 * f + delf1 * e_gb a 5 in (* :239-242 *)
  let delg211 := delg211 * f + delf2 * e_gb a 0 in (* :244-247 *)
  let delg212 := delg212 * f + delf2 * e_gb a 1 in (* :249-252 *)
  let delg213 := delg213 * f + delf2 * e_gb a 2 in (* :254-257 *)
  let delg222 := delg222 * f + delf2 * e_gb a 3 in (* :259-262 *)
  let delg223 := delg223 * f + delf2 * e_gb a 4 in (* :264-267 *)
  let delg233 := delg233 * f + delf2 * e_gb a 5 in (* :269-272 *)
  let delg311 := delg311 * f + delf3 * e_gb a 0 in (* :274-277 *)
  let delg312 := delg312 * f + delf3 * e_gb a 1 in (* :279-282 *)
  let delg313 := delg313 * f + delf3 * e_gb a 2 in (* :284-287 *)
  let delg322 := delg322 * f + delf3 * e_gb a 3 in (* :289-292 *)
  let delg323 := delg323 * f + delf3 * e_gb a 4 in (* :294-297 *)
  let delg333 := delg333 * f + delf3 * e_gb a 5 in (* :299-302 *)
  let detgb := 2 * e_gb a 1 * e_gb a 2 * e_gb a 4 + e_gb a 0 * e_gb a 3 * e_gb a 5 - e_gb a 5 * pow2 (e_gb a 1) - e_gb a 3 * pow2 (e_gb a 2) - e_gb a 0 * pow2 (e_gb a 4) in (* :304-309 *)
  let detg := detgb * f ^ 3 in (* :311-314 *)
  let ginv11 := (e_gb a 3 * e_gb a 5 - pow2 (e_gb a 4)) / (detgb * f) in (* :316-319 *)
  let ginv12 := (e_gb a 2 * e_gb a 4 - e_gb a 1 * e_gb a 5) / (detgb * f) in (* :321-324 *)
  let ginv13 := ( - (e_gb a 2 * e_gb a 3) + e_gb a 1 * e_gb a 4) / (detgb * f) in (* :326-329 *)
  let ginv22 := (e_gb a 0 * e_gb a 5 - pow2 (e_gb a 2)) / (detgb * f) in (* :331-334 *)
  let ginv23 := (e_gb a 1 * e_gb a 2 - e_gb a 0 * e_gb a 4) / (detgb * f) in (* :336-339 *)
  let ginv33 := (e_gb a 0 * e_gb a 3 - pow2 (e_gb a 1)) / (detgb * f) in (* :341-344 *)
  let r2 := pow2 (e_x a 0) + pow2 (e_x a 1) + pow2 (e_x a 2) in (* :346-349 *)
  let integrand := if Req_EM_T r2 0 then 0 (* :406-411 *) else (* :353 *)
  let n1 := e_x a 0 / sqrt (r2) in (* :353-359 *)
  let n2 := e_x a 1 / sqrt (r2) in (* :361-364 *)
  let n3 := e_x a 2 / sqrt (r2) in (* :366-369 *)
    flux_expr detg ginv11 ginv12 ginv13 ginv22 ginv23 ginv33 delg111 delg112 delg113 delg122 delg123 delg133 delg211 delg212 delg213 delg222 delg223 delg233 delg311 delg312 delg313 delg322 delg323 delg333 n1 n2 n3 (* :371-403 *) in
  integrand. (* :413-420 *)
(** ADMvars.c:98-114 for one box: the integrand at all points, then the integral over spheres, in place; pX is the radius at all points *)
Definition E_ADM (b : sbox) (sc : dir -> sched) (pX : list R) (points : list adme_in) : res (list R) :=
  let u := map integrand_at points in spec_sphericalDF2dIntegral b sc (fun _ => fourmeth) pX true u u.
