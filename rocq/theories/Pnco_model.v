(** Model of src/physics/PN_CircularOrbit_GWs/PN_CircOrbit.c: PN_CircOrbit_compute_constants (26-107), PN_CircOrbit_derivs (110-493) and PN_CircOrbit_compute_r (497-529).
    Simplified: exact reals, the literal PI is pi; y[1..11] and dydx[1..11] are functions of the index; the global constants are functions of the masses and the parameters are a record; the global tsdamp, which only the waveform reads, is left out, and so is the integrator (Odeint_model.v). *)
From Verif Require Import Rutil.
From Coq Require Import List.
Local Open Scope R_scope.
Inductive eom := TaylorT4_bug | TaylorT4 | Kidder1995 | Kidder1995_v2cut | Buonanno_v2cut | Kidder1995_v6cut | Buonanno_v6cut | Buonanno2003. (* PN_CircOrbit.c:65-81 *)
(** the parameters (PN_CircOrbit.c:83-106); the flags are 0 or 1 *)
Record pnpar := PnPar { eomtype : eom; f2 : R; f3 : R; f4 : R; f5 : R; f6 : R; f7 : R; OLS1 : R; OLS2 : R; OLS3 : R; OSS1 : R; v2cut : R; v2trans : R; cutoffP : R; v6cut : R }.
Definition GammaE : R := 0.577215664901532860606512090082402431042. (* PN_CircOrbit.c:7 *)
Section MASSES.
Variables (m1 m2 : R).
Definition pm : R := m1 + m2. (* PN_CircOrbit.c:35 *)
Definition pnu : R := m1 * m2 / pm / pm. (* PN_CircOrbit.c:36-37 *)
Definition pd : R := (m1 - m2) / pm. (* PN_CircOrbit.c:38; deltam/m *)
Definition c1 : R := 96 * pnu / 5. (* PN_CircOrbit.c:41-54 *)
Definition c2 : R := (743 + 924 * pnu) / 336.
Definition c3 : R := (113 * m1 * m1 / pm / pm + 75 * pnu) / 12 / m1 / m1.
Definition c4 : R := (113 * m2 * m2 / pm / pm + 75 * pnu) / 12 / m2 / m2.
Definition c5 : R := 4 * PI.
Definition c6 : R := 34103 / 18144 + 13661 / 2016 * pnu + 59 / 18 * pnu * pnu.
Definition c7 : R := 247 * pnu / m1 / m1 / m2 / m2 / 48.
Definition c8 : R := 721 * pnu / m1 / m1 / m2 / m2 / 48.
Definition c9 : R := (4159 + 15876 * pnu) * PI / 672.
Definition c10 : R := 16447322263 / 139708800 - 1712 / 105 * GammaE + 16 / 3 * PI * PI.
Definition c11 : R := (- 273811877 / 1088640 + 451 / 48 * PI * PI - 88 / 3 * (1039 / 4620)) * pnu.
Definition c12 : R := 541 / 896 * pnu * pnu - 5605 / 2592 * pnu * pnu * pnu.
Definition c13 : R := 856 / 105.
Definition c14 : R := (- 4415 / 4032 + 358675 / 6048 * pnu + 91495 / 1512 * pnu * pnu) * PI.
Definition c15 : R := 0.5 / pm. (* PN_CircOrbit.c:57-62 *)
Definition c16 : R := 4 + 3 * m2 / m1.
Definition c17 : R := 1 / pm / pm.
Definition c18 : R := 4 + 3 * m1 / m2.
Definition c19 : R := 3 / pnu / pm / pm.
Definition c20 : R := 0.5 / pm / pm / pm.
End MASSES.
Definition tanh' (x : R) : R := (exp x - exp (- x)) / (exp x + exp (- x)). (* tanh of the C library *)
(** the two long expansions; nu and d = deltam/m, V2..V7, v = v1 and the products with the spins *)
Definition t4_bug (nu d v V2 V3 V4 V5 V6 V7 s1 a1 s2 a2 s3 a3 ss aa sa : R) : R := (* PN_CircOrbit.c:200-274 *)
  (1 + (- 2.2113095238095237 - (11 * nu) / 4) * V2 + ((48 * PI - 113 * d * a1 - 113 * s1) / 12 + (19 * nu * s1) / 3) * V3 + ((59 * nu * nu) / 18 + (34103 - 44037 * aa + 189 * (719 * (a2 + 2 * d * a1 * s1 + s2) - 466 * d * sa) - 44037 * ss) / 18144 + (nu * (13661 - 72618 * a2 + 24486 * aa + 12222 * s2 - 4914 * ss)) / 2016) * V4 + ((- 12477 * PI - 62638 * d * a1 - 62638 * s1) / 2016 - (79 * nu * nu * s1) / 3 + (nu * (- 11907 * PI + 24339 * d * a1 + 45950 * s1)) / 504) * V5 + (117.72574285227559 - (1712 * GammaE) / 105 + (16 * PI * PI) / 3 - (5605 * nu * nu * nu) / 2592 - (145 * aa) / 448 + (5 * ((1035 + 50624 * d * d) * a2 - 21504 * PI * s1 + 51659 * s2 + 2 * d * a1 * (- 10752 * PI + 51659 * s1) - 522 * d * sa)) / 4032 + (nu * nu * (4869 + 350756 * a2 - 116732 * aa + 178388 * s2 - 3276 * ss)) / 8064 - (145 * ss) / 448 + (nu * (- 56198689 + 2045736 * PI * PI + 1888002 * aa + 2903040 * PI * s1 - 54 * (102229 * a2 + 386526 * d * a1 * s1 + 304997 * s2 - 30002 * d * sa) + 13986 * ss)) / 217728 - (856 * ln 16) / 105 - (1712 * ln v) / 105) * V6 + ((2045 * nu * nu * nu * s1) / 216 + (nu * nu * (365980 * PI - 291109 * d * a1 - 1415652 * a2 * s1 + 3 * s1 * (- 398269 + 158228 * aa + 40740 * s2 - 16380 * ss))) / 6048 + (nu * (3228075 * PI + 10713953 * s1 + 9 * (2477496 * d * a3 + 126 * a2 * (- 3456 * PI + 22229 * s1) + 42 * (27 * aa * (128 * PI - 827 * s1) + s1 * (1879 * s2 - 5066 * d * sa - 193 * ss)) + d * a1 * (843811 - 831432 * aa + 402276 * s2 + 98280 * ss)))) / 54432 + (- 119205 * PI - 10076804 * s1 + 4 * (- 2512188 * d * a3 + 756 * a2 * (648 * PI - 3323 * (1 + 2 * d * d) * s1) + d * a1 * (- 2519201 + 824796 * aa + 2268 * (432 * PI - 3323 * s1) * s1 + 1649592 * d * sa + 824796 * ss) - 756 * (aa * (216 * PI - 1091 * s1) - 648 * PI * s2 + 3323 * s3 + 216 * PI * (2 * d * sa + ss) - 1091 * s1 * (2 * d * sa + ss)))) / 108864) * V7).
Definition t4 (nu d v V2 V3 V4 V5 V6 V7 s1 a1 s2 a2 s3 a3 ss aa sa : R) : R := (* PN_CircOrbit.c:314-374 *)
  (1 + (- 2.2113095238095237 - (11 * nu) / 4) * V2 + V3 * ((48 * PI - 113 * d * a1 - 113 * s1) / 12 + (19 * nu * s1) / 3) + V4 * ((59 * nu * nu) / 18 + nu * (10 * aa - 30 * a2 + (13661 - 588 * ss + 84 * s2) / 2016) + (34103 - 44037 * aa - 44037 * ss + 189 * (- 466 * d * sa + 719 * (a2 + 2 * d * a1 * s1 + s2))) / 18144) + V5 * ((- 12477 * PI - 62638 * d * a1 - 62638 * s1) / 2016 - (79 * nu * nu * s1) / 3 + (nu * (- 11907 * PI + 24339 * d * a1 + 45950 * s1)) / 504) + V6 * (117.72574285227559 - (1712 * GammaE) / 105 - (5605 * nu * nu * nu) / 2592 + (16 * PI * PI) / 3 - (145 * aa) / 448 - (145 * ss) / 448 + nu * nu * (0.6037946428571429 - (89 * aa) / 6 + (89 * a2) / 2 - (7 * ss) / 144 + (3041 * s2) / 144) + (5 * ((1035 + 50624 * d * d) * a2 - 522 * d * sa - 21504 * PI * s1 + 51659 * s2 + 2 * d * a1 * (- 10752 * PI + 51659 * s1))) / 4032 + (nu * (- 56198689 + 2045736 * PI * PI + 1187190 * aa + 714798 * ss + 2903040 * PI * s1 - 54 * (65815 * a2 - 30002 * d * sa + 386526 * d * a1 * s1 + 341411 * s2))) / 217728 - (856 * ln 16) / 105 - (1712 * ln v) / 105) + V7 * ((2045 * nu * nu * nu * s1) / 216 + (nu * nu * (365980 * PI - 291109 * d * a1 - 1294272 * a2 * s1 + 3 * (- 398269 + 143808 * aa - 1960 * ss) * s1 + 840 * s3)) / 6048 + nu * ((739 * d * a3) / 2 + aa * (24 * PI - (20269 * s1) / 144) + a2 * (- 72 * PI + (60907 * s1) / 144) + (d * a1 * (843811 - 744912 * aa + 11760 * ss + 645036 * s2)) / 6048 + (3228075 * PI + s1 * (10713953 - 1914948 * d * sa - 851634 * ss + 2895102 * s2)) / 54432) + (- 119205 * PI - 10076804 * s1 + 4 * (- 2512188 * d * a3 + 756 * a2 * (648 * PI - 3323 * (1 + 2 * d * d) * s1) + d * a1 * (- 2519201 + 824796 * aa + 1649592 * d * sa + 824796 * ss + 2268 * (432 * PI - 3323 * s1) * s1) - 756 * (216 * PI * (2 * d * sa + ss) + aa * (216 * PI - 1091 * s1) - 1091 * (2 * d * sa + ss) * s1 - 648 * PI * s2 + 3323 * s3))) / 108864)).
Section DERIVS.
Variables (m1 m2 : R) (P : pnpar).
Definition dot (y : nat -> R) (a b : nat) : R := y (a + 1)%nat * y (b + 1)%nat + y (a + 2)%nat * y (b + 2)%nat + y (a + 3)%nat * y (b + 3)%nat. (* PN_CircOrbit.c:157-159 *)
(** the renormalization of Ln_cap inside y (PN_CircOrbit.c:146-155): S1 = y+1, S2 = y+4, Ln_cap = y+7 *)
Definition renorm (y : nat -> R) : nat -> R := fun i => if ((8 <=? i) && (i <=? 10))%nat%bool then y i / sqrt (y 8%nat * y 8%nat + y 9%nat * y 9%nat + y 10%nat * y 10%nat) else y i.
Section Y.
Variable y : nat -> R. (* after renorm *)
Notation m := (pm m1 m2).
Notation nu := (pnu m1 m2).
Definition om : R := m * y 1%nat. (* PN_CircOrbit.c:122 *)
Definition v1 : R := Rpower om (1 / 3). (* PN_CircOrbit.c:123-130 *)
Definition v2 : R := v1 * v1.
Definition v3 : R := om.
Definition v4 : R := v2 * v2.
Definition v5 : R := v4 * v1.
Definition v6 : R := v3 * v3.
Definition v7 : R := v6 * v1.
Definition LS1 : R := dot y 7 1. Definition LS2 : R := dot y 7 4. Definition SS : R := dot y 1 4. (* PN_CircOrbit.c:157-159 *)
(** the products with chis and chia (PN_CircOrbit.c:172-197, 286-311) handed to an expansion *)
Definition with_chi (f : R -> R -> R -> R -> R -> R -> R -> R -> R -> R -> R -> R -> R -> R -> R -> R -> R -> R -> R) : R :=
  let s := 0.5 * (LS1 / (m1 * m1) + LS2 / (m2 * m2)) in
  let a := 0.5 * (LS1 / (m1 * m1) - LS2 / (m2 * m2)) in
  let x1 := dot y 1 1 / (m1 * m1 * m1 * m1) in
  let x2 := dot y 4 4 / (m2 * m2 * m2 * m2) in
  let ss := 0.25 * (x1 + 2 * SS / (m1 * m1 * m2 * m2) + x2) in
  let aa := 0.25 * (x1 - 2 * SS / (m1 * m1 * m2 * m2) + x2) in
  let sa := 0.25 * (x1 - x2) in
  f nu (pd m1 m2) v1 (v2 * f2 P) (v3 * f3 P) (v4 * f4 P) (v5 * f5 P) (v6 * f6 P) (v7 * f7 P)
    (s * OLS1 P) (a * OLS1 P) (s * s * OLS2 P) (a * a * OLS2 P) (s * s * s * OLS3 P) (a * a * a * OLS3 P) (ss * OSS1 P) (aa * OSS1 P) (sa * OSS1 P).
(** the factor after c1*y[1]*y[1]*v5 in dydx[1] *)
Definition omfac : R :=
  let V2 := v2 * f2 P in let V3 := v3 * f3 P in let V4 := v4 * f4 P in let V5 := v5 * f5 P in let V6 := v6 * f6 P in let V7 := v7 * f7 P in (* PN_CircOrbit.c:138-143 *)
  let a3 := - (c3 m1 m2 * LS1 + c4 m1 m2 * LS2 - c5) in
  let B2 := 1 / (v2cut P * v2cut P) in let B6 := 1 / (v6cut P) ^ 6 in
  let spin4 := - c7 m1 m2 * SS + c8 m1 m2 * LS1 * LS2 in
  let lg := c10 + c11 m1 m2 + c12 m1 m2 - c13 * ln (16 * v2) in
  match eomtype P with
  | TaylorT4_bug => with_chi t4_bug
  | TaylorT4 => with_chi t4
  | Kidder1995 => 1 - c2 m1 m2 * V2 - (c3 m1 m2 * LS1 + c4 m1 m2 * LS2 - c5) * V3 + c6 m1 m2 * V4 * 0 - c7 m1 m2 * SS * V4 + c8 m1 m2 * LS1 * LS2 * V4 (* PN_CircOrbit.c:380-385 *)
  | Kidder1995_v2cut => let a2 := - c2 m1 m2 + B2 in let a4 := c6 m1 m2 * 0 + spin4 + a2 * B2 in (1 - B2 * V2) * (1 + a2 * V2 + a3 * V3 + a4 * V4) (* PN_CircOrbit.c:389-395 *)
  | Buonanno_v2cut => (* PN_CircOrbit.c:399-421 *)
    let a2 := - c2 m1 m2 + B2 in let a4 := c6 m1 m2 + spin4 + a2 * B2 in let a5 := - c9 m1 m2 + a3 * B2 in let a6 := lg + a4 * B2 in let a7 := c14 m1 m2 + a5 * B2 in
    let e6 := a6 + a2 * a2 * a2 / 3 in let e7 := a7 + a2 * a2 * a3 in
    let BB := 1 / (v2trans P * v2trans P) in let CC := BB * BB * BB * BB * BB in
    (1 - B2 * V2) * (1 + tanh' (a2 * V2 + a3 * V3 + a4 * V4 + a5 * V5 + e6 * V6 + e7 * V7) + cutoffP P * (1 - BB * v2) * (1 - BB * v2) * CC * v6 * v2 * V2)
  | Kidder1995_v6cut => let a2 := - c2 m1 m2 in let a4 := c6 m1 m2 * 0 + spin4 in (1 - B6 * V6) * (1 + a2 * V2 + a3 * V3 + a4 * V4) (* PN_CircOrbit.c:425-431 *)
  | Buonanno_v6cut => (* PN_CircOrbit.c:435-444 *)
    let a2 := - c2 m1 m2 in let a4 := c6 m1 m2 + spin4 in (1 - B6 * V6) * (1 + a2 * V2 + a3 * V3 + a4 * V4 + - c9 m1 m2 * V5 + (lg + B6) * V6 + c14 m1 m2 * V7)
  | Buonanno2003 => 1 - c2 m1 m2 * V2 - (c3 m1 m2 * LS1 + c4 m1 m2 * LS2 - c5) * V3 + c6 m1 m2 * V4 - c7 m1 m2 * SS * V4 + c8 m1 m2 * LS1 * LS2 * V4 - c9 m1 m2 * V5 + lg * V6 + c14 m1 m2 * V7 (* PN_CircOrbit.c:450-458 *)
  end.
Definition LNS1 (i : nat) : R := c15 m1 m2 * (nu * c16 m1 m2 * (1 / v1) * y (7 + i)%nat + c17 m1 m2 * (y (4 + i)%nat - 3 * LS2 * y (7 + i)%nat)). (* PN_CircOrbit.c:464 *)
Definition LNS2 (i : nat) : R := c15 m1 m2 * (nu * c18 m1 m2 * (1 / v1) * y (7 + i)%nat + c17 m1 m2 * (y (1 + i)%nat - 3 * LS1 * y (7 + i)%nat)). (* PN_CircOrbit.c:465 *)
Definition LNS (i : nat) : R := c16 m1 m2 * y (1 + i)%nat + c18 m1 m2 * y (4 + i)%nat - c19 m1 m2 * v1 * (y (1 + i)%nat * LS2 + y (4 + i)%nat * LS1). (* PN_CircOrbit.c:466 *)
Definition rate (i : nat) : R := match i with
  | 1%nat => c1 m1 m2 * y 1%nat * y 1%nat * v5 * omfac
  | 2%nat => v6 * (LNS1 2 * y 4%nat - y 3%nat * LNS1 3) (* PN_CircOrbit.c:470-472 *)
  | 3%nat => v6 * (- LNS1 1 * y 4%nat + y 2%nat * LNS1 3)
  | 4%nat => v6 * (LNS1 1 * y 3%nat - y 2%nat * LNS1 2)
  | 5%nat => v6 * (LNS2 2 * y 7%nat - y 6%nat * LNS2 3) (* PN_CircOrbit.c:475-477 *)
  | 6%nat => v6 * (- LNS2 1 * y 7%nat + y 5%nat * LNS2 3)
  | 7%nat => v6 * (LNS2 1 * y 6%nat - y 5%nat * LNS2 2)
  | 8%nat => c20 m1 m2 * v6 * (LNS 2 * y 10%nat - y 9%nat * LNS 3) (* PN_CircOrbit.c:480-482 *)
  | 9%nat => c20 m1 m2 * v6 * (- LNS 1 * y 10%nat + y 8%nat * LNS 3)
  | 10%nat => c20 m1 m2 * v6 * (LNS 1 * y 9%nat - y 8%nat * LNS 2)
  | _ => 0 end.
(** with the phase (PN_CircOrbit.c:485-488) *)
Definition rates (i : nat) : R := match i with
  | 11%nat => if (if Req_EM_T (y 8%nat) 0 then if Req_EM_T (y 10%nat) 0 then true else false else false) then y 1%nat
      else y 1%nat - y 9%nat * (y 10%nat * rate 8 - y 8%nat * rate 10) / (y 8%nat * y 8%nat + y 10%nat * y 10%nat)
  | _ => rate i end.
(** PN_CircOrbit_compute_r (PN_CircOrbit.c:497-529), which does not renormalize *)
Definition compute_r : R :=
  let w2 := Rpower om (2 / 3) in
  m * (1 / w2) * (1 - (3 - nu) * (w2 * f2 P) / 3 - (v3 * f3 P) * (LS1 * (2 * m1 * m1 / m / m + 3 * nu) / m1 / m1 + LS2 * (2 * m2 * m2 / m / m + 3 * nu) / m2 / m2) / 3
    + (nu * (19 / 4 + nu / 9) - 0.5 * nu * (SS - 3 * LS1 * LS2) / m1 / m1 / m2 / m2) * (w2 * w2 * f4 P)).
End Y.
(** y on return and dydx *)
Definition derivs (y : nat -> R) : (nat -> R) * (nat -> R) := let y := renorm y in (y, rates y).
End DERIVS.
