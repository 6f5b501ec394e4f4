(** Model of the spin-weighted spherical harmonics, src/physics/ModeComputer/SpinWeightedSphericalHarmonics.c.
    Doubles are real numbers and PI is the real number; ints are unbounded.  pow(x,n) is called with int exponents only: it is powerRZ, which agrees
    with the C function where the exponent is not negative or x is not 0. *)
From Coq Require Import Reals ZArith.
Open Scope R_scope.

(** fact, SpinWeightedSphericalHarmonics.c:18-27, called with ints only *)
Fixpoint dfact_ (k : nat) (n : Z) : R := match k with O => 1 | S k => if (n <=? 1)%Z then 1 else IZR n * dfact_ k (n - 1) end.
Definition dfact (n : Z) : R := dfact_ (Z.to_nat n) n.
(** for(k = k1; k <= k2; k+=2) acc = body(k, acc), SpinWeightedSphericalHarmonics.c:44-54, 72-86; the number of passes is at most k2-k1+1 *)
Fixpoint by2_ (n : nat) (k k2 : Z) (body : Z -> R -> R) (acc : R) : R := match n with O => acc | S n => if (k <=? k2)%Z then by2_ n (k + 2) k2 body (body k acc) else acc end.
Definition by2 (k1 k2 : Z) (body : Z -> R -> R) (acc : R) : R := by2_ (Z.to_nat (k2 - k1 + 1)) k1 k2 body acc.
(** the summand of both Wigner functions, SpinWeightedSphericalHarmonics.c:45 = 73-74, with x the cosine and y the sine of half the angle *)
Definition wig_term (l m s : Z) (x y : R) (k : Z) : R :=
  powerRZ x (2 * l + m - s - 2 * k) * powerRZ y (2 * k + s - m) / (dfact (l + m - k) * dfact (l - s - k) * dfact k * dfact (k + s - m)).
(** the loops SpinWeightedSphericalHarmonics.c:42-55 = 70-87 from k1 to k2 *)
Definition wig_loops (l m s : Z) (x y : R) (k1 k2 : Z) : R :=
  if (Z.rem k1 2 =? 0)%Z
  then by2 (k1 + 1) k2 (fun k w => w - wig_term l m s x y k) (by2 k1 k2 (fun k w => w + wig_term l m s x y k) 0)
  else by2 (k1 + 1) k2 (fun k w => w + wig_term l m s x y k) (by2 k1 k2 (fun k w => w - wig_term l m s x y k) 0).
(** sqrt(fact(l+m) * fact(l-m) * fact(l+s) * fact(l-s)), SpinWeightedSphericalHarmonics.c:57, 88 *)
Definition wig_norm (l m s : Z) : R := sqrt (dfact (l + m) * dfact (l - m) * dfact (l + s) * dfact (l - s)).
(** Wigner_d_function_PG, SpinWeightedSphericalHarmonics.c:30-58 *)
Definition Wigner_PG (l m s : Z) (theta : R) : R :=
  let C1 := if (m <? s)%Z then 0%Z else (m - s)%Z in
  let C2 := if (m <? - s)%Z then (l + m)%Z else (l - s)%Z in
  let costheta := cos theta in
  let coshtheta := sqrt (0.5 * (1.0 + costheta)) in
  let sinhtheta := sqrt (0.5 * (1.0 - costheta)) in
  let c1 := if (C1 <? C2)%Z then C1 else C2 in
  let c2 := if (C1 <? C2)%Z then C2 else C1 in
  wig_norm l m s * wig_loops l m s coshtheta sinhtheta c1 c2.
(** Wigner_d_function_WT, SpinWeightedSphericalHarmonics.c:61-89 *)
Definition Wigner_WT (l m s : Z) (theta : R) : R :=
  let k1 := if (m <? s)%Z then 0%Z else (m - s)%Z in
  let k2 := if (m <? - s)%Z then (l + m)%Z else (l - s)%Z in
  wig_norm l m s * wig_loops l m s (cos (theta * 0.5)) (sin (theta * 0.5)) k1 k2.
(** SpinWeightedSphericalHarmonics.c:94-95, 102-103 *)
Definition sylm_c (l s : Z) : R := let c := sqrt ((2.0 * IZR l + 1) / (4 * PI)) in if (Z.rem s 2 =? 0)%Z then c else - c.
(** Re_sYlm, SpinWeightedSphericalHarmonics.c:92-97 *)
Definition Re_sYlm (l m s : Z) (theta phi : R) : R := sylm_c l s * Wigner_WT l m (- s) theta * cos (IZR m * phi).
(** Im_sYlm, SpinWeightedSphericalHarmonics.c:100-105 *)
Definition Im_sYlm (l m s : Z) (theta phi : R) : R := sylm_c l s * Wigner_WT l m (- s) theta * sin (IZR m * phi).
