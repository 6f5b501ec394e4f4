(** Specification of spin-weighted spherical harmonics: Wigner's formula, the operators eth and eth-bar, the inner product on the sphere. *)
From Verif Require Import Rutil Rsum.
Local Open Scope R_scope.

(** n! of an integer n >= 0 *)
Definition zfact (n : Z) : R := INR (fact (Z.to_nat n)).
(** Wigner's small d-function by his formula: the sum over all i for which all four factorials have arguments >= 0 *)
Definition wigner_term (l m s : Z) (th : R) (i : nat) : R :=
  let k := Z.of_nat i in
  if ((0 <=? l + m - k) && (0 <=? l - s - k) && (0 <=? k + s - m))%Z%bool
  then (-1) ^ i * cos (th / 2) ^ Z.to_nat (2 * l + m - s - 2 * k) * sin (th / 2) ^ Z.to_nat (2 * k + s - m) / (zfact (l + m - k) * zfact (l - s - k) * zfact k * zfact (k + s - m))
  else 0.
Definition wigner_d (l m s : Z) (th : R) : R :=
  sqrt (zfact (l + m) * zfact (l - m) * zfact (l + s) * zfact (l - s)) * Sig (S (Z.to_nat (2 * l))) (wigner_term l m s th).
(** allowed l, m and s *)
Definition modes (l m s : Z) : Prop := (- l <= m <= l)%Z /\ (- l <= s <= l)%Z.

(** a complex function on the sphere: real and imaginary part at (theta, phi) *)
Definition fn2 := R -> R -> R.
(** G is eth applied to F of spin weight s:  eth F = - (d_theta F + (i / sin theta) d_phi F - s cot theta F) *)
Definition is_eth (s : Z) (Fr Fi Gr Gi : fn2) : Prop := forall th ph, 0 < th < PI -> exists rt it rp ip,
  derivable_pt_lim (fun t => Fr t ph) th rt /\ derivable_pt_lim (fun t => Fi t ph) th it /\ derivable_pt_lim (fun p => Fr th p) ph rp /\ derivable_pt_lim (fun p => Fi th p) ph ip /\
  Gr th ph = - (rt - ip / sin th - IZR s * (cos th / sin th) * Fr th ph) /\ Gi th ph = - (it + rp / sin th - IZR s * (cos th / sin th) * Fi th ph).
(** G is eth-bar applied to F of spin weight s:  eth-bar F = - (d_theta F - (i / sin theta) d_phi F + s cot theta F) *)
Definition is_ethbar (s : Z) (Fr Fi Gr Gi : fn2) : Prop := forall th ph, 0 < th < PI -> exists rt it rp ip,
  derivable_pt_lim (fun t => Fr t ph) th rt /\ derivable_pt_lim (fun t => Fi t ph) th it /\ derivable_pt_lim (fun p => Fr th p) ph rp /\ derivable_pt_lim (fun p => Fi th p) ph ip /\
  Gr th ph = - (rt + ip / sin th + IZR s * (cos th / sin th) * Fr th ph) /\ Gi th ph = - (it - rp / sin th + IZR s * (cos th / sin th) * Fi th ph).
(** x is the integral of f from a to b, by an antiderivative *)
Definition integral (f : R -> R) (a b x : R) : Prop := exists G, (forall X, derivable_pt_lim G X (f X)) /\ x = G b - G a.
(** x is the integral of f over the unit sphere *)
Definition sphere_integral (f : fn2) (x : R) : Prop := exists h, (forall th, integral (fun ph => f th ph) 0 (2 * PI) (h th)) /\ integral (fun th => h th * sin th) 0 PI x.
(** (re, im) is the inner product (F, G), the integral of conj(F) G over the sphere *)
Definition inner_product (Fr Fi Gr Gi : fn2) (re im : R) : Prop :=
  sphere_integral (fun th ph => Fr th ph * Gr th ph + Fi th ph * Gi th ph) re /\ sphere_integral (fun th ph => Fr th ph * Gi th ph - Fi th ph * Gr th ph) im.
