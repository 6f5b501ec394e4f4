(** Specification of angles and of complex functions in real and imaginary parts. *)
From Verif Require Import Rutil.
Local Open Scope R_scope.
(** t is an angle of the point (x,y): (x,y) = r (cos t, sin t) with r > 0 *)
Definition angle_of (x y t : R) : Prop := exists r, 0 < r /\ x = r * cos t /\ y = r * sin t.
(** partial derivatives of a function of two numbers *)
Definition d_dx (f : R -> R -> R) (x y l : R) : Prop := derivable_pt_lim (fun t => f t y) x l.
Definition d_dy (f : R -> R -> R) (x y l : R) : Prop := derivable_pt_lim (fun t => f x t) y l.
(** complex numbers as pairs; cosh(x+iy) and sinh(x+iy) by the addition theorem *)
Definition cplx : Type := R * R.
Definition cmul (a b : cplx) : cplx := (fst a * fst b - snd a * snd b, fst a * snd b + snd a * fst b).
Definition cabs (a : cplx) : R := sqrt (fst a * fst a + snd a * snd a).
Definition ccosh (x y : R) : cplx := (cosh x * cos y, sinh x * sin y).
Definition csinh (x y : R) : cplx := (sinh x * cos y, cosh x * sin y).
Definition czero : cplx := (0, 0).
Definition cone : cplx := (1, 0).
