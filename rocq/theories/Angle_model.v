(** Model of src/utility/Coordinates/ComplexFunctions.c: angles, the argument of a complex number, and tanh and sech of complex numbers in real and imaginary parts.
    doubles are reals; PI and PIh (sgrid_main.h:11-12) are pi and pi/2; floor is exact.  Division by zero is not modelled: the theorems exclude it. *)
From Verif Require Import Rutil.
Local Open Scope R_scope.
Definition floor (x : R) : R := IZR (Int_part x).
(** ComplexFunctions.c:10-16 *)
Definition BaseAngle (p peri p0 : R) : R := let d := p - p0 in let w := floor (d / peri) in let b := d - w * peri in p0 + b.
(** ComplexFunctions.c:19-38 *)
Definition Arg (x y : R) : R :=
  if Req_EM_T x 0 then
    let arg := if Rlt_dec 0 y then PI / 2 else - (PI / 2) in if Req_EM_T y 0 then 0 else arg
  else if Rlt_dec x 0 then if Rle_dec 0 y then atan (y / x) + PI else atan (y / x) - PI
  else atan (y / x).
(** ComplexFunctions.c:41-61 *)
Definition Arg_plus (x y : R) : R :=
  let arg :=
    if Req_EM_T x 0 then
      let arg := if Rlt_dec 0 y then PI / 2 else - (PI / 2) in if Req_EM_T y 0 then 0 else arg
    else if Rlt_dec x 0 then if Rle_dec 0 y then atan (y / x) + PI else atan (y / x) - PI
    else atan (y / x) in
  if Rlt_dec arg 0 then arg + 2 * PI else arg.
(** ComplexFunctions.c:64-71 *)
Definition dArgdx (x y : R) : R := - y / (x * x + y * y).
Definition dArgdy (x y : R) : R := x / (x * x + y * y).
(** ComplexFunctions.c:74-88 *)
Definition ddArgdxdx (x y : R) : R := let r2 := x * x + y * y in 2 * x * y / (r2 * r2).
Definition ddArgdxdy (x y : R) : R := let r2 := x * x + y * y in 2 * y * y / (r2 * r2) - 1 / r2.
Definition ddArgdydy (x y : R) : R := let r2 := x * x + y * y in - 2 * x * y / (r2 * r2).
(** ComplexFunctions.c:92-111 *)
Definition Retanh (x y : R) : R := sinh (2 * x) / (cos (2 * y) + cosh (2 * x)).
Definition Imtanh (x y : R) : R := sin (2 * y) / (cos (2 * y) + cosh (2 * x)).
Definition Argtanh (x y : R) : R := Arg (sinh (2 * x)) (sin (2 * y)).
Definition Abstanh (x y : R) : R := let coshx2 := cosh (2 * x) in let cosy2 := cos (2 * y) in sqrt ((coshx2 - cosy2) / (coshx2 + cosy2)).
(** ComplexFunctions.c:115-123 *)
Definition Argsech (x y : R) : R := Arg (cos y * cosh x) (- sin y * sinh x).
Definition Abssech (x y : R) : R := sqrt (2 / (cos (2 * y) + cosh (2 * x))).
(** ComplexFunctions.c:153-188 *)
Definition dArgtanhdx (x y : R) : R := let x2 := 2 * x in let y2 := 2 * y in 2 * cosh x2 * dArgdx (sinh x2) (sin y2).
Definition dArgtanhdy (x y : R) : R := let x2 := 2 * x in let y2 := 2 * y in 2 * cos y2 * dArgdy (sinh x2) (sin y2).
Definition ddArgtanhdxdx (x y : R) : R := let x2 := 2 * x in let y2 := 2 * y in let sinh2x := sinh x2 in let sin2y := sin y2 in
  4 * (cosh x2 * cosh x2 * ddArgdxdx sinh2x sin2y + dArgdx sinh2x sin2y * sinh2x).
Definition ddArgtanhdxdy (x y : R) : R := let x2 := 2 * x in let y2 := 2 * y in 4 * cos y2 * cosh x2 * ddArgdxdy (sinh x2) (sin y2).
Definition ddArgtanhdydy (x y : R) : R := let x2 := 2 * x in let y2 := 2 * y in let sinh2x := sinh x2 in let sin2y := sin y2 in
  4 * (cos y2 * cos y2) * ddArgdydy sinh2x sin2y - 4 * dArgdy sinh2x sin2y * sin2y.
(** ComplexFunctions.c:191-242 *)
Definition dAbstanhdx (x y : R) : R := let x2 := 2 * x in let y2 := 2 * y in let cosh2x := cosh x2 in let cos2y := cos y2 in
  (2 * cos2y * sinh x2) / ((cos2y + cosh2x) * (cos2y + cosh2x) * sqrt (1 - (2 * cos2y) / (cos2y + cosh2x))).
Definition dAbstanhdy (x y : R) : R := let x2 := 2 * x in let y2 := 2 * y in let cosh2x := cosh x2 in let cos2y := cos y2 in
  (2 * cosh2x * sin y2) / ((cos2y + cosh2x) * (cos2y + cosh2x) * sqrt (1 - (2 * cos2y) / (cos2y + cosh2x))).
Definition ddAbstanhdxdx (x y : R) : R := let x2 := 2 * x in let y2 := 2 * y in let cosh2x := cosh x2 in let cos2y := cos y2 in
  (cos2y * ((- 3 + 2 * cos (y2 * 2)) * cosh2x + cosh (x2 * 3) - 4 * cos2y * (sinh x2 * sinh x2))) / ((cos2y - cosh2x) * (cos2y + cosh2x) ^ 3 * sqrt (1 - (2 * cos2y) / (cos2y + cosh2x))).
Definition ddAbstanhdxdy (x y : R) : R := let x2 := 2 * x in let y2 := 2 * y in let cosh2x := cosh x2 in let cos2y := cos y2 in
  (- 16 * (cos2y * cos2y - cos2y * cosh2x + cosh2x * cosh2x) * sqrt (1 - (2 * cos2y) / (cos2y + cosh2x)) * sin y2 * sinh x2) / ((cos (y2 * 2) - cosh (x2 * 2)) * (cos (y2 * 2) - cosh (x2 * 2))).
Definition ddAbstanhdydy (x y : R) : R := let x2 := 2 * x in let y2 := 2 * y in let cosh2x := cosh x2 in let cos2y := cos y2 in
  (4 * cosh2x * sqrt (1 - (2 * cos2y) / (cos2y + cosh2x)) * (- 5 * cos2y + cos (y2 * 3) + 4 * cosh2x * (cos2y * cosh2x + sin y2 * sin y2))) / ((cos (y2 * 2) - cosh (x2 * 2)) * (cos (y2 * 2) - cosh (x2 * 2))).
