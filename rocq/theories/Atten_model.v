(** Model of src/utility/NumericUtils/attenuation.c: smooth steps from 0 to 1.  doubles are reals, Pi is the number pi, and a division by zero is an Err. *)
From Verif Require Import Rutil.
Local Open Scope R_scope.
(** a floating point division; C would produce an infinity or NaN *)
Definition adiv (a b : R) : res R := if Req_EM_T b 0 then Err else Ok (a / b).
(** attenuation.c:24-30 *)
Definition Attenuation01 (x s p : R) : res R :=
  if Rle_dec x 0 then Ok 0 else if Rle_dec 1 x then Ok 1 else
  do a <- adiv (- (1)) x; do b <- adiv (1 - p) p; do c <- adiv b (1 - x);
  Ok (1 / 2 * (1 + tanh (2 * s * p * p * (1 - p) * (a + c)))).
(** attenuation.c:36-42 *)
Definition Att_0to1 (x x0 w q s : R) : res R :=
  if Rle_dec (x0 + w) x then Ok 1 else if Rle_dec x x0 then Ok 0 else
  do th <- adiv ((x - x0) * PI) (2 * w); do a <- adiv (q * q) (tan th);
  Ok ((1 + tanh (s / PI * (tan th - a))) / 2).
(** attenuation.c:49-52, 71-74: the expression both derivative functions share; Power(y,2) is y^2 *)
Definition dAtt_expr (sgn x x0 w q s : R) : res R :=
  do th <- adiv (PI * (x - x0)) (2 * w); do csc <- adiv 1 (sin th); do sec <- adiv 1 (cos th); do cot <- adiv 1 (tan th);
  let u := s * (- (q ^ 2 * cot) + tan th) / PI in
  do sech <- adiv 1 (cosh u);
  adiv (sgn * (s * (q ^ 2 * csc ^ 2 + sec ^ 2) * sech ^ 2)) (4 * w).
(** attenuation.c:45-53 *)
Definition dAtt_0to1 (x x0 w q s : R) : res R := if Rle_dec (x0 + w) x then Ok 0 else if Rle_dec x x0 then Ok 0 else dAtt_expr 1 x x0 w q s.
(** attenuation.c:56-62 *)
Definition Att_1to0 (x x0 w q s : R) : res R :=
  if Rle_dec (x0 + w) x then Ok 0 else if Rle_dec x x0 then Ok 1 else
  do th <- adiv ((x - x0) * PI) (2 * w); do a <- adiv (q * q) (tan th);
  Ok (1 - (1 + tanh (s / PI * (tan th - a))) / 2).
(** attenuation.c:65-74 *)
Definition dAtt_1to0 (x x0 w q s : R) : res R := if Rle_dec (x0 + w) x then Ok 0 else if Rle_dec x x0 then Ok 0 else dAtt_expr (- (1)) x x0 w q s.
