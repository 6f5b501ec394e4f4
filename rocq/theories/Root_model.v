(** Model of src/utility/numerics/newton1d_brak.c, rt_brak.c, rtbrent_brak.c, minbrent_brak.c.
    double is R: finit() is true, every comparison is decided, arithmetic is exact.  The user function is a pure total function (its void *par is
    fixed); a function with derivative is a pair.  Results are the value left in *x0 and the return value; printf is dropped. *)
From Verif Require Import Rutil.
Local Open Scope R_scope.

Definition between (a b x : R) : bool := if Rle_dec a x then (if Rle_dec x b then true else false) else false.
(** newton1d_brak.c:39-40, 141-142 *)
Definition start_guess (x0 x1 x2 : R) : R := if between x1 x2 x0 || between x2 x1 x0 then x0 else 0.5 * (x1 + x2).
(** newton1d_brak.c:47-49, 149-151 *)
Definition bracketed (fl fh : R) : bool := (if Rle_dec fl 0 then if Rle_dec 0 fh then true else false else false) || (if Rle_dec 0 fl then if Rle_dec fh 0 then true else false else false).

(** newton1d_brak.c:172-191 (loop body) and 195-196, with [n] = maxits-j+1 passes left *)
Fixpoint bis_loop (f : R -> R) (xacc : R) (n : nat) (j : Z) (xl xh xrt : R) : R * Z :=
  match n with O => (xrt, j) | S n =>
    let fx := f xrt in
    if Req_EM_T fx 0 then (xrt, j) else
    let xl := if Rlt_dec fx 0 then xrt else xl in
    let xh := if Rlt_dec fx 0 then xh else xrt in
    let dx := 0.5 * (xh - xl) in
    let xrt := xl + dx in
    if Req_EM_T xl xrt then (xrt, j) else
    if Rlt_dec (Rabs dx) xacc then (xrt, j) else bis_loop f xacc n (j + 1) xl xh xrt
  end.
(** newton1d_brak.c:126-197 rtbisect *)
Definition rtbisect (f : R -> R) (x0 x1 x2 : R) (maxits : Z) (xacc : R) : R * Z :=
  let xrt := start_guess x0 x1 x2 in
  let fl := f x1 in let fh := f x2 in
  if negb (bracketed fl fh) then (x0, (- 2 * maxits - 3)%Z) else
  if Req_EM_T fl 0 then (x1, 0%Z) else if Req_EM_T fh 0 then (x2, 0%Z) else
  let xl := if Rlt_dec fl 0 then x1 else x2 in
  let xh := if Rlt_dec fl 0 then x2 else x1 in
  bis_loop f xacc (Z.to_nat maxits) 1 xl xh xrt.

(** newton1d_brak.c:87-109: the step from xrt, given f, df, dx, dxold and the updated xl, xh: new xrt, dx, dxold, and whether it was a bisection *)
Definition newton_step (fx dfx xl xh xrt dx dxold : R) : R * R * R * bool :=
  let bisect := if Rlt_dec (Rabs (dxold * dfx)) (Rabs (2.0 * fx)) then true else false in
  let ndx := fx / dfx in
  let nx := xrt - ndx in
  let reject := (if Rlt_dec 0 ((nx - xh) * (nx - xl)) then true else false) || (if Req_EM_T xrt nx then true else false) in
  if negb bisect && negb reject then (nx, ndx, dx, false)
  else (* after a rejected Newton step xrt, dx are put back: dx = dxold = old dx *)
    let bdx := 0.5 * (xh - xl) in (xl + bdx, bdx, dx, true).
(** newton1d_brak.c:70-110 and 114-115 *)
Fixpoint newt_loop (fdf : R -> R * R) (xacc : R) (n : nat) (j : Z) (xl xh xrt dx dxold : R) : R * Z :=
  match n with O => (xrt, j) | S n =>
    let fx := fst (fdf xrt) in let dfx := snd (fdf xrt) in
    if Req_EM_T fx 0 then (xrt, j) else
    let xl := if Rlt_dec fx 0 then xrt else xl in
    let xh := if Rlt_dec fx 0 then xh else xrt in
    let '(xrt, dx, dxold, bis) := newton_step fx dfx xl xh xrt dx dxold in
    if bis && (if Req_EM_T xl xrt then true else false) then (xrt, j) else
    if Rlt_dec (Rabs dx) xacc then (xrt, j) else newt_loop fdf xacc n (j + 1) xl xh xrt dx dxold
  end.
(** newton1d_brak.c:20-116 newton1d_brak *)
Definition newton1d_brak (fdf : R -> R * R) (x0 x1 x2 : R) (maxits : Z) (xacc : R) : R * Z :=
  let xrt := start_guess x0 x1 x2 in
  let fl := fst (fdf x1) in let fh := fst (fdf x2) in
  if negb (bracketed fl fh) then (x0, (- 2 * maxits - 3)%Z) else
  if Req_EM_T fl 0 then (x1, 0%Z) else if Req_EM_T fh 0 then (x2, 0%Z) else
  let xl := if Rlt_dec fl 0 then x1 else x2 in
  let xh := if Rlt_dec fl 0 then x2 else x1 in
  newt_loop fdf xacc (Z.to_nat maxits) 1 xl xh xrt (Rabs (x2 - x1)) (Rabs (x2 - x1)).

(** rt_brak.c:26-45; results x1, x2 and the return value *)
Fixpoint brak_loop (f : R -> R) (n : nat) (j : Z) (x1 x2 : R) : R * R * Z :=
  match n with O => (x1, x2, (- j - 1)%Z) | S n =>
    if Rlt_dec (f x1 * f x2) 0 then (x1, x2, j) else
    if Rlt_dec (Rabs (f x1)) (Rabs (f x2)) then brak_loop f n (j + 1) (x1 + 1.6 * (x1 - x2)) x2 else brak_loop f n (j + 1) x1 (x2 + 1.6 * (x2 - x1))
  end.
(** rt_brak.c:11-46 rt_brak *)
Definition rt_brak (f : R -> R) (x1 x2 : R) (maxits : Z) : R * R * Z :=
  if Req_EM_T x1 x2 then (x1, x2, (-1)%Z) else brak_loop f (Z.to_nat maxits) 1 x1 x2.

(** rtbrent_brak.c:8 DOUBLE_EPS *)
Definition DOUBLE_EPS : R := / 10 ^ 14.
Definition same_sign (x y : R) : bool := (if Rlt_dec x 0 then if Rlt_dec y 0 then true else false else false) || (if Rlt_dec 0 x then if Rlt_dec 0 y then true else false else false).
(** rtbrent_brak.c:109-113, 132-136 *)
Definition brent_move (b d xm tol : R) : R := if Rlt_dec tol (Rabs d) then b + d else b + (if Rle_dec 0 xm then tol else - tol).
(** rtbrent_brak.c:81-137: d, e, b_new *)
Definition brent_step (x1 x2 a b c fa fb fc d e xm tol : R) : R * R * R :=
  let bis := (xm, xm, brent_move b xm xm tol) in
  if (if Rlt_dec (Rabs e) tol then true else false) || (if Rle_dec (Rabs fa) (Rabs fb) then true else false) then bis else
  let s := fb / fa in
  let pq := if Req_EM_T a c then (2 * xm * s, 1 - s) else
            let q := fa / fc in let r := fb / fc in (s * (2 * xm * q * (q - r) - (b - a) * (r - 1)), (q - 1) * (r - 1) * (s - 1)) in
  let q := if Rlt_dec 0 (fst pq) then - snd pq else snd pq in
  let p := Rabs (fst pq) in
  if Rlt_dec (2 * p) (Rmin (3 * xm * q - Rabs (tol * q)) (Rabs (e * q))) then
    let b_new := brent_move b (p / q) xm tol in
    if Rlt_dec 0 ((b_new - x2) * (b_new - x1)) then bis else (p / q, d, b_new)
  else bis.
(** rtbrent_brak.c:54-146 and 151-152 *)
Fixpoint brent_loop (f : R -> R) (x1 x2 xacc : R) (n : nat) (j : Z) (a b c fa fb fc d e : R) : R * Z :=
  match n with O => (b, j) | S n =>
    let '(c, fc, d, e) := if same_sign fb fc then (a, fa, b - a, b - a) else (c, fc, d, e) in
    let '(a, b, c, fa, fb, fc) := if Rlt_dec (Rabs fc) (Rabs fb) then (b, c, b, fb, fc, fb) else (a, b, c, fa, fb, fc) in
    let tol := 2 * DOUBLE_EPS * Rabs b + 0.5 * xacc in
    let xm := 0.5 * (c - b) in
    if (if Rle_dec (Rabs xm) tol then true else false) || (if Req_EM_T fb 0 then true else false) then (b, j) else
    let '(d, e, b_new) := brent_step x1 x2 a b c fa fb fc d e xm tol in
    brent_loop f x1 x2 xacc n (j + 1) b b_new c fb (f b_new) fc d e
  end.
(** rtbrent_brak.c:18-153 rtbrent_brak *)
Definition rtbrent_brak (f : R -> R) (x0 x1 x2 : R) (maxits : Z) (xacc : R) : R * Z :=
  let fa := f x1 in let fb := f x2 in
  if same_sign fa fb then (x0, (- 2 * maxits - 3)%Z) else
  brent_loop f x1 x2 xacc (Z.to_nat maxits) 1 x1 x2 x2 fa fb fb (x2 - x1) (x2 - x1).

(** minbrent_brak.c:7 *)
Definition with_sign (A B : R) : R := if Rle_dec 0 B then Rabs A else - Rabs A.
(** minbrent_brak.c:11, 13, 20 *)
Definition golden : R := 0.3819660.
Definition tmgolden : R := 1.618034.
Definition ZERO_EPS : R := / 10 ^ 10.
(** minbrent_brak.c:44-81: the new d and e.  d is declared inside the loop body without initialiser, so the d read in line 64 is
    indeterminate: it is the argument [dj], about which nothing is assumed *)
Definition minb_step (a b v w x fv fw fx e dj xm tol1 tol2 : R) : R * R :=
  let e1 := if Rle_dec xm x then a - x else b - x in
  let gold := (golden * e1, e1) in
  if Rlt_dec tol1 (Rabs e) then
    let r := (x - w) * (fx - fv) in
    let q := (x - v) * (fx - fw) in
    let p := (x - v) * q - (x - w) * r in
    let q := 2 * (q - r) in
    let p := if Rlt_dec 0 q then - p else p in
    let q := Rabs q in
    if (if Rle_dec (Rabs (0.5 * q * e)) (Rabs p) then true else false) || (if Rle_dec p (q * (a - x)) then true else false) || (if Rle_dec (q * (b - x)) p then true else false) then gold
    else
      let d := p / q in let u := x + d in
      ((if (if Rlt_dec (u - a) tol2 then true else false) || (if Rlt_dec (b - u) tol2 then true else false) then with_sign tol1 (xm - x) else d), dj)
  else gold.
(** minbrent_brak.c:41-110 and 112-114: *xmin, *fmin, return value *)
Fixpoint minb_loop (f : R -> R) (tol : R) (junk : nat -> R) (n : nat) (j : Z) (a b v w x fv fw fx e : R) : R * R * Z :=
  match n with O => (x, fx, j) | S n =>
    let xm := 0.5 * (a + b) in
    let tol1 := tol * Rabs x + ZERO_EPS in
    let tol2 := 2 * tol1 in
    if Rle_dec (Rabs (x - xm)) (tol2 - 0.5 * (b - a)) then (x, fx, j) else
    let '(d, e) := minb_step a b v w x fv fw fx e (junk n) xm tol1 tol2 in
    let u := if Rle_dec tol1 (Rabs d) then x + d else x + with_sign tol1 d in
    let fu := f u in
    if Rle_dec fu fx then
      minb_loop f tol junk n (j + 1) (if Rle_dec x u then x else a) (if Rle_dec x u then b else x) w x u fw fx fu e
    else
      let a := if Rlt_dec u x then u else a in
      let b := if Rlt_dec u x then b else u in
      if (if Rle_dec fu fw then true else false) || (if Req_EM_T w x then true else false) then minb_loop f tol junk n (j + 1) a b w u x fw fu fx e
      else if (if Rle_dec fu fv then true else false) || (if Req_EM_T v x then true else false) || (if Req_EM_T v w then true else false) then minb_loop f tol junk n (j + 1) a b u w x fu fw fx e
      else minb_loop f tol junk n (j + 1) a b v w x fv fw fx e
  end.
(** minbrent_brak.c:21-115 minbrent_brak *)
Definition minbrent_brak (f : R -> R) (ax bx cx : R) (maxits : Z) (tol : R) (junk : nat -> R) : R * R * Z :=
  let a := if Rlt_dec ax cx then ax else cx in
  let b := if Rlt_dec cx ax then ax else cx in
  minb_loop f tol junk (Z.to_nat maxits) 1 a b bx bx bx (f bx) (f bx) (f bx) 0.

(** points and values ax, bx, cx, fa, fb, fc *)
Definition mb : Type := R * R * R * R * R * R.
(** minbrent_brak.c:140-194 *)
Fixpoint mbrak_loop (f : R -> R) (n : nat) (j : Z) (s : mb) : mb * Z :=
  match n with O => (s, j) | S n =>
    let '(a, b, c, fa, fb, fc) := s in
    if Rle_dec fb fc then (s, j) else
    let r := (b - a) * (fb - fc) in
    let q := (b - c) * (fb - fa) in
    let u := b - ((b - c) * q - (b - a) * r) / (2 * with_sign (Rmax (Rabs (q - r)) (/ 10 ^ 20)) (q - r)) in
    let ulim := b + 100 * (c - b) in
    let far := c + tmgolden * (c - b) in
    if Rlt_dec 0 ((b - u) * (u - c)) then
      let fu := f u in
      if Rlt_dec fu fc then ((b, u, c, fb, fu, fc), j)
      else if Rlt_dec fb fu then ((a, b, u, fa, fb, fu), j)
      else mbrak_loop f n (j + 1) (b, c, far, fb, fc, f far)
    else if Rlt_dec 0 ((c - u) * (u - ulim)) then
      let fu := f u in
      if Rlt_dec fu fc then let u' := u + tmgolden * (u - c) in mbrak_loop f n (j + 1) (c, u, u', fc, fu, f u')
      else mbrak_loop f n (j + 1) (b, c, u, fb, fc, fu)
    else if Rle_dec 0 ((u - ulim) * (ulim - c)) then mbrak_loop f n (j + 1) (b, c, ulim, fb, fc, f ulim)
    else mbrak_loop f n (j + 1) (b, c, far, fb, fc, f far)
  end.
(** minbrent_brak.c:122-195 min_brak *)
Definition min_brak (f : R -> R) (ax bx : R) (maxits : Z) : mb * Z :=
  let '(a, b) := if Rlt_dec (f ax) (f bx) then (bx, ax) else (ax, bx) in
  let c := b + tmgolden * (b - a) in
  mbrak_loop f (Z.to_nat maxits) 1 (a, b, c, f a, f b, f c).
