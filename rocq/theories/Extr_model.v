(** Model of src/utility/Coordinates/find_extrema.c, of the functions of src/utility/numerics/NumericUtils_shims.c it calls (lines 18-24, 61-73), and of
    zbrac_P and zbrent_itsP of src/utility/NumericUtils/zbrac.c and zbrent.c, which replace the shims when NumericUtils is compiled in.
    double is R.  The arrays x[1..n] of the search start at 0 here, as in Lsrch_model.  Messages are dropped. *)
From Verif Require Import Rutil Loops Sparse_model Mat_model Dir_model Lines_model Cheb_model Lu_model Lsrch_model Root_model.
Local Open Scope R_scope.

(** The environment: schedules of the derivative and coefficient loops (the number counts the calls of spec_Coeffs), what dmalloc left in the new
    arrays, and for each interpolation (array number, position) the order of its parallel loop and what its work arrays contain. *)
Record eenv := { e_der : dir -> sched; e_co : nat -> dir -> sched; e_new : dir -> list R; e_int : nat -> R -> R -> R -> list nat * list R * list R * list R }.
Definition interp (b : sbox) (en : eenv) (q : nat) (c : list R) (X Y Z : R) : res R :=
  let '(ks, B1, B2, B3) := e_int en q X Y Z in spec_interpolate b ks B1 B2 B3 c X Y Z.
(** interpolate.c:10-16 spec_Coeffs with u = c *)
Definition coeffs_in_place (b : sbox) (sc : dir -> sched) (c : list R) : res (list R) :=
  do c <- spec_analysis1 b (sc X1) X1 true c c; do c <- spec_analysis1 b (sc X2) X2 true c c; spec_analysis1 b (sc X3) X3 true c c.

(** find_extrema.c:42-49 and 128-135, one coordinate: the flags (underrun, overrun) and the coordinate in the box *)
Definition into_box (lo hi x : R) : bool * bool * R :=
  let '(u, x) := if Rlt_dec x lo then (true, lo) else (false, x) in
  let '(o, x) := if Rlt_dec hi x then (true, hi) else (false, x) in (u, o, x).
(** find_extrema.c:59-65, one component; f is the interpolated value, x the coordinate before it was moved *)
Definition continued (u o : bool) (lo hi x f : R) : R :=
  let r := if u then f * (x - lo) else f in if o then - f * (x - hi) else r.
(** find_extrema.c:22-72 f3vec_from_c1c2c3_VectorFuncP.  par->status is never read and left out. *)
Definition f3vec (b : sbox) (en : eenv) (cx cy cz : list R) (v : list R) : res (list R) :=
  do x <- rd v 0; do y <- rd v 1; do z <- rd v 2;
  let lo d := b_lo (bd b d) in let hi d := b_hi (bd b d) in
  let '(ux, ox, X) := into_box (lo X1) (hi X1) x in
  let '(uy, oy, Y) := into_box (lo X2) (hi X2) y in
  let '(uz, oz, Z) := into_box (lo X3) (hi X3) z in
  do f1 <- interp b en 0 cx X Y Z; do f2 <- interp b en 1 cy X Y Z; do f3 <- interp b en 2 cz X Y Z;
  Ok [continued ux ox (lo X1) (hi X1) x f1; continued uy oy (lo X2) (hi X2) y f2; continued uz oz (lo X3) (hi X3) z f3].

(** find_extrema.c:74-147 box_extremum_of_F.  Results: status, the new (X,Y,Z), Fextr.  newton_linesrch_itsP (NumericUtils_shims.c:18-24) is
    newton_linesearch with the first index 1.  The first evaluation of f3vec, at the starting point, ends the program if a basis function is NULL;
    later evaluations cannot fail if the first did not, so the search uses a total function.  [chk0] is the uninitialised check, [jk] and [fuel] as in Lsrch_model. *)
Definition flag (x : bool) (n : Z) : Z := if x then n else 0%Z.
Definition box_extremum (b : sbox) (en : eenv) (jk : Z -> junk) (fuel : nat) (chk0 : bool) (u : list R) (X0 Y0 Z0 : R) : res (Z * (R * R * R) * R) :=
  let lo d := b_lo (bd b d) in let hi d := b_hi (bd b d) in
  do cx <- spec_Deriv1 b (e_der en X1) X1 false u (e_new en X1);
  do cy <- spec_Deriv1 b (e_der en X2) X2 false u (e_new en X2);
  do cz <- spec_Deriv1 b (e_der en X3) X3 false u (e_new en X3);
  do cx <- coeffs_in_place b (e_co en 0%nat) cx;
  do cy <- coeffs_in_place b (e_co en 1%nat) cy;
  do cz <- coeffs_in_place b (e_co en 2%nat) cz;
  do _ <- f3vec b en cx cy cz [X0; Y0; Z0];
  do r <- newton_linesearch 3 (fun v => match f3vec b en cx cy cz v with Ok w => w | _ => [] end) jk fuel [X0; Y0; Z0] chk0 1000 dequaleps;
  let '(stat, v, _) := r in
  do x <- rd v 0; do y <- rd v 1; do z <- rd v 2;
  let '(ux, ox, X) := into_box (lo X1) (hi X1) x in
  let '(uy, oy, Y) := into_box (lo X2) (hi X2) y in
  let '(uz, oz, Z) := into_box (lo X3) (hi X3) z in
  let status := (- (flag ox 8 + flag oy 16 + flag oz 32 + flag ux 1 + flag uy 2 + flag uz 4))%Z in
  let status := if (status =? 0)%Z then stat else status in
  do cx <- spec_Coeffs b (e_co en 3%nat) u cx;
  do Fe <- interp b en 3 cx X Y Z;
  Ok (status, (X, Y, Z), Fe).

(** find_extrema.c:150-176 f1_from_c1_dir_ZP and the switch in lines 227-233: the position on the line *)
Definition on_line (d : dir) (C1 C2 x : R) : R * R * R := match d with X1 => (x, C1, C2) | X2 => (C1, x, C2) | X3 => (C1, C2, x) end.
Definition f1_dir (b : sbox) (en : eenv) (q : nat) (c : list R) (d : dir) (C1 C2 x : R) : res R := let '(X, Y, Z) := on_line d C1 C2 x in interp b en q c X Y Z.

(** which library provides zbrac_P and zbrent_itsP *)
Inductive library := NumericUtils | numerics.
(** NumericUtils/zbrac.c:9-31, the same code as rt_brak with 50 tries; NumericUtils_shims.c:61-66 calls rt_brak and has no return statement: no value (None) *)
Definition zbrac_P (lib : library) (f : R -> R) (x1 x2 : R) : R * R * option Z :=
  let '(y1, y2, r) := rt_brak f x1 x2 50 in (y1, y2, match lib with NumericUtils => Some r | numerics => None end).
(** NumericUtils/zbrent.c:45-68: the new d and e *)
Definition nr_step (a b c fa fb fc d e xm tol1 : R) : R * R :=
  if (if Rle_dec tol1 (Rabs e) then true else false) && (if Rlt_dec (Rabs fb) (Rabs fa) then true else false) then
    let s := fb / fa in
    let pq := if Req_EM_T a c then (2 * xm * s, 1 - s) else
              let q := fa / fc in let r := fb / fc in (s * (2 * xm * q * (q - r) - (b - a) * (r - 1)), (q - 1) * (r - 1) * (s - 1)) in
    let q := if Rlt_dec 0 (fst pq) then - snd pq else snd pq in
    let p := Rabs (fst pq) in
    if Rlt_dec (2 * p) (Rmin (3 * xm * q - Rabs (tol1 * q)) (Rabs (e * q))) then (p / q, d) else (xm, xm)
  else (xm, xm).
(** NumericUtils/zbrent.c:24-79; *x0 (None: not assigned) and the return value; d and e have no value at first *)
Fixpoint nr_loop (f : R -> R) (tol : R) (n : nat) (iter : Z) (a b c fa fb fc d e : R) : option R * Z :=
  match n with O => (None, (- iter - 1)%Z) | S n =>
    let '(c, fc, d, e) := if same_sign fb fc then (a, fa, b - a, b - a) else (c, fc, d, e) in
    let '(a, b, c, fa, fb, fc) := if Rlt_dec (Rabs fc) (Rabs fb) then (b, c, b, fb, fc, fb) else (a, b, c, fa, fb, fc) in
    let tol1 := 2 * DOUBLE_EPS * Rabs b + 0.5 * tol in
    let xm := 0.5 * (c - b) in
    if (if Rle_dec (Rabs xm) tol1 then true else false) || (if Req_EM_T fb 0 then true else false) then (Some b, iter) else
    let '(d, e) := nr_step a b c fa fb fc d e xm tol1 in
    let b_new := brent_move b d xm tol1 in
    nr_loop f tol n (iter + 1) b b_new c fb (f b_new) fc d e
  end.
(** NumericUtils/zbrent.c:11-81; NumericUtils_shims.c:68-73.  x0 is what *x0 holds at the call; [jd], [je] what d and e hold. *)
Definition zbrent_itsP (lib : library) (f : R -> R) (jd je x0 x1 x2 : R) (itmax : Z) (tol : R) : R * Z :=
  match lib with
  | numerics => rtbrent_brak f x0 x1 x2 itmax tol
  | NumericUtils => let fa := f x1 in let fb := f x2 in
      if same_sign fa fb then (x0, (-1)%Z) else
      let '(r, s) := nr_loop f tol (Z.to_nat itmax) 1 x1 x2 x2 fa fb fb jd je in (match r with Some x => x | None => x0 end, s)
  end.
(** find_extrema.c:184-238 box_extremum_of_F_in_dir.  Results: status, *C, *Fextr (None: not assigned).  Using the value of a function that returned none is UB. *)
Definition box_extremum_in_dir (lib : library) (b : sbox) (en : eenv) (jd je : R) (u : list R) (d : dir) (C1 C2 C0 : R) : res (Z * R * option R) :=
  do c <- spec_Deriv1 b (e_der en d) d false u (e_new en d);
  do c <- coeffs_in_place b (e_co en 0%nat) c;
  let f x := match f1_dir b en 0 c d C1 C2 x with Ok y => y | _ => 0 end in
  do _ <- f1_dir b en 0 c d C1 C2 (b_lo (bd b d));
  let '(Cl, Ch, st) := zbrac_P lib f (b_lo (bd b d)) (b_hi (bd b d)) in
  match st with None => UB | Some stat =>
    if (stat <? 0)%Z then Ok (stat, C0, None) else
    let '(C, status) := zbrent_itsP lib f jd je C0 Cl Ch 1000 dequaleps in
    do c <- spec_Coeffs b (e_co en 1%nat) u c;
    do Fe <- f1_dir b en 1 c d C1 C2 C;
    Ok (status, C, Some Fe)
  end.
