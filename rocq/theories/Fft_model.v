(** Model of the fast transforms of src/utility/Spectral/FFTs_for_sgrid.c:1-374 that do not need FFTW3 (the numrec functions and
    their callers), and of is_power_of_two (spec_coeffs.c:589-598).
    double is R, the literals PI and twoPI are pi and 2 pi; unsigned long and int are naturals that do not overflow.
    Arrays are lists; a numrec function gets the address one before its array, so data[i] is element i-1.
    Reading or writing outside of an array is UB.  Arrays passed to one call do not overlap. *)
From Verif Require Import Rutil Loops Sparse_model Four_model.
Local Open Scope R_scope.

(** data[i] of an array handed over as (address - 1) *)
Definition rd1 (d : list R) (i : nat) : res R := match i with O => UB | S k => rd d k end.
Definition wr1 (d : list R) (i : nat) (v : R) : res (list R) := match i with O => UB | S k => wr d k v end.
(** FFTs_for_sgrid.c:155 SWAP(data[i],data[j]) *)
Definition swap1 (d : list R) (j i : nat) : res (list R) :=
  do t <- rd1 d j; do x <- rd1 d i; do d <- wr1 d j x; wr1 d i t.

(** FFTs_for_sgrid.c:172-176 while(m >= 2 && j > m) { j -= m; m >>= 1; }; result (j, m).  m shrinks, so that m+1 turns suffice. *)
Fixpoint carry (fuel j m : nat) : res (nat * nat) :=
  match fuel with
  | O => UB
  | S f => if ((2 <=? m) && (m <? j))%nat then carry f (j - m) (m / 2) else Ok (j, m)
  end.
(** FFTs_for_sgrid.c:162-178, the reordering; i = 2k+1, state (data, j) *)
Definition reorder (d : list R) (nn : nat) : res (list R * nat) :=
  let n := (2 * nn)%nat in
  for_nat 0 nn (fun k s =>
    let '(d, j) := s in let i := (2 * k + 1)%nat in
    do d <- (if (i <? j)%nat then do d <- swap1 d j i; swap1 d (j + 1) (i + 1) else Ok d);
    do jm <- carry (n / 2 + 1) j (n / 2);
    Ok (d, fst jm + snd jm)%nat) (d, 1%nat).

(** FFTs_for_sgrid.c:195-201, one butterfly with j = i+mmax *)
Definition butterfly (mmax i : nat) (wRe wIm : R) (d : list R) : res (list R) :=
  let j := (i + mmax)%nat in
  do dj <- rd1 d j; do dj1 <- rd1 d (j + 1);
  let tmpRe := wRe * dj - wIm * dj1 in
  do dj1 <- rd1 d (j + 1); do dj <- rd1 d j;
  let tmpIm := wRe * dj1 + wIm * dj in
  do x <- rd1 d i; do d <- wr1 d j (x - tmpRe);
  do x <- rd1 d (i + 1); do d <- wr1 d (j + 1) (x - tmpIm);
  do x <- rd1 d i; do d <- wr1 d i (x + tmpRe);
  do x <- rd1 d (i + 1); wr1 d (i + 1) (x + tmpIm).
(** the recurrence of (wRe, wIm), e.g. FFTs_for_sgrid.c:203-205 *)
Definition turn (wpRe wpIm : R) (w : R * R) : R * R :=
  let '(wRe, wIm) := w in
  let wtmp := wRe in
  let wRe := wRe * wpRe - wIm * wpIm + wRe in
  let wIm := wIm * wpRe + wtmp * wpIm + wIm in
  (wRe, wIm).
(** wpRe and wpIm from theta, e.g. FFTs_for_sgrid.c:186-188 *)
Definition wp_of (theta : R) : R * R := let wtmp := sin (0.5 * theta) in (- 2 * wtmp * wtmp, sin theta).
(** FFTs_for_sgrid.c:184-206, one pass for a given mmax: m = 2t+1 < mmax, i = m + r*istep <= n *)
Definition pass (isign : R) (n mmax : nat) (d : list R) : res (list R) :=
  let istep := (2 * mmax)%nat in
  let theta := isign * (2 * PI / INR mmax) in
  let '(wpRe, wpIm) := wp_of theta in
  do s <- for_nat 0 (mmax / 2) (fun t s =>
    let '(d, w) := s in let m := (2 * t + 1)%nat in
    do d <- for_nat 0 (if (m <=? n)%nat then (n - m) / istep + 1 else 0) (fun r d => butterfly mmax (m + r * istep) (fst w) (snd w) d) d;
    Ok (d, turn wpRe wpIm w)) (d, (1, 0));
  Ok (fst s).
(** FFTs_for_sgrid.c:181-208 while(n > mmax); mmax doubles, so that n turns suffice *)
Fixpoint passes (fuel : nat) (isign : R) (n mmax : nat) (d : list R) : res (list R) :=
  match fuel with
  | O => UB
  | S f => if (mmax <? n)%nat then do d <- pass isign n mmax d; passes f isign n (2 * mmax) d else Ok d
  end.
(** FFTs_for_sgrid.c:156-209 numrec_four1; isign is 1 or -1 *)
Definition numrec_four1 (d : list R) (nn : nat) (isign : R) : res (list R) :=
  do s <- reorder d nn;
  passes (2 * nn + 1) isign (2 * nn) 2 (fst s).

(** FFTs_for_sgrid.c:239-252, one turn of the loop of numrec_realft *)
Definition rbody (c1 c2 wpRe wpIm : R) (n i : nat) (s : list R * (R * R)) : res (list R * (R * R)) :=
  let '(d, w) := s in let '(wRe, wIm) := w in
  let i1 := (i + i - 1)%nat in let i2 := (1 + i1)%nat in let i3 := (n + 3 - i2)%nat in let i4 := (1 + i3)%nat in
  do x1 <- rd1 d i1; do x3 <- rd1 d i3; let h1Re := c1 * (x1 + x3) in
  do x2 <- rd1 d i2; do x4 <- rd1 d i4; let h1Im := c1 * (x2 - x4) in
  let h2Re := - c2 * (x2 + x4) in
  let h2Im := c2 * (x1 - x3) in
  do d <- wr1 d i1 (h1Re + wRe * h2Re - wIm * h2Im);
  do d <- wr1 d i2 (h1Im + wRe * h2Im + wIm * h2Re);
  do d <- wr1 d i3 (h1Re - wRe * h2Re + wIm * h2Im);
  do d <- wr1 d i4 (- h1Im + wRe * h2Im + wIm * h2Re);
  Ok (d, turn wpRe wpIm w).
(** FFTs_for_sgrid.c:213-265 numrec_realft; fwd means isign == 1, otherwise isign is -1 *)
Definition numrec_realft (d : list R) (n : nat) (fwd : bool) : res (list R) :=
  let c1 := 0.5 in
  let theta := PI / INR (n / 2) in
  do d <- (if fwd then numrec_four1 d (n / 2) 1 else Ok d);
  let c2 := if fwd then - 0.5 else 0.5 in
  let theta := if fwd then theta else - theta in
  let '(wpRe, wpIm) := wp_of theta in
  let wRe := 1 + wpRe in
  let wIm := wpIm in
  do s <- for_nat 2 (n / 4 + 1) (rbody c1 c2 wpRe wpIm n) (d, (wRe, wIm));
  let d := fst s in
  if fwd then
    do h1Re <- rd1 d 1; do x2 <- rd1 d 2; do d <- wr1 d 1 (h1Re + x2);
    do x2 <- rd1 d 2; wr1 d 2 (h1Re - x2)
  else
    do h1Re <- rd1 d 1; do x2 <- rd1 d 2; do d <- wr1 d 1 (c1 * (h1Re + x2));
    do x2 <- rd1 d 2; do d <- wr1 d 2 (c1 * (h1Re - x2));
    numrec_four1 d (n / 2) (-1).

(** FFTs_for_sgrid.c:268-302 numrec_cosft1.  The last loop has j = 4, 6, ... <= n, i.e. j = 2k with 2 <= k <= n/2. *)
Definition numrec_cosft1 (y : list R) (n : nat) : res (list R) :=
  let theta := PI / INR n in
  let '(wpRe, wpIm) := wp_of theta in
  do a <- rd1 y 1; do b <- rd1 y (n + 1); let sum := 0.5 * (a - b) in
  do y <- wr1 y 1 (0.5 * (a + b));
  let n2 := (n + 2)%nat in
  do s <- for_nat 2 (n / 2 + 1) (fun j s =>
    let '(y, w, sum) := s in
    let w := turn wpRe wpIm w in let '(wRe, wIm) := w in
    do a <- rd1 y j; do b <- rd1 y (n2 - j);
    let y1 := 0.5 * (a + b) in
    let y2 := a - b in
    do y <- wr1 y j (y1 - wIm * y2);
    do y <- wr1 y (n2 - j) (y1 + wIm * y2);
    Ok (y, w, sum + wRe * y2)) (y, (1, 0), sum);
  let '(y, _, sum) := s in
  do y <- numrec_realft y n true;
  do x <- rd1 y 2; do y <- wr1 y (n + 1) x;
  do y <- wr1 y 2 sum;
  do s <- for_nat 2 (n / 2 + 1) (fun k s =>
    let '(y, sum) := s in let j := (2 * k)%nat in
    do x <- rd1 y j; let sum := sum + x in
    do y <- wr1 y j sum;
    Ok (y, sum)) (y, sum);
  Ok (fst s).

(** FFTs_for_sgrid.c:306-374 numrec_cosft2.  The loops i = 3, 5, ... <= n have i = 2k+1 with 1 <= k <= (n-1)/2;
    the loops i = n, n-2, ... >= 2 (or 4) have i = n-2k with k < n/2 (or k < n/2-1) for even n. *)
Definition numrec_cosft2 (y : list R) (n : nat) (fwd : bool) : res (list R) :=
  let theta := 0.5 * PI / INR n in
  let wRe1 := cos theta in
  let wIm1 := sin theta in
  let wpRe := - 2 * wIm1 * wIm1 in
  let wpIm := sin (2 * theta) in
  let w1 := (wRe1, wIm1) in
  if fwd then
    do s <- for_nat 1 (n / 2 + 1) (fun i s =>
      let '(y, w) := s in
      do a <- rd1 y i; do b <- rd1 y (n - i + 1);
      let y1 := 0.5 * (a + b) in
      let y2 := snd w * (a - b) in
      do y <- wr1 y i (y1 + y2);
      do y <- wr1 y (n - i + 1) (y1 - y2);
      Ok (y, turn wpRe wpIm w)) (y, w1);
    do y <- numrec_realft (fst s) n true;
    do s <- for_nat 1 ((n - 1) / 2 + 1) (fun k s =>
      let '(y, w) := s in let i := (2 * k + 1)%nat in
      let w := turn wpRe wpIm w in let '(wRe, wIm) := w in
      do a <- rd1 y i; do b <- rd1 y (i + 1);
      let y1 := a * wRe - b * wIm in
      let y2 := b * wRe + a * wIm in
      do y <- wr1 y i y1;
      do y <- wr1 y (i + 1) y2;
      Ok (y, w)) (y, (1, 0));
    let y := fst s in
    do x <- rd1 y 2; let sum := 0.5 * x in
    do s <- for_nat 0 (n / 2) (fun k s =>
      let '(y, sum) := s in let i := (n - 2 * k)%nat in
      let sum1 := sum in
      do x <- rd1 y i; let sum := sum + x in
      do y <- wr1 y i sum1;
      Ok (y, sum)) (y, sum);
    Ok (fst s)
  else
    do ytmp <- rd1 y n;
    do y <- for_nat 0 (n / 2 - 1) (fun k y =>
      let i := (n - 2 * k)%nat in
      do a <- rd1 y (i - 2); do b <- rd1 y i; wr1 y i (a - b)) y;
    do y <- wr1 y 2 (2 * ytmp);
    do s <- for_nat 1 ((n - 1) / 2 + 1) (fun k s =>
      let '(y, w) := s in let i := (2 * k + 1)%nat in
      let w := turn wpRe wpIm w in let '(wRe, wIm) := w in
      do a <- rd1 y i; do b <- rd1 y (i + 1);
      let y1 := a * wRe + b * wIm in
      let y2 := b * wRe - a * wIm in
      do y <- wr1 y i y1;
      do y <- wr1 y (i + 1) y2;
      Ok (y, w)) (y, (1, 0));
    do y <- numrec_realft (fst s) n false;
    do s <- for_nat 1 (n / 2 + 1) (fun i s =>
      let '(y, w) := s in
      do a <- rd1 y i; do b <- rd1 y (n - i + 1);
      let y1 := a + b in
      let y2 := (0.5 / snd w) * (a - b) in
      do y <- wr1 y i (0.5 * (y1 + y2));
      do y <- wr1 y (n - i + 1) (0.5 * (y1 - y2));
      Ok (y, turn wpRe wpIm w)) (y, w1);
    Ok (fst s).

(** FFTs_for_sgrid.c:39-50 four_coeffs_numrecFFT *)
Definition four_coeffs_numrecFFT (c u : list R) (n : nat) : res (list R) :=
  let N := (n + 1)%nat in
  do c <- for_nat 0 N (fun j c => do x <- rd u j; wr c j x) c;
  do c <- numrec_realft c N true;
  do temp <- rd c 1;
  do c <- for_nat 2 N (fun j c => do x <- rd c j; wr c (j - 1) x) c;
  wr c (N - 1) temp.
(** FFTs_for_sgrid.c:54-64 four_eval_numrecFFT *)
Definition four_eval_numrecFFT (c u : list R) (n : nat) : res (list R) :=
  let N := (n + 1)%nat in
  let toN := 2.0 / INR N in
  do x <- rd c 0; do u <- wr u 0 (toN * x);
  do x <- rd c (N - 1); do u <- wr u 1 (toN * x);
  do u <- for_nat 2 N (fun j u => do x <- rd c (j - 1); wr u j (toN * x)) u;
  numrec_realft u N false.
(** FFTs_for_sgrid.c:68-104 four_int_numrecFFT; as four_int (Four_model.v), but with four_coeffs_numrecFFT *)
Definition four_int_numrecFFT (a b : R) (c cint : list R) (n : nat) : res (list R) :=
  let N := (n + 1)%nat in
  let L := b - a in
  let PI2_con := 2.0 * PI / L in
  do u <- for_nat 0 N (fun j u => wr u j (INR j * L / INR N)) (repeat 0 (N + 1));
  do ci <- four_coeffs_numrecFFT cint u n;
  do ci <- for_nat 0 N (fun j ci => do x <- rd ci j; do c0 <- rd c 0; wr ci j (x * (c0 / INR N))) ci;
  do ci <- for_nat 1 ((N + 1) / 2) (fun j ci =>
    do x <- rd ci (2 * j - 1); do y <- rd c (2 * j); do ci <- wr ci (2 * j - 1) (x + - y / (PI2_con * INR j));
    do x <- rd ci (2 * j); do y <- rd c (2 * j - 1); wr ci (2 * j) (x + y / (PI2_con * INR j))) ci;
  if (N mod 2 =? 0)%nat then do x <- rd ci (N - 1); wr ci (N - 1) (x + 0) else Ok ci.
(** FFTs_for_sgrid.c:109-117 cheb_coeffs_fromZeros_numrecFFT *)
Definition cheb_coeffs_fromZeros_numrecFFT (c u : list R) (n : nat) : res (list R) :=
  let N := (n + 1)%nat in
  let toN := 2.0 / INR N in
  do c <- for_nat 0 N (fun j c => do x <- rd u j; wr c j (toN * x)) c;
  numrec_cosft2 c N true.
(** FFTs_for_sgrid.c:120-128 cheb_coeffs_fromExtrema_numrecFFT *)
Definition cheb_coeffs_fromExtrema_numrecFFT (c u : list R) (N : nat) : res (list R) :=
  let toN := 2.0 / INR N in
  do c <- for_nat 0 (N + 1) (fun j c => do x <- rd u j; wr c j (toN * x)) c;
  do c <- numrec_cosft1 c N;
  do x <- rd c N; wr c N (x * 0.5).
(** FFTs_for_sgrid.c:131-138 cheb_eval_onZeros_numrecFFT *)
Definition cheb_eval_onZeros_numrecFFT (c u : list R) (n : nat) : res (list R) :=
  let N := (n + 1)%nat in
  do u <- for_nat 0 N (fun j u => do x <- rd c j; wr u j x) u;
  numrec_cosft2 u N false.
(** FFTs_for_sgrid.c:141-148 cheb_eval_onExtrema_numrecFFT *)
Definition cheb_eval_onExtrema_numrecFFT (c u : list R) (N : nat) : res (list R) :=
  do u <- for_nat 0 N (fun j u => do x <- rd c j; wr u j x) u;
  do x <- rd c N; do u <- wr u N (x * 2.0);
  numrec_cosft1 u N.

(** spec_coeffs.c:589-598 is_power_of_two: the number of turns of while(nn >>= 1) ng++ is the position of the highest bit *)
Fixpoint highbit (fuel nn ng : nat) : nat :=
  match fuel with O => ng | S f => let nn := (nn / 2)%nat in if (nn =? 0)%nat then ng else highbit f nn (ng + 1) end.
Definition is_power_of_two (N : nat) : bool := (N =? 2 ^ highbit N N 0)%nat.
