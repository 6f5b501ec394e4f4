(** Model of src/utility/Spectral/finite_differences.c.
    double is R.  n is the index of the last point, a natural number.  Arrays are lists; access outside is UB.
    The input and output arrays of one call do not overlap, as in all calls in /repo. *)
From Verif Require Import Rutil Loops Sparse_model Cheb_model.
Local Open Scope R_scope.

(** l[n-k]: the C index is an int, so n<k is an access before the array *)
Definition rdm {A} (l : list A) (n k : nat) : res A := if (n <? k)%nat then UB else rd l (n - k).

(** lines 21-22, 37-38, 54-55 and 71-72: the loop over inner points *)
Definition inner (c cder : list R) (n : nat) (f : R -> R -> R -> R) : res (list R) :=
  for_nat 1 n (fun j d => do p <- rd c (j + 1); do q <- rd c j; do m <- rd c (j - 1); wr d j (f p q m)) cder.

(** finite_differences.c:15-26 fd2_deriv_periodic (aux unused) *)
Definition fd2_deriv_periodic (a b : R) (c cder : list R) (n : nat) : res (list R) :=
  let con := 0.5 * INR (n + 1) / (b - a) in
  do d <- inner c cder n (fun p q m => (p - m) * con);
  do x1 <- rd c 1; do xn <- rd c n;
  do d <- wr d 0 ((x1 - xn) * con);
  do x0 <- rd c 0; do xm <- rdm c n 1;
  wr d n ((x0 - xm) * con).

(** finite_differences.c:31-42 fd2_deriv_onesidedBC *)
Definition fd2_deriv_onesidedBC (a b : R) (c cder : list R) (n : nat) : res (list R) :=
  let con := 0.5 * INR n / (b - a) in
  do d <- inner c cder n (fun p q m => (p - m) * con);
  do x0 <- rd c 0; do x1 <- rd c 1; do x2 <- rd c 2;
  do d <- wr d 0 ((-3.0 * x0 + 4.0 * x1 - x2) * con);
  do y0 <- rd c n; do y1 <- rdm c n 1; do y2 <- rdm c n 2;
  wr d n ((3.0 * y0 - 4.0 * y1 + y2) * con).

(** finite_differences.c:47-59 fd2_2ndderiv_periodic *)
Definition fd2_2ndderiv_periodic (a b : R) (c cder : list R) (n : nat) : res (list R) :=
  let ooh := INR (n + 1) / (b - a) in
  let con := ooh * ooh in
  do d <- inner c cder n (fun p q m => (p - 2.0 * q + m) * con);
  do x1 <- rd c 1; do x0 <- rd c 0; do xn <- rd c n;
  do d <- wr d 0 ((x1 - 2.0 * x0 + xn) * con);
  do xm <- rdm c n 1;
  wr d n ((x0 - 2.0 * xn + xm) * con).

(** finite_differences.c:64-76 fd2_2ndderiv_onesidedBC *)
Definition fd2_2ndderiv_onesidedBC (a b : R) (c cder : list R) (n : nat) : res (list R) :=
  let ooh := INR n / (b - a) in
  let con := ooh * ooh in
  do d <- inner c cder n (fun p q m => (p - 2.0 * q + m) * con);
  do x0 <- rd c 0; do x1 <- rd c 1; do x2 <- rd c 2; do x3 <- rd c 3;
  do d <- wr d 0 ((2.0 * x0 - 5.0 * x1 + 4.0 * x2 - x3) * con);
  do y0 <- rd c n; do y1 <- rdm c n 1; do y2 <- rdm c n 2; do y3 <- rdm c n 3;
  wr d n ((2.0 * y0 - 5.0 * y1 + 4.0 * y2 - y3) * con).

(** finite_differences.c:80-85 fd2_coeffs: c from u *)
Definition fd2_coeffs (c u : list R) (n : nat) : res (list R) :=
  for_nat 0 (n + 1) (fun k c => do x <- rd u k; wr c k x) c.
(** finite_differences.c:89-94 fd2_eval: u from c *)
Definition fd2_eval (c u : list R) (n : nat) : res (list R) :=
  for_nat 0 (n + 1) (fun k u => do x <- rd c k; wr u k x) u.
(** finite_differences.c:98-102 fd2_filter does nothing *)
Definition fd2_filter (c : list R) (k n : nat) : res (list R) := Ok c.

(** finite_differences.c:107-116 fdcentered_deriv_onesidedBC.  Division by 0 is not an error here (IEEE: inf or nan);
    the theorems assume distinct points. *)
Definition fdcentered_deriv_onesidedBC (x c cder : list R) (n : nat) : res (list R) :=
  do d <- for_nat 1 n (fun j d => do cp <- rd c (j + 1); do cm <- rd c (j - 1); do xp <- rd x (j + 1); do xm <- rd x (j - 1);
                                  wr d j ((cp - cm) / (xp - xm))) cder;
  do c1 <- rd c 1; do c0 <- rd c 0; do x1 <- rd x 1; do x0 <- rd x 0;
  do d <- wr d 0 ((c1 - c0) / (x1 - x0));
  do cn <- rd c n; do cm <- rdm c n 1; do xn <- rd x n; do xm <- rdm x n 1;
  wr d n ((cn - cm) / (xn - xm)).

(** finite_differences.c:119-134, 136-151, 153-169 fdcentered_deriv1/2/3_onesidedBC: the coordinates of the line through the
    origin of the box are copied to temp (n+1 doubles, malloc'ed), m is the number of points copied, coord(i) reads
    box->v[vind][Index(...)]. *)
Definition fdcentered_derivN_onesidedBC (m : nat) (coord : nat -> res R) (c cder : list R) (n : nat) : res (list R) :=
  do temp <- for_nat 0 m (fun i t => do x <- coord i; wr t i x) (repeat 0 (n + 1));
  fdcentered_deriv_onesidedBC temp c cder n.

(** finite_differences.c:173-181 fdDp_deriv_onesidedBC *)
Definition fdDp_deriv_onesidedBC (x c cder : list R) (n : nat) : res (list R) :=
  do d <- for_nat 0 n (fun j d => do cp <- rd c (j + 1); do cm <- rd c j; do xp <- rd x (j + 1); do xm <- rd x j;
                                  wr d j ((cp - cm) / (xp - xm))) cder;
  do cn <- rd c n; do cm <- rdm c n 1; do xn <- rd x n; do xm <- rdm x n 1;
  wr d n ((cn - cm) / (xn - xm)).

(** finite_differences.c:186-194 fdDm_deriv_onesidedBC *)
Definition fdDm_deriv_onesidedBC (x c cder : list R) (n : nat) : res (list R) :=
  do d <- for_nat 1 (n + 1) (fun j d => do cp <- rd c j; do cm <- rd c (j - 1); do xp <- rd x j; do xm <- rd x (j - 1);
                                  wr d j ((cp - cm) / (xp - xm))) cder;
  do c1 <- rd c 1; do c0 <- rd c 0; do x1 <- rd x 1; do x0 <- rd x 0;
  wr d 0 ((c1 - c0) / (x1 - x0)).

Definition b2r (b : bool) : R := if b then 1 else 0.
(** finite_differences.c:199-227 fd_basis1 (fd_basis2 and fd_basis3, lines 229-287, are the same with their own coordinate).
    Without a box: lines 203-208.  The comparison with the int cast is a comparison of integers. *)
Definition fd_basis_nobox (a b : R) (k N : nat) (X : R) : R :=
  if Rle_dec X (a + dequaleps) then b2r (k =? 0)%nat
  else if Rle_dec (b - dequaleps) X then b2r (Z.of_nat k =? Z.of_nat N - 1)%Z
  else b2r (Z.of_nat k =? Rtrunc (INR N * (X - a) / (b - a)))%Z.
(** with a box: lines 209-226; coord(i) reads the coordinate of point i of the line, [todo] counts the iterations left *)
Fixpoint fd_basis_search (coord : nat -> res R) (k : nat) (X : R) (iX todo : nat) : res (option R) :=
  match todo with
  | O => Ok None
  | S t => do L <- coord iX; do Rr <- coord (iX + 1)%nat;
           if Rlt_dec X ((L + Rr) * 0.5) then Ok (Some (b2r (k =? iX)%nat)) else fd_basis_search coord k X (iX + 1) t
  end.
Definition fd_basis_box (coord : nat -> res R) (k N : nat) (X : R) : res R :=
  do r <- fd_basis_search coord k X 0 (N - 1);
  Ok (match r with Some v => v | None => b2r (Z.of_nat k =? Z.of_nat N - 1)%Z end).
