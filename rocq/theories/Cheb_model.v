(** Model of src/utility/Spectral/explicit_Cheb_trafos.c.
    double is modelled by R (no rounding); the decimal literal PI (line 9) by the number pi.  int arguments that the
    functions use as array sizes are naturals.  Arrays are lists; reading or writing outside of them is UB.
    The arrays passed to one call are assumed not to overlap, as in all calls in /repo. *)
From Verif Require Import Rutil Loops Sparse_model.
Local Open Scope R_scope.

(** explicit_Cheb_trafos.c:30-57 cheb_getcoeff; the function pointer is a function, the calloc'ed array f is created with its values *)
Definition cheb_getcoeff (a b : R) (c : list R) (n : nat) (func : R -> R) : res (list R) :=
  let np1 := INR (n + 1) in
  let amb := 0.5 * (a - b) in let bpa := 0.5 * (b + a) in
  do f <- for_nat 0 (n + 1) (fun k f => wr f k (func (cos (PI * (INR k + 0.5) / np1) * amb + bpa))) (repeat 0 (n + 1));
  let fac := 2.0 / np1 in
  for_nat 0 (n + 1) (fun j c =>
    do sum <- for_nat 0 (n + 1) (fun k s => do x <- rd f k; Ok (s + x * cos (PI * INR j * (INR k + 0.5) / np1))) 0;
    wr c j (fac * sum)) c.

(** explicit_Cheb_trafos.c:61-76 cheb_eval; the message for X outside [a,b] is not modelled.
    The loop variable j runs down from n to 1. *)
Definition cheb_eval (a b : R) (c : list R) (n : nat) (X : R) : res R :=
  let y := (2.0 * X - a - b) / (a - b) in
  let y2 := 2.0 * y in
  do s <- forl (rev (seq 1 n)) (fun j s => do cj <- rd c j; Ok (y2 * fst s - snd s + cj, fst s)) (0, 0);
  do c0 <- rd c 0;
  Ok (y * fst s - snd s + 0.5 * c0).

(** explicit_Cheb_trafos.c:80-95 cheb_deriv (aux unused); the loop runs j = n-2, ..., 0 *)
Definition cheb_deriv (a b : R) (c cder : list R) (n : nat) : res (list R) :=
  do d <- wr cder n 0;
  do d <- (if (1 <=? n)%nat then do cn <- rd c n; wr d (n - 1) (2 * INR n * cn) else Ok d);
  do d <- forl (rev (seq 0 (n - 1))) (fun j d => do x <- rd d (j + 2); do y <- rd c (j + 1); wr d j (x + 2 * (INR j + 1) * y)) d;
  let con := 2.0 / (a - b) in
  for_nat 0 n (fun j d => do x <- rd d j; wr d j (x * con)) d.

(** explicit_Cheb_trafos.c:99-114 cheb_int; for n=0 the code reads c[-1] (line 111) *)
Definition cheb_int (a b : R) (c cint : list R) (n : nat) : res (list R) :=
  let con := 0.25 * (a - b) in
  do s <- for_nat 1 n (fun j s => let '(ci, sum, fac) := s in
            do x <- rd c (j - 1); do y <- rd c (j + 1);
            let v := con * (x - y) / INR j in
            do ci <- wr ci j v;
            Ok (ci, sum + fac * v, - fac)) (cint, 0, 1);
  let '(ci, sum, fac) := s in
  match n with
  | O => UB
  | S m => do x <- rd c m;
           let v := con * x / INR n in
           do ci <- wr ci n v;
           let sum := sum + fac * v in
           wr ci 0 (2.0 * sum)
  end.

(** explicit_Cheb_trafos.c:119-136 cheb_coeffs_fromZeros *)
Definition cheb_coeffs_fromZeros (c u : list R) (n : nat) : res (list R) :=
  let N := (n + 1)%nat in
  let PIoN := PI / INR N in
  let fac := 2.0 / INR N in
  for_nat 0 (n + 1) (fun j c =>
    do sum <- for_nat 0 (n + 1) (fun k s => do x <- rd u k; Ok (s + cos (INR j * PIoN * (INR k + 0.5)) * x)) 0;
    wr c j (fac * sum)) c.

(** explicit_Cheb_trafos.c:140-157 cheb_coeffs_fromExtrema.  cos(j*PI) is cos of INR j * pi. *)
Definition cheb_coeffs_fromExtrema (c u : list R) (N : nat) : res (list R) :=
  let PIoN := PI / INR N in
  let fac := 2.0 / INR N in
  do c <- for_nat 0 (N + 1) (fun j c =>
    do u0 <- rd u 0; do uN <- rd u N;
    do sum <- for_nat 1 N (fun k s => do x <- rd u k; Ok (s + cos (INR j * PIoN * INR k) * x)) (0.5 * (u0 + cos (INR j * PI) * uN));
    wr c j (fac * sum)) c;
  do x <- rd c N;
  wr c N (x * 0.5).

(** explicit_Cheb_trafos.c:161-177 cheb_eval_onZeros *)
Definition cheb_eval_onZeros (c u : list R) (n : nat) : res (list R) :=
  let N := (n + 1)%nat in
  let PIoN := PI / INR N in
  for_nat 0 (n + 1) (fun j u =>
    do c0 <- rd c 0;
    do sum <- for_nat 1 (n + 1) (fun k s => do x <- rd c k; Ok (s + x * cos (INR k * PIoN * (INR j + 0.5)))) (0.5 * c0);
    wr u j sum) u.

(** explicit_Cheb_trafos.c:181-196 cheb_eval_onExtrema *)
Definition cheb_eval_onExtrema (c u : list R) (N : nat) : res (list R) :=
  let PIoN := PI / INR N in
  for_nat 0 (N + 1) (fun j u =>
    do c0 <- rd c 0;
    do sum <- for_nat 1 (N + 1) (fun k s => do x <- rd c k; Ok (s + x * cos (INR k * PIoN * INR j))) (0.5 * c0);
    wr u j sum) u.

(** explicit_Cheb_trafos.c:200-205 cheb_filter (and four_filter, explicit_Four_trafos.c:211-216, which has the same text); k >= 0 *)
Definition cheb_filter (c : list R) (k n : nat) : res (list R) :=
  for_nat k (n + 1) (fun j c => wr c j 0) c.

(** explicit_Cheb_trafos.c:209-231 cheb_basisfunc_FromSum (aux, n1 unused; message not modelled) *)
Definition cheb_basisfunc_FromSum (a b : R) (n : nat) (X : R) : R :=
  if (n =? 0)%nat then 0.5
  else
    let y := (2.0 * X - a - b) / (a - b) in
    let y2 := 2.0 * y in
    let s := fold_left (fun s _ => (y2 * fst s - snd s, fst s)) (rev (seq 1 (n - 1))) (y2 * 0 - 0 + 1.0, 0) in
    y * fst s - snd s.

(** sgrid_main.h:89-91 dequal *)
Definition dequaleps : R := 1 / 10000000000.
Definition dless (a b : R) : bool := if Rlt_dec a (b - dequaleps) then true else false.
Definition dequal (a b : R) : bool := negb (dless a b || dless b a).

(** explicit_Cheb_trafos.c:235-253 cheb_basisfunc (aux, n1 unused).  acos outside [-1,1] is NaN in C; acos of Coq is total. *)
Definition cheb_basisfunc (a b : R) (n : nat) (X : R) : R :=
  if (n =? 0)%nat then 0.5
  else
    let y := ((X - a) + (X - b)) / (a - b) in
    if dequal y 1 then 1
    else if dequal y (-1) then (if (n mod 2 =? 0)%nat then 1 else -1)
    else cos (INR n * acos y).
