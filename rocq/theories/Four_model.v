(** Model of src/utility/Spectral/explicit_Four_trafos.c.  double is modelled by R, the literal PI by pi; n >= 0 and N = n+1.
    Arrays are lists; the arrays passed to one call do not overlap. *)
From Verif Require Import Rutil Loops Sparse_model.
Local Open Scope R_scope.

(** explicit_Four_trafos.c:22-41 four_deriv (aux unused).  The loop runs over 1 <= j with 2j < N, i.e. j < (N+1)/2. *)
Definition four_deriv (a b : R) (c cder : list R) (n : nat) : res (list R) :=
  let N := (n + 1)%nat in
  let PI2_con := 2.0 * PI / (b - a) in
  do d <- for_nat 1 ((N + 1) / 2) (fun j d =>
    do x <- rd c (2 * j); do d <- wr d (2 * j - 1) (x * PI2_con * INR j);
    do y <- rd c (2 * j - 1); wr d (2 * j) (- y * PI2_con * INR j)) cder;
  do d <- wr d 0 0;
  if (N mod 2 =? 0)%nat then wr d (N - 1) 0 else Ok d.

(** explicit_Four_trafos.c:152-177 four_coeffs *)
Definition four_coeffs (c u : list R) (n : nat) : res (list R) :=
  let N := (n + 1)%nat in
  let PI2oN := 2.0 * PI / INR N in
  do c <- wr c 0 0;
  do c <- for_nat 0 N (fun k c => do x <- rd u k; do c0 <- rd c 0; wr c 0 (c0 + x)) c;
  for_nat 1 (N / 2 + 1) (fun j c =>
    do s <- for_nat 0 N (fun k s => do x <- rd u k;
              Ok (fst s + cos (INR j * PI2oN * INR k) * x, snd s + sin (INR j * PI2oN * INR k) * x)) (0, 0);
    do c <- wr c (2 * j - 1) (fst s);
    if (2 * j <? N)%nat then wr c (2 * j) (snd s) else Ok c) c.

(** explicit_Four_trafos.c:131-139 and 192-200, the common inner loop of four_eval_alt and four_eval at point j *)
Definition four_sum (c : list R) (N j : nat) : res R :=
  let PI2oN := 2.0 * PI / INR N in
  for_nat 1 (N / 2 + 1) (fun k s =>
    do Re_c_k <- rd c (2 * k - 1);
    do Im_c_k <- (if (2 * k <? N)%nat then rd c (2 * k) else Ok 0);
    Ok (s + (cos (INR k * PI2oN * INR j) * Re_c_k + sin (INR k * PI2oN * INR j) * Im_c_k))) 0.

(** explicit_Four_trafos.c:181-207 four_eval *)
Definition four_eval (c u : list R) (n : nat) : res (list R) :=
  let N := (n + 1)%nat in
  for_nat 0 N (fun j u =>
    do sum <- four_sum c N j;
    do c0 <- rd c 0;
    if (N mod 2 =? 0)%nat then do cN <- rd c (N - 1); wr u j ((c0 + 2.0 * sum - cN * cos (PI * INR j)) / INR N)
    else wr u j ((c0 + 2.0 * sum) / INR N)) u.

(** explicit_Four_trafos.c:87-116 four_coeffs_alt *)
Definition four_coeffs_alt (c u : list R) (n : nat) : res (list R) :=
  let N := (n + 1)%nat in
  let toN := 2.0 / INR N in
  let PI2oN := PI * toN in
  do c <- wr c 0 0;
  do c <- for_nat 0 N (fun k c => do x <- rd u k; do c0 <- rd c 0; wr c 0 (c0 + x)) c;
  do c0 <- rd c 0;
  do c <- wr c 0 (c0 / INR N);
  do c <- for_nat 1 (N / 2 + 1) (fun j c =>
    do s <- for_nat 0 N (fun k s => do x <- rd u k;
              Ok (fst s + cos (INR j * PI2oN * INR k) * x, snd s + sin (INR j * PI2oN * INR k) * x)) (0, 0);
    do c <- wr c (2 * j - 1) (fst s * toN);
    if (2 * j <? N)%nat then wr c (2 * j) (snd s * toN) else Ok c) c;
  if (N mod 2 =? 0)%nat then do x <- rd c (N - 1); wr c (N - 1) (0.5 * x) else Ok c.

(** explicit_Four_trafos.c:120-146 four_eval_alt *)
Definition four_eval_alt (c u : list R) (n : nat) : res (list R) :=
  let N := (n + 1)%nat in
  for_nat 0 N (fun j u =>
    do sum <- four_sum c N j;
    do c0 <- rd c 0;
    if (N mod 2 =? 0)%nat then do cN <- rd c (N - 1); wr u j (c0 + sum - cN * cos (PI * INR j))
    else wr u j (c0 + sum)) u.

(** explicit_Four_trafos.c:45-82 four_int; the temporary u is a list of N values.  The statement of line 78 adds 0. *)
Definition four_int (a b : R) (c cint : list R) (n : nat) : res (list R) :=
  let N := (n + 1)%nat in
  let L := b - a in
  let PI2_con := 2.0 * PI / L in
  do u <- for_nat 0 N (fun j u => wr u j (INR j * L / INR N)) (repeat 0 (N + 1));
  do ci <- four_coeffs cint u n;
  do ci <- for_nat 0 N (fun j ci => do x <- rd ci j; do c0 <- rd c 0; wr ci j (x * (c0 / INR N))) ci;
  do ci <- for_nat 1 ((N + 1) / 2) (fun j ci =>
    do x <- rd ci (2 * j - 1); do y <- rd c (2 * j); do ci <- wr ci (2 * j - 1) (x + - y / (PI2_con * INR j));
    do x <- rd ci (2 * j); do y <- rd c (2 * j - 1); wr ci (2 * j) (x + y / (PI2_con * INR j))) ci;
  if (N mod 2 =? 0)%nat then do x <- rd ci (N - 1); wr ci (N - 1) (x + 0) else Ok ci.

(** explicit_Four_trafos.c:220-228 four_basisfunc_alt (aux, N unused) *)
Definition four_basisfunc_alt (a b : R) (n : nat) (X : R) : R :=
  let K := 2.0 * PI / (b - a) in
  let j := INR (n / 2 + n mod 2) in
  if negb (n mod 2 =? 0)%nat then cos (j * K * X) else if (n =? 0)%nat then 1 else sin (j * K * X).

(** explicit_Four_trafos.c:232-241 four_basisfunc (aux unused) *)
Definition four_basisfunc (a b : R) (k N : nat) (X : R) : R :=
  let K := 2.0 * PI / (b - a) in
  let j := INR (k / 2 + k mod 2) in
  if (k =? 0)%nat then 1.0 / INR N
  else if ((k + 1 =? N) && (N mod 2 =? 0))%nat then cos (j * K * X) * 1.0 / INR N
  else if negb (k mod 2 =? 0)%nat then cos (j * K * X) * 2.0 / INR N
  else sin (j * K * X) * 2.0 / INR N.
