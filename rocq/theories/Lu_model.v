(** Model of src/utility/numerics/lu.c: LU decomposition with implicit scaling and partial pivoting, and its use.
    double is R.  The matrix double A[][n] is the list of its n*n entries, A[i][j] at position n*i+j.  malloc succeeds. *)
From Verif Require Import Rutil Loops Sparse_model.
Local Open Scope R_scope.

Definition rdm (n : nat) (A : list R) (i j : nat) : res R := rd A (n * i + j).
Definition wrm (n : nat) (A : list R) (i j : nat) (x : R) : res (list R) := wr A (n * i + j) x.
(** lu.c:19 TINY *)
Definition TINY : R := / 10 ^ 300.

(** if((tmp=fabs(x)) > big) big = tmp;  lu.c:38, 52 *)
Definition upmax (big x : R) : R := if Rlt_dec big (Rabs x) then Rabs x else big.
(** lu.c:33-45: first column of zeros, or none *)
Definition zero_col (n : nat) (A : list R) : res (option nat) :=
  for_nat 0 n (fun j r => match r with Some _ => Ok r | None =>
    do big <- for_nat 0 n (fun i big => do x <- rdm n A i j; Ok (upmax big x)) 0;
    Ok (if Req_EM_T big 0 then Some j else None) end) None.
(** lu.c:47-60: first row of zeros, or none; vscal[i] = 1/big until then.  vscal is malloc'd (contents irrelevant) *)
Definition zero_row (n : nat) (A vscal : list R) : res (option nat * list R) :=
  for_nat 0 n (fun i r => match fst r with Some _ => Ok r | None =>
    do big <- for_nat 0 n (fun j big => do x <- rdm n A i j; Ok (upmax big x)) 0;
    if Req_EM_T big 0 then Ok (Some i, snd r) else do vscal <- wr (snd r) i (1 / big); Ok (None, vscal) end) (None, vscal).
(** sum = A[i][j]; for(k=0; k<hi; k++) sum -= A[i][k]*A[k][j];  lu.c:73-74, 81-82 *)
Definition crout_sum (n : nat) (A : list R) (i j hi : nat) : res R :=
  do s <- rdm n A i j; for_nat 0 hi (fun k sum => do x <- rdm n A i k; do y <- rdm n A k j; Ok (sum - x * y)) s.
(** lu.c:71-76 *)
Definition crout_upper (n : nat) (A : list R) (j : nat) : res (list R) :=
  for_nat 0 j (fun i A => do s <- crout_sum n A i j i; wrm n A i j s) A.
(** lu.c:78-89; imax is uninitialised before the loop *)
Definition crout_lower (n : nat) (A vscal : list R) (j : nat) : res (list R * R * option nat) :=
  for_nat j n (fun i r => let '(A, big, imax) := r in
    do s <- crout_sum n A i j j; do A <- wrm n A i j s;
    do v <- rd vscal i; let tmp2 := v * Rabs s in
    Ok (if Rle_dec big tmp2 then (A, tmp2, Some i) else (A, big, imax))) (A, 0, None).
(** lu.c:92-97 *)
Definition swap_rows (n : nat) (A : list R) (imax j : nat) : res (list R) :=
  for_nat 0 n (fun k A => do t <- rdm n A imax k; do x <- rdm n A j k; do A <- wrm n A imax k x; wrm n A j k t) A.
(** lu.c:66-108: one column of Crout's method; state A, vscal, p_idx, parity *)
Definition crout_col (n : nat) (j : nat) (r : list R * list R * list nat * Z) : res (list R * list R * list nat * Z) :=
  let '(A, vscal, p_idx, parity) := r in
  do A <- crout_upper n A j;
  do q <- crout_lower n A vscal j;
  let '(A, _, im) := q in
  match im with None => UB | Some imax =>
    do s <- (if (j =? imax)%nat then Ok (A, vscal, parity) else
      do A <- swap_rows n A imax j; do v <- rd vscal j; do vscal <- wr vscal imax v; Ok (A, vscal, (- parity)%Z));
    let '(A, vscal, parity) := s in
    do p_idx <- wr p_idx j imax;
    do d <- rdm n A j j;
    do A <- (if Req_EM_T d 0 then wrm n A j j TINY else Ok A);
    do d <- rdm n A j j; let tmp2 := 1 / d in
    do A <- for_nat (j + 1) n (fun i A => do x <- rdm n A i j; wrm n A i j (x * tmp2)) A;
    Ok (A, vscal, p_idx, parity)
  end.
(** lu.c:20-111 lu_decomp: return value, A, p_idx, parity *)
Definition lu_decomp (n : nat) (A vscal : list R) (p_idx : list nat) (parity : Z) : res (Z * list R * list nat * Z) :=
  do zc <- zero_col n A;
  match zc with Some j => Ok (Z.of_nat j + 1, A, p_idx, parity)%Z | None =>
    do zr <- zero_row n A vscal;
    match fst zr with Some i => Ok (- (Z.of_nat i + 1), A, p_idx, parity)%Z | None =>
      do r <- for_nat 0 n (crout_col n) (A, snd zr, p_idx, 1%Z);
      let '(A, _, p_idx, parity) := r in Ok (0%Z, A, p_idx, parity)
    end
  end.
(** lu.c:124-134: forward substitution; i_nz is None for -1 *)
Definition lu_forward (n : nat) (A : list R) (p_idx : list nat) (b : list R) : res (list R) :=
  do r <- for_nat 0 n (fun i r => let '(b, i_nz) := r in
    do p_i <- rd p_idx i; do sum <- rd b p_i; do bi <- rd b i; do b <- wr b p_i bi;
    do q <- match i_nz with
            | Some z => do sum <- for_nat z i (fun j sum => do x <- rdm n A i j; do y <- rd b j; Ok (sum - x * y)) sum; Ok (sum, i_nz)
            | None => Ok (sum, if Req_EM_T sum 0 then None else Some i)
            end;
    do b <- wr b i (fst q); Ok (b, snd q)) (b, None);
  Ok (fst r).
(** lu.c:136-142: back substitution, i = n-1 .. 0 *)
Definition lu_back (n : nat) (A b : list R) : res (list R) :=
  for_nat 0 n (fun m b => let i := (n - 1 - m)%nat in
    do s <- rd b i;
    do sum <- for_nat (i + 1) n (fun j sum => do x <- rdm n A i j; do y <- rd b j; Ok (sum - x * y)) s;
    do d <- rdm n A i i; wr b i (sum / d)) b.
(** lu.c:118-143 lu_solve *)
Definition lu_solve (n : nat) (A : list R) (p_idx : list nat) (b : list R) : res (list R) :=
  do b <- lu_forward n A p_idx b; lu_back n A b.
(** lu.c:148-154 lu_det *)
Definition lu_det (n : nat) (A : list R) (parity : Z) : res R :=
  for_nat 0 n (fun i det => do x <- rdm n A i i; Ok (det * x)) (IZR parity).
