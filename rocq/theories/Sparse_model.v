(** Model of the sparse vectors and of the products of a sparse matrix with a vector
    (src/utility/LinAlg/SparseVector_utils.c) and of the conversion to the compressed columns of
    UMFPACK (src/utility/LinAlg/umfpack_di_interface.c).

    A sparse vector is the list of its (position, value) pairs in storage order; memory never runs out
    and positions are non-negative.  The arithmetic is arbitrary (F, zero, add, mul). *)
From Verif Require Import Base Loops.

Section Sparse.
Context {F : Type} (zero : F) (add mul : F -> F -> F).

(** tSparseVector (src/utility/LinAlg/sgrid_LinAlg.h): entries, pos[], val[] *)
Definition svec := list (nat * F).
(** SparseVector_utils.c:14-25 *)
Definition AllocateSparseVector : svec := [].
(** SparseVector_utils.c:28-43 (realloc succeeds) *)
Definition AddToSparseVector (s : svec) (newpos : nat) (newval : F) : svec := s ++ [(newpos, newval)].
(** SparseVector_utils.c:167-174 *)
Fixpoint GetSparseVectorComponent (s : svec) (comp : nat) : F :=
  match s with
  | [] => zero
  | (p, v) :: r => if Nat.eqb p comp then v else GetSparseVectorComponent r comp
  end.

(** array read and write with bounds check *)
Definition rd {A} (l : list A) (i : nat) : res A := match nth_error l i with Some v => Ok v | None => UB end.
Definition wr {A} (l : list A) (i : nat) (v : A) : res (list A) :=
  match nth_error l i with Some _ => Ok (upd l i v) | None => UB end.

(** *** Sequential execution (built without LEVEL4_Pragmas) *)

(** SparseVector_utils.c:195-201: one line of the product *)
Definition line_times_vector (line : svec) (x : list F) (i : nat) (f : list F) : res (list F) :=
  do f1 <- wr f i zero;
  forl line (fun e f => do xj <- rd x (fst e); do fi <- rd f i; wr f i (add fi (mul (snd e) xj))) f1.
(** SparseVector_utils.c:182-203.  Aline holds nlines vectors. *)
Definition SparseMatrixLines_times_vector (Aline : list svec) (x f : list F) : res (list F) :=
  for_nat 0 (List.length Aline) (fun i f => do line <- rd Aline i; line_times_vector line x i f) f.

(** SparseVector_utils.c:215, 244: for(k=0; k<nlines; k++) f[k] = 0.0; *)
Definition zero_out (nlines : nat) (f : list F) : res (list F) := for_nat 0 nlines (fun k f => wr f k zero) f.
(** SparseVector_utils.c:210-232 *)
Definition vector_times_SparseMatrixLines (x : list F) (Aline : list svec) (f : list F) : res (list F) :=
  do f1 <- zero_out (List.length Aline) f;
  for_nat 0 (List.length Aline) (fun k f => do line <- rd Aline k;
    forl line (fun e f => do xk <- rd x k; do fj <- rd f (fst e); wr f (fst e) (add fj (mul xk (snd e)))) f) f1.
(** SparseVector_utils.c:239-261 *)
Definition SparseMatrixLinesTranspose_times_vector (Aline : list svec) (x f : list F) : res (list F) :=
  do f1 <- zero_out (List.length Aline) f;
  for_nat 0 (List.length Aline) (fun i f => do line <- rd Aline i;
    forl line (fun e f => do xi <- rd x i; do fj <- rd f (fst e); wr f (fst e) (add fj (mul (snd e) xi))) f) f1.

(** *** Parallel execution (built with LEVEL4_Pragmas)
    The "omp parallel for" of SparseVector_utils.c:187, 217, 246 distributes the lines over threads.  Here
    every line is its own thread, which allows at least the interleavings of any distribution.  The
    statement f[j] += c is a load into a register of the thread followed by a store; stores take effect
    at once and in order (sequential consistency).  The terms c only read A and x, which nobody writes,
    so they are computed beforehand. *)
Inductive op : Type :=
| OZero (j : nat)          (* f[j] = 0.0 *)
| OLoad (j : nat)          (* register = f[j] *)
| OStore (j : nat) (c : F) (* f[j] = register + c *).
(** a thread: what it still has to do, and its register *)
Definition thread : Type := list op * F.

Definition exec (o : op) (reg : F) (f : list F) : res (F * list F) :=
  match o with
  | OZero j => do f1 <- wr f j zero; Ok (reg, f1)
  | OLoad j => do v <- rd f j; Ok (v, f)
  | OStore j c => do f1 <- wr f j (add reg c); Ok (reg, f1)
  end.
(** thread t makes one step; a thread that is finished or does not exist idles *)
Definition step (t : nat) (c : list thread * list F) : res (list thread * list F) :=
  let '(ts, f) := c in
  match nth_error ts t with
  | Some (o :: r, reg) => do p <- exec o reg f; Ok (upd ts t (r, fst p), snd p)
  | _ => Ok c
  end.
Definition run (schedule : list nat) (c : list thread * list F) : res (list thread * list F) := forl schedule step c.
Definition finished (c : list thread * list F) : Prop := Forall (fun th => fst th = []) (fst c).

(** the operations of f[j] += c for a list of (j, c) *)
Definition adds (l : list (nat * F)) : list op := flat_map (fun p => [OLoad (fst p); OStore (fst p) (snd p)]) l.
Definition x_at (x : list F) (j : nat) : F := nth j x zero.
(** the body of the loop of SparseVector_utils.c:188-202; the caller guarantees that all positions are
    inside x *)
Definition lines_threads (Aline : list svec) (x : list F) : list thread :=
  map (fun i => (OZero i :: adds (map (fun e => (i, mul (snd e) (x_at x (fst e)))) (nth i Aline [])), zero))
    (seq 0 (List.length Aline)).
(** SparseVector_utils.c:218-231 and 247-260 (after the sequential zeroing) *)
Definition vec_lines_threads (x : list F) (Aline : list svec) : list thread :=
  map (fun k => (adds (map (fun e => (fst e, mul (x_at x k) (snd e))) (nth k Aline [])), zero))
    (seq 0 (List.length Aline)).
Definition transpose_threads (Aline : list svec) (x : list F) : list thread :=
  map (fun i => (adds (map (fun e => (fst e, mul (snd e) (x_at x i))) (nth i Aline [])), zero))
    (seq 0 (List.length Aline)).
End Sparse.

(** *** Compressed columns *)
Section Umfpack.
Context {F : Type} (zero : F).
(** fabs(a) <= dropbelow *)
Variable small : F -> bool.

(** the arrays Ap, Ai, Ax and the counter n *)
Record ccs : Type := mkccs { Ap : list nat; Ai : list nat; Ax : list F; cn : nat }.
(** umfpack_di_interface.c:41-48: calloc'd arrays of n+1 and nz elements *)
Definition allocate_umfpack_di_matrix (n nz : nat) : ccs := mkccs (repeat 0 (n + 1)) (repeat 0 nz) (repeat zero nz) 0.

(** umfpack_di_interface.c:83-87, 134-138: Ap[j+1]++; Ai[n]=i; Ax[n]=Aij; n++ *)
Definition push_entry (j i : nat) (Aij : F) (m : ccs) : res ccs :=
  if small Aij then Ok m else
  do c <- rd (Ap m) (j + 1); do p <- wr (Ap m) (j + 1) (c + 1);
  do a <- wr (Ai m) (cn m) i; do v <- wr (Ax m) (cn m) Aij; Ok (mkccs p a v (cn m + 1)).
(** umfpack_di_interface.c:76, 125: Ap[0] = n = 0; *)
Definition start (m : ccs) : res ccs := do p <- wr (Ap m) 0 0; Ok (mkccs p (Ai m) (Ax m) 0).
(** umfpack_di_interface.c:79, 129: Ap[j+1] = Ap[j]; *)
Definition open_column (j : nat) (m : ccs) : res ccs :=
  do c <- rd (Ap m) j; do p <- wr (Ap m) (j + 1) c; Ok (mkccs p (Ai m) (Ax m) (cn m)).

(** umfpack_di_interface.c:58-103 (the return value Ap[nlines] is part of the result) *)
Definition set_umfpack_di_matrix_from_lines (m : ccs) (Aline : list (list (nat * F))) : res ccs :=
  do m0 <- start m;
  for_nat 0 (List.length Aline) (fun j m =>
    do m1 <- open_column j m;
    for_nat 0 (List.length Aline) (fun i m =>
      do line <- rd Aline i; push_entry j i (GetSparseVectorComponent zero line j) m) m1) m0.
(** umfpack_di_interface.c:106-155 *)
Definition set_umfpack_di_matrix_from_columns (m : ccs) (Acol : list (list (nat * F))) : res ccs :=
  do m0 <- start m;
  for_nat 0 (List.length Acol) (fun j m =>
    do m1 <- open_column j m;
    do col <- rd Acol j;
    forl col (fun e m => push_entry j (fst e) (snd e) m) m1) m0.

(** umfpack_di_interface.c:193-196, 314-317: nz of the solvers that get lines *)
Variable is_zero : F -> bool.
Definition nz_lines (Aline : list (list (nat * F))) : nat :=
  list_sum (map (fun i => list_sum (map (fun j => if is_zero (GetSparseVectorComponent zero (nth i Aline []) j) then 0 else 1)
    (seq 0 (List.length Aline)))) (seq 0 (List.length Aline))).
(** umfpack_di_interface.c:438, 556: nz of the solvers that get columns *)
Definition nz_columns (Acol : list (list (nat * F))) : nat := list_sum (map (@List.length _) Acol).
End Umfpack.

(** *** Matrix Market files
    SparseVector_utils.c:112-164.  The file is the sequence of its numbers (the header comments and the
    formatting of the values with %.15g are not modelled): nrows, ncols, nz, and the lines row, col, value. *)
Section MatrixMarket.
Context {F : Type}.
(** lines 124-132 *)
Definition mm_count (A : list (list (nat * F))) : nat * nat :=
  fold_left (fun acc v => fold_left (fun acc e => (fst acc, if Nat.ltb (snd acc) (fst e) then fst e else snd acc))
                            v (fst acc + List.length v, snd acc)) A (0, 0).
Definition mm_file (A : list (list (nat * F))) (isAcol : bool) : (nat * nat * nat) * list (nat * nat * F) :=
  let '(nz, maxpos) := mm_count A in
  let n := List.length A in
  ((if isAcol then (maxpos + 1, n, nz) else (n, maxpos + 1, nz)),
   flat_map (fun j => map (fun e => if isAcol then (fst e + 1, j + 1, snd e) else (j + 1, fst e + 1, snd e)) (nth j A []))
     (seq 0 n)).
End MatrixMarket.
