(** Model of src/utility/NumericUtils/fd_jacobian.c: the matrix of derivatives from finite differences.
    Simplified: arithmetic is that of the real numbers, arrays are functions of their index, vecfunc is a function of n and the array x that does not change x. *)
From Verif Require Import Rutil.
From Coq Require Import List.
Import ListNotations.
Local Open Scope R_scope.
(** x[j]=v *)
Definition fj_set (x : nat -> R) (j : nat) (v : R) : nat -> R := fun i => if Nat.eqb i j then v else x i.
(** fd_jacobian.c:19-20, 42-43: the step *)
Definition fj_h (t : R) : R := let h := 1 / 10000000 * Rabs t in if Rlt_dec h (1 / 10000000000) then 1 / 10000000000 else h.
(** df[i][j]=(f[i]-fvec[i])/h for i=1,...,n (fd_jacobian.c:25, 49-53) *)
Definition fj_col (n j : nat) (f fvec : nat -> R) (h : R) (df : nat -> nat -> R) : nat -> nat -> R :=
  fun i j' => if (Nat.eqb j' j && (Nat.leb 1 i && Nat.leb i n))%bool then (f i - fvec i) / h else df i j'.
(** fd_jacobian.c:17-26: one j *)
Definition fj_step (n : nat) (F : nat -> (nat -> R) -> nat -> R) (fvec : nat -> R) (s : (nat -> R) * (nat -> nat -> R)) (j : nat) : (nat -> R) * (nat -> nat -> R) :=
  let x := fst s in let temp := x j in
  let h := fj_h temp in
  let x := fj_set x j (temp + h) in
  let h := x j - temp in
  let f := F n x in
  let x := fj_set x j temp in
  (x, fj_col n j f fvec h (snd s)).
(** fd_jacobian.c:10-28: what is in x and df afterwards *)
Definition fd_jacobian (n : nat) (x fvec : nat -> R) (df : nat -> nat -> R) (F : nat -> (nat -> R) -> nat -> R) : (nat -> R) * (nat -> nat -> R) :=
  fold_left (fj_step n F fvec) (seq 1 n) (x, df).
(** df_nonzero (fd_jacobian.c:49-53) *)
Definition fj_nonzero (n j : nat) (df : nat -> nat -> R) : bool := existsb (fun i => if Req_EM_T (df i j) 0 then false else true) (seq 1 n).
(** fd_jacobian.c:44-55: the loop over k; k is what is left of the 8 *)
Fixpoint fj_tries (n : nat) (F : nat -> (nat -> R) -> nat -> R) (fvec : nat -> R) (j : nat) (temp : R) (k : nat) (h : R) (x : nat -> R) (df : nat -> nat -> R) : (nat -> R) * (nat -> nat -> R) :=
  match k with
  | O => (x, df)
  | S k =>
      let x := fj_set x j (temp + h) in
      let h := x j - temp in
      let f := F n x in
      let x := fj_set x j temp in
      let df := fj_col n j f fvec h df in
      if fj_nonzero n j df then (x, df) else fj_tries n F fvec j temp k (h * 10) x df
  end.
(** fd_jacobian.c:31-58 *)
Definition fd_jacobianP (n : nat) (x fvec : nat -> R) (df : nat -> nat -> R) (F : nat -> (nat -> R) -> nat -> R) : (nat -> R) * (nat -> nat -> R) :=
  fold_left (fun s j => fj_tries n F fvec j (fst s j) 8 (fj_h (fst s j)) (fst s) (snd s)) (seq 1 n) (x, df).
