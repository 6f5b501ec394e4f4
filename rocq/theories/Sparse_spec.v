(** Specification of sparse matrices: what a list of (position, value) pairs stands for. *)
From Verif Require Export Rsum.
From Coq Require Import Sorted.
Local Open Scope R_scope.

(** the number a sparse vector has at position j: repeated entries add up *)
Definition entry (s : list (nat * R)) (j : nat) : R := lsum (fun e => if Nat.eqb (fst e) j then snd e else 0) s.
(** matrix element of a matrix given by its lines *)
Definition elem (lines : list (list (nat * R))) (i j : nat) : R := entry (nth i lines []) j.

(** column j of a matrix in compressed column format: the pairs (Ai[k], Ax[k]) for Ap[j] <= k < Ap[j+1] *)
Definition ccs_column {F} (Ap Ai : list nat) (Ax : list F) (j : nat) : list (nat * F) :=
  let lo := nth j Ap 0%nat in let hi := nth (j + 1) Ap 0%nat in
  firstn (hi - lo) (skipn lo (combine Ai Ax)).
Definition increasing : list nat -> Prop := StronglySorted lt.
