(** Specification vocabulary for linear systems. *)
From Verif Require Import Rutil Rsum.
Local Open Scope R_scope.
(** entry (i,j) of the n by n matrix stored by rows in A *)
Definition ent (n : nat) (A : list R) (i j : nat) : R := nth (n * i + j) A 0.
(** component i of the product with the vector x *)
Definition times (n : nat) (A x : list R) (i : nat) : R := Sig n (fun j => ent n A i j * nth j x 0).
(** A has an inverse B *)
Definition invertible (n : nat) (A : list R) : Prop := exists B : nat -> nat -> R, forall i j, (i < n)%nat -> (j < n)%nat ->
  Sig n (fun k => ent n A i k * B k j) = (if (i =? j)%nat then 1 else 0) /\ Sig n (fun k => B i k * ent n A k j) = (if (i =? j)%nat then 1 else 0).
(** determinant, by expansion along the first column: det = sum_i (-1)^i A_i0 det(A without row i and column 0) *)
Definition skip (i a : nat) : nat := if (a <? i)%nat then a else S a.
Fixpoint det (n : nat) (K : nat -> nat -> R) : R :=
  match n with O => 1 | S n' => Sig (S n') (fun i => (-1) ^ i * K i O * det n' (fun a c => K (skip i a) (S c))) end.
