(** Specification of linear operators on lists of unknowns, and of a matrix that represents one. *)
From Verif Require Export Rsum Sparse_spec.
Local Open Scope R_scope.

(** unit vector *)
Definition unitv (c : nat) : nat -> R := fun k => if Nat.eqb k c then 1 else 0.
(** [op] maps vectors of N numbers to vectors of M numbers and is linear *)
Definition linear_op (N M : nat) (op : (nat -> R) -> nat -> R) : Prop :=
  (forall u v k, (k < M)%nat -> (forall c, (c < N)%nat -> u c = v c) -> op u k = op v k) /\
  (forall u v a k, (k < M)%nat -> op (fun c => u c + a * v c) k = op u k + a * op v k).

(** A matrix (element in line k and column c: [A k c]) represents op up to dropped elements: the error of the
    product with any vector is at most drop times the sum of the |u_c|, and there is no error if no non-zero
    element of the operator is as small as drop. *)
Definition represents (drop : R) (N M : nat) (op : (nat -> R) -> nat -> R) (A : nat -> nat -> R) : Prop :=
  forall u k, (k < M)%nat ->
    Rabs (Sig N (fun c => A k c * u c) - op u k) <= Rmax 0 drop * Sig N (fun c => Rabs (u c)) /\
    ((forall c, (c < N)%nat -> op (unitv c) k = 0 \/ drop < Rabs (op (unitv c) k)) -> Sig N (fun c => A k c * u c) = op u k).
