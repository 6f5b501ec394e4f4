(** Specification vocabulary: linear maps on lines of n values, written by their matrix of coefficients. *)
From Verif Require Import Rutil Rsum Mat_model.
Local Open Scope R_scope.
(** the line with entries sum_j K(i,j) u_j *)
Definition apply (n : nat) (K : nat -> nat -> R) (u : list R) : list R := map (fun i => Sig n (fun j => K i j * nth j u 0)) (seq 0 n).
(** a function with signature f(in, out, n-1) overwrites its output by the linear image of its input *)
Definition computes (n : nat) (f : list R -> list R -> nat -> res (list R)) (K : nat -> nat -> R) : Prop :=
  forall i o, List.length i = n -> List.length o = n -> f i o (n - 1)%nat = Ok (apply n K i).
Definition linear_fn (n : nat) f : Prop := exists K, computes n f K.
(** arguments swapped: get_coeffs(out, in, n-1) *)
Definition swap (f : coefF) : coefF := fun i o => f o i.
Definition compose (n : nat) (A B : nat -> nat -> R) : nat -> nat -> R := fun i k => Sig n (fun j => A i j * B j k).
