(** Specification vocabulary for the solvers: vectors are lists of real numbers of one length. *)
From Verif Require Export Rsum.
Local Open Scope R_scope.

(** component i *)
Notation "v .[ i ]" := (nth i v 0) (at level 2, left associativity, format "v .[ i ]").
(** root mean square of the components, and Euclidean norm *)
Definition rms (n : nat) (v : nat -> R) : R := sqrt (Sig n (fun i => v i * v i) / INR n).
Definition norm (n : nat) (v : nat -> R) : R := sqrt (Sig n (fun i => v i * v i)).
(** A is a linear map of vectors of length n *)
Definition linear_map (n : nat) (A : list R -> list R) : Prop :=
  (forall x, List.length x = n -> List.length (A x) = n) /\
  (forall x y z c, List.length x = n -> List.length y = n -> List.length z = n -> (forall i, (i < n)%nat -> z.[i] = x.[i] + c * y.[i]) ->
     forall i, (i < n)%nat -> (A z).[i] = (A x).[i] + c * (A y).[i]).
