(** Specification vocabulary for finite differences (C40). *)
From Verif Require Import Rutil Rsum.
Local Open Scope R_scope.
(** uniform grid of n+1 points including both ends, and periodic grid of N points *)
Definition ugrid (a b : R) (n j : nat) : R := INR j * (b - a) / INR n + a.
Definition pgrid (a b : R) (N j : nat) : R := INR j * (b - a) / INR N + a.
Definition quadratic (p : R -> R) : Prop := exists c0 c1 c2, forall x, p x = c0 + c1 * x + c2 * x ^ 2.
Definition cubic (p : R -> R) : Prop := exists c0 c1 c2 c3, forall x, p x = c0 + c1 * x + c2 * x ^ 2 + c3 * x ^ 3.
Definition linear (p : R -> R) : Prop := exists c0 c1, forall x, p x = c0 + c1 * x.
