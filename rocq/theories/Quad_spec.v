(** Notions for numerical integration. *)
From Verif Require Import Rutil Base Rsum Integ_spec.
Local Open Scope R_scope.
(** the trapezoidal rule with N intervals of equal length *)
Definition Trap (f : R -> R) (a b : R) (N : nat) : R := (b - a) / INR N * (f a / 2 + Sig (N - 1) (fun i => f (a + INR (i + 1) * ((b - a) / INR N))) + f b / 2).
(** g is a polynomial of degree less than n *)
Definition is_poly (n : nat) (g : R -> R) : Prop := exists c, forall x, g x = Sig n (fun i => c i * x ^ i).
(** the values of g on a uniform grid that starts at x0 *)
Definition on_grid (g : R -> R) (x0 dx : R) (f : list R) : Prop := forall i, (i < List.length f)%nat -> nth i f 0 = g (x0 + INR i * dx).
