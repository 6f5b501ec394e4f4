(** What a Runge-Kutta method is and when it has order p (Butcher's order conditions over rooted trees), independent of the code. *)
From Coq Require Import List Arith Reals QArith.
Import ListNotations.

(** Rooted trees; the children form a list. *)
Inductive tree := Node (l : list tree).
(** number of nodes *)
Fixpoint nodes (t : tree) : nat := match t with Node l => S (list_sum (map nodes l)) end.
(** density *)
Fixpoint gamma (t : tree) : Q := match t with Node l => ((Z.of_nat (nodes t) # 1) * fold_right Qmult 1 (map gamma l))%Q end.
Section W.
(** a table with s stages *)
Variable s : nat.
Variable a : nat -> nat -> Q.
Variable b : nat -> Q.
Definition qsum (f : nat -> Q) : Q := fold_right Qplus' 0%Q (map f (seq 0 s)).
(** elementary weights (Qplus' and Qmult' are the sum and product, with the fraction reduced) *)
Fixpoint weight_at (t : tree) (i : nat) : Q :=
  match t with Node l => fold_right Qmult' 1%Q (map (fun t' => qsum (fun j => Qmult' (a i j) (weight_at t' j))) l) end.
Definition weight (t : tree) : Q := qsum (fun i => Qmult' (b i) (weight_at t i)).
(** the method has order p: for every tree with at most p nodes the elementary weight is 1/density *)
Definition has_order (p : nat) : Prop := forall t, (nodes t <= p)%nat -> (weight t * gamma t == 1)%Q.
End W.

(** The explicit method itself, for u' = f(t,u) in the space of functions on I. *)
Local Open Scope R_scope.
Definition rsum (f : nat -> R) (n : nat) : R := fold_right Rplus 0 (map f (seq 0 n)).
Definition explicit_rk {I : Type} (f : R -> (I -> R) -> (I -> R)) (s : nat) (a : nat -> nat -> R) (b : nat -> R)
    (h t : R) (u u' : I -> R) : Prop :=
  exists k : nat -> I -> R,
    (forall i, (i < s)%nat -> forall x, k i x = f (t + h * rsum (a i) i) (fun y => u y + h * rsum (fun j => a i j * k j y) i) x) /\
    (forall x, u' x = u x + h * rsum (fun j => b j * k j x) s).
