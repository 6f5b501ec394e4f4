(** Specification of point lists (C14, C52): for each box a sequence of points. *)
From Coq Require Import List ZArith.
From Verif Require Import Lists_spec.
Import ListNotations.
(** what the list of a box holds: add appends, drop removes the first occurrence *)
Inductive pev := Added (b : nat) (p : Z) | Dropped (b : nat) (p : Z).
Fixpoint points_of (b : nat) (acc : list Z) (h : list pev) : list Z :=
  match h with
  | [] => acc
  | Added b' p :: r => points_of b (if Nat.eqb b b' then acc ++ [p] else acc) r
  | Dropped b' p :: r => points_of b (if Nat.eqb b b' then rem1 Z Z.eq_dec p acc else acc) r
  end.
