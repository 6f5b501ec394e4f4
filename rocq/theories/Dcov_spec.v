(** What the double covering functions should do. *)
From Verif Require Import Rutil Base Dcov_model.
Local Open Scope R_scope.
(** The grid point that lies at the same place as (i,j,k): theta -> 2 PI - theta, phi -> phi + PI. *)
Definition partner (b : dims) (j k : nat) : nat * nat := (d2 b - 1 - j, (k + d3n b / 2) mod d3n b)%nat.
Definition inbox (b : dims) (i j k : nat) : Prop := (i < d1 b /\ j < d2 b /\ k < d3n b)%nat.
(** the value of array u at point (i,j,k), stored with i running fastest *)
Definition at_ijk (b : dims) (u : list R) (i j k : nat) : R := nth (i + d1 b * j + d1 b * d2 b * k) u 0.
Definition at_partner (b : dims) (u : list R) (i j k : nat) : R := at_ijk b u i (fst (partner b j k)) (snd (partner b j k)).
Definition mean (a b : R) : R := (a + b) / 2.
(** u' is u with each pair of coinciding points averaged *)
Definition averaged (b : dims) (u u' : list R) : Prop := List.length u' = List.length u /\
  (forall i j k, inbox b i j k -> at_ijk b u' i j k = mean (at_ijk b u i j k) (at_partner b u i j k)).
(** u' is u with the second half of theta overwritten by the first *)
Definition copied (b : dims) (u u' : list R) : Prop := List.length u' = List.length u /\
  (forall i j k, inbox b i j k -> (j < d2 b / 2)%nat -> at_ijk b u' i j k = at_ijk b u i j k) /\
  (forall i j k, inbox b i j k -> (d2 b / 2 <= j)%nat -> at_ijk b u' i j k = at_partner b u i j k).
Definition even_dims (b : dims) : Prop := Nat.Even (d2 b) /\ Nat.Even (d3n b).
