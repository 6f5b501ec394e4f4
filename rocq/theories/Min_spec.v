(** Specification for the minimization routines: what a local minimum and a bracket of one are. *)
From Verif Require Import Rutil.
Local Open Scope R_scope.
Definition local_min (f : R -> R) (z : R) : Prop := exists d, 0 < d /\ forall y, Rabs (y - z) < d -> f z <= f y.
Definition between (a b c : R) : Prop := a < b < c \/ c < b < a.
(** the middle point is strictly between the outer ones and has the lowest value *)
Definition bracket (f : R -> R) (a b c : R) : Prop := between a b c /\ f b <= f a /\ f b <= f c.
Definition inside (a c y : R) : Prop := Rmin a c <= y <= Rmax a c.
(** continuous on the whole interval *)
Definition cont_on (f : R -> R) (a c : R) : Prop := forall y, inside a c y -> continuity_pt f y.
(** a point of a straight line *)
Definition on_line (p xi p' : list R) (t : R) : Prop := List.length p' = List.length p /\ forall j, nth j p' 0 = nth j p 0 + t * nth j xi 0.
