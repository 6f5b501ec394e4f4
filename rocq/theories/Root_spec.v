(** Specification vocabulary for root finding and minimisation in one dimension. *)
From Verif Require Import Rutil.
Local Open Scope R_scope.
(** x lies between x1 and x2, which may come in either order *)
Definition inside (x1 x2 x : R) : Prop := Rmin x1 x2 <= x <= Rmax x1 x2.
Definition continuous_on (f : R -> R) (x1 x2 : R) : Prop := forall x, inside x1 x2 x -> continuity_pt f x.
(** the values at the two ends have opposite signs, or one is zero *)
Definition sign_change (f : R -> R) (x1 x2 : R) : Prop := f x1 * f x2 <= 0.
(** f has a root in the bracket not further than acc from x *)
Definition root_within (f : R -> R) (x1 x2 acc x : R) : Prop := exists r, inside x1 x2 r /\ f r = 0 /\ Rabs (r - x) <= acc.
(** m is a local minimum of f *)
Definition local_min (f : R -> R) (m : R) : Prop := exists eps, 0 < eps /\ forall y, Rabs (y - m) < eps -> f m <= f y.
