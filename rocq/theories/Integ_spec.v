(** Specification vocabulary: definite integrals of the functions represented on lines. *)
From Verif Require Import Rutil Rsum Dir_model Dir_spec Lines_model Lines_spec.
Local Open Scope R_scope.
(** x is the integral of f from a to b, by an antiderivative *)
Definition integral (f : R -> R) (a b x : R) : Prop := exists G, (forall X, derivable_pt_lim G X (f X)) /\ x = G b - G a.
(** x is the integral over [a,b] of the function with basis bs through the values l at the n points of the direction *)
Definition line_integral (bs : basis) (D : bdir) (l : list R) (x : R) : Prop :=
  exists c, List.length c = b_n D /\ (forall m, (m < b_n D)%nat -> expansion bs (b_lo D) (b_hi D) (b_n D) c (coord bs (b_lo D) (b_hi D) (b_n D) m) = nth m l 0) /\
    integral (expansion bs (b_lo D) (b_hi D) (b_n D) c) (b_lo D) (b_hi D) x.
