(** Specification vocabulary for filters of lines. *)
From Verif Require Import Rutil Rsum Dir_model Dir_spec Lines_model Lines_spec.
Local Open Scope R_scope.

(** the wave number m of Fourier function j: 1, cos t, sin t, cos 2t, sin 2t, ... *)
Definition wavenumber (j : nat) : nat := ((j + 1) / 2)%nat.
(** the line l' of values arises from l by keeping, in the expansion through the values, exactly the coefficients that satisfy [keep] *)
Definition line_filtered (bs : basis) (D : bdir) (keep : nat -> Prop) (l l' : list R) : Prop :=
  let n := b_n D in let f := expansion bs (b_lo D) (b_hi D) n in let X := coord bs (b_lo D) (b_hi D) n in
  exists c cf, List.length c = n /\ List.length cf = n /\
    (forall m, (m < n)%nat -> f c (X m) = nth m l 0) /\
    (forall j, (j < n)%nat -> (keep j -> nth j cf 0 = nth j c 0) /\ (~ keep j -> nth j cf 0 = 0)) /\
    (forall m, (m < n)%nat -> f cf (X m) = nth m l' 0).
(** the values of a line started s points later, periodically *)
Definition rotated (n s : nat) (l l' : list R) : Prop := forall m, (m < n)%nat -> nth m l' 0 = nth ((m + s) mod n) l 0.
