(** Associated Legendre functions by the formula of Rodrigues, and spherical harmonics with the Condon-Shortley phase. *)
From Coq Require Import Reals ZArith List.
Open Scope R_scope.

(** g is the n-th derivative of f on the whole line *)
Inductive nth_deriv : nat -> (R -> R) -> (R -> R) -> Prop :=
| nd_0 f g : (forall x, g x = f x) -> nth_deriv 0 f g
| nd_S n f g h : nth_deriv n f g -> (forall x, derivable_pt_lim g x (h x)) -> nth_deriv (S n) f h.
(** (x^2-1)^l / (2^l l!) *)
Definition rodrigues (l : nat) (x : R) : R := (x ^ 2 - 1) ^ l / (2 ^ l * INR (fact l)).
(** v = P_l^m(x) = (-1)^m (1-x^2)^(m/2) d^(l+m)/dx^(l+m) (x^2-1)^l/(2^l l!), for m >= 0 *)
Definition is_Plm (l m : nat) (x v : R) : Prop :=
  exists g, nth_deriv (l + m) (rodrigues l) g /\ v = (-1) ^ m * sqrt (1 - x ^ 2) ^ m * g x.
(** (re, im) = Y_l^m(th, ph) = sqrt((2l+1)/(4 PI) (l-m)!/(l+m)!) P_l^m(cos th) exp(i m ph) for m >= 0 *)
Definition is_Ylm_pos (l m : nat) (th ph re im : R) : Prop :=
  exists P, is_Plm l m (cos th) P /\
    let N := sqrt (INR (2 * l + 1) / (4 * PI) * (INR (fact (l - m)) / INR (fact (l + m)))) in
    re = N * P * cos (INR m * ph) /\ im = N * P * sin (INR m * ph).
(** and Y_l^(-m) = (-1)^m times the complex conjugate of Y_l^m *)
Definition is_Ylm (l : nat) (m : Z) (th ph re im : R) : Prop :=
  exists a b, is_Ylm_pos l (Z.abs_nat m) th ph a b /\
    if (m <? 0)%Z then re = (-1) ^ Z.abs_nat m * a /\ im = - ((-1) ^ Z.abs_nat m * b) else re = a /\ im = b.

(** place of (l, m), 0 <= m <= l, when the pairs are listed in the order of increasing l and m *)
Definition entry (l m : nat) : nat := (fold_right Nat.add 0 (seq 1 l) + m)%nat.
(** An array c holds real and imaginary parts of coefficients c_l^m with m >= 0 in that order; those with m < 0 follow from c_l^(-m) = (-1)^m conj(c_l^m), as for a real function. *)
Definition Cre (c : list R) (l : nat) (m : Z) : R := let a := nth (2 * entry l (Z.abs_nat m)) c 0 in if (m <? 0)%Z then (-1) ^ Z.abs_nat m * a else a.
Definition Cim (c : list R) (l : nat) (m : Z) : R := let a := nth (2 * entry l (Z.abs_nat m) + 1) c 0 in if (m <? 0)%Z then - ((-1) ^ Z.abs_nat m * a) else a.
(** v is the real part of the sum of c_l^m Y_l^m over 0 <= l <= L and -l <= m <= l *)
Definition is_series (c : list R) (L : nat) (th ph v : R) : Prop :=
  exists YR YI, (forall l m, (Z.abs_nat m <= l)%nat -> is_Ylm l m th ph (YR l m) (YI l m)) /\ v = sum_f_R0 (fun l => sum_f_R0 (fun j => let m := (Z.of_nat j - Z.of_nat l)%Z in Cre c l m * YR l m - Cim c l m * YI l m) (2 * l)) L.
