(** Notions for the Poisson examples. *)
From Verif Require Import Rutil Base Bound_model Faces_model Bc_model.
Local Open Scope R_scope.
(** the field with Psi and Chi (numbers 0 and 10) moved by eps times the direction stored in their duplicates (numbers 24 and 34) *)
Definition moved (eps : R) (s : field) : field := fun l => let '(i, b, p) := l in if ((i =? 0) || (i =? 10))%nat then s (i, b, p) + eps * s (24 + i, b, p)%nat else s (i, b, p).
(** z is a x + c y in the direction (numbers 24 and above), all else is equal *)
Definition comb (a c : R) (x y z : field) : Prop := forall i b p, if (i <? 24)%nat then x (i, b, p) = z (i, b, p) /\ y (i, b, p) = z (i, b, p) else z (i, b, p) = a * x (i, b, p) + c * y (i, b, p).
(** derivative operators are linear *)
Definition linearD (D : nat -> nat -> (nat -> R) -> nat -> R) : Prop := forall b m a c f g p, D b m (fun q => a * f q + c * g q) p = a * D b m f p + c * D b m g p.
(** every face belongs to a box of the grid, and so does the box beyond it if there is one *)
Definition faces_ok (nb : nat) (nf : nat -> nat) (bfaces : nat -> nat -> face) : Prop := forall b f, (b < nb)%nat -> (f < nf b)%nat ->
  (fb (bfaces b f) < nb)%nat /\ ((0 <= ob (fx (bfaces b f)))%Z -> (Z.to_nat (ob (fx (bfaces b f))) < nb)%nat).
