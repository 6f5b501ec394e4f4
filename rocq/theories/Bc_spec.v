(** Notions for the conditions between boxes. *)
From Verif Require Import Rutil Base Bound_model Faces_model Bc_model.
Local Open Scope R_scope.
(** faces 0 and 1 of a box are the lower and the upper end of its first coordinate, 2 and 3 of the second, 4 and 5 of the third *)
Definition face_axis (f : nat) : nat := match f with 0%nat | 1%nat => 0%nat | 2%nat | 3%nat => 1%nat | _ => 2%nat end.
Definition face_side (f : nat) : R := match f with 0%nat | 2%nat | 4%nat => -1 | _ => 1 end.
(** component i of a vector *)
Definition comp (v : v3) (i : nat) : R := let '(x, y, z) := v in match i with 0%nat => x | 1%nat => y | _ => z end.
Definition vlen2 (v : v3) : R := vdot v v.
(** rows of K are dual to the rows of J: sum_i J^a_i K^i_b = delta^a_b *)
Definition dual (J K : nat -> v3) : Prop := forall a b, (a < 3)%nat -> (b < 3)%nat -> vdot (J a) (K b) = if (a =? b)%nat then 1 else 0.
Definition lin (a c : R) (u v : field) : field := fun l => a * u l + c * v l.
(** how the three runs of a program on u, v and a u + c v end *)
Definition lin_out (a c : R) (x y z : res field) : Prop :=
  match x, y, z with Ok u, Ok v, Ok w => forall l, w l = a * u l + c * v l | Err, Err, Err => True | UB, UB, UB => True | _, _, _ => False end.
(** interpolation is linear in the values *)
Definition linear3 (I : nat -> (nat -> R) -> R -> R -> R -> R) : Prop := forall o a c f g X Y Z, I o (fun p => a * f p + c * g p) X Y Z = a * I o f X Y Z + c * I o g X Y Z.
Definition linear2 (I : nat -> nat -> nat -> (nat -> R) -> R -> R -> R) : Prop := forall o n p a c f g X Y, I o n p (fun q => a * f q + c * g q) X Y = a * I o n p f X Y + c * I o n p g X Y.
