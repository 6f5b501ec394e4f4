(** What a pair of touching faces is. *)
From Verif Require Import Rutil Cheb_model Faces_model.
Local Open Scope R_scope.
(** two points of two boxes are in the same place, up to the tolerance of dequal for the square of their distance *)
Definition same_place (G1 G2 : gbox) (p q : nat) : Prop := dist2 (xyz G1 p) (xyz G2 q) <= dequaleps.
(** every point of face f of G1 is in the place of some point of face f2 of G2 *)
Definition covered (G1 G2 : gbox) (f f2 : nat) : Prop := forall p, In p (plane_pts G1 f) -> exists q, In q (plane_pts G2 f2) /\ same_place G1 G2 p q.
Definition unpaired (x : bface) : Prop := ob x = (-1)%Z /\ touch x = false /\ same_fpts x = false.
(** face (b,f) and face (b2,f2) name each other, have point lists of which the k-th points are in the same place, one of the lists is
    all of the face; values are matched on one of them and normal derivatives on the other *)
Definition pair (grid : nat -> gbox) (st : faces) (b f b2 f2 : nat) : Prop :=
  b <> b2 /\ ob (st b f) = Z.of_nat b2 /\ ofi (st b f) = Z.of_nat f2 /\ ob (st b2 f2) = Z.of_nat b /\ ofi (st b2 f2) = Z.of_nat f /\
  touch (st b f) = true /\ same_fpts (st b f) = true /\ touch (st b2 f2) = true /\ same_fpts (st b2 f2) = true /\ setnd (st b2 f2) = negb (setnd (st b f)) /\
  exists l l2, fpts (st b f) = Some l /\ fpts (st b2 f2) = Some l2 /\ Forall2 (same_place (grid b) (grid b2)) l l2 /\
    incl l (plane_pts (grid b) f) /\ incl l2 (plane_pts (grid b2) f2) /\ (l = plane_pts (grid b) f \/ l2 = plane_pts (grid b2) f2).
(** faces (b,f) and (b2,f2) touch and name each other *)
Definition mutual (st : faces) (b f b2 f2 : nat) : Prop :=
  b <> b2 /\ ob (st b f) = Z.of_nat b2 /\ ofi (st b f) = Z.of_nat f2 /\ ob (st b2 f2) = Z.of_nat b /\ ofi (st b2 f2) = Z.of_nat f /\ touch (st b f) = true /\ touch (st b2 f2) = true.
