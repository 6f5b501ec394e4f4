(** Which points of space the boxes of a grid contain. *)
From Verif Require Import Rutil Base Coord_model Coord_spec Cub_model Cub_spec Setup_model.
Local Open Scope R_scope.
(** box number i contains the point p, possibly on its boundary *)
Definition holds (g : list gbox) (i : nat) (p : R * R * R) : Prop :=
  exists b X Y Z, nth_error g i = Some b /\ box_point b X Y Z = Ok p /\ within X (gmin b D1) (gmax b D1) /\ within Y (gmin b D2) (gmax b D2) /\ within Z (gmin b D3) (gmax b D3).
(** p lies in the open box *)
Definition holds_inside (g : list gbox) (i : nat) (p : R * R * R) : Prop :=
  exists b X Y Z, nth_error g i = Some b /\ box_point b X Y Z = Ok p /\ gmin b D1 < X < gmax b D1 /\ gmin b D2 < Y < gmax b D2 /\ gmin b D3 < Z < gmax b D3.
(** The boxes i ... i+n-1 together contain exactly the points of the region S; no point inside one of them belongs to another. *)
Definition tiles (g : list gbox) (i n : nat) (S : R * R * R -> Prop) : Prop :=
  (forall p, S p <-> exists k, (k < n)%nat /\ holds g (i + k) p) /\
  (forall p k l, (k < n)%nat -> (l < n)%nat -> k <> l -> holds_inside g (i + k) p -> ~ holds g (i + l) p).
(** the position of p relative to a centre *)
Definition from (c : d3 -> R) (p : R * R * R) (k : d3) : R := vec p k - c k.
(** the cuboid with faces at the distances D 0, ..., D 5 from the centre: -D 0 <= x <= D 1, -D 2 <= y <= D 3, -D 4 <= z <= D 5 *)
Definition cuboid (D : nat -> R) (v : d3 -> R) : Prop := forall d, (d < 6)%nat -> sgn d * v (axis d) <= D d.
(** not in its interior *)
Definition beyond (D : nat -> R) (v : d3 -> R) : Prop := exists d, (d < 6)%nat /\ D d <= sgn d * v (axis d).
(** a box on which no surface has been set *)
Definition fresh (b : gbox) : Prop := forall si, (iSurf (gci b) si <= 0)%Z.
