(** Geometry of a sphered cube.  The space around a centre is divided into six pyramids; in each, a point is given by a direction (A,B) and by how far it lies along that ray between an inner and an outer surface, each a plane or a curved surface. *)
From Verif Require Import Rutil Base Coord_model Coord_spec.
Local Open Scope R_scope.
(** domains 0,1: x < 0, x > 0; 2,3: y; 4,5: z *)
Definition axis (d : nat) : d3 := match d with 0 | 1 => D1 | 2 | 3 => D2 | _ => D3 end%nat.
Definition sgn (d : nat) : R := if Nat.odd d then 1 else -1.
(** the ray of direction (A,B), scaled so that its component along the axis is +-1 *)
Definition ray (d : nat) (A B : R) (k : d3) : R := sgn d * match axis d, k with D1, D1 => 1 | D1, D2 => A | D1, D3 => B | D2, D1 => A | D2, D2 => 1 | D2, D3 => B | D3, D1 => B | D3, D2 => A | D3, D3 => 1 end.
(** a surface: the plane at distance h from the centre, or the surface at distance sig(A,B) from the centre *)
Inductive surface := Flat (h : R) | Curved (sig : R -> R -> R).
(** the multiple of the ray that lies on the surface *)
Definition height (S : surface) (A B : R) : R := match S with Flat h => h | Curved sig => sig A B / sqrt (1 + A * A + B * B) end.
(** lam = 0 on the inner surface, lam = 1 on the outer, linear on the ray *)
Definition along (S0 S1 : surface) (lam A B : R) : R := (1 - lam) * height S0 A B + lam * height S1 A B.
Definition place (d : nat) (c : d3 -> R) (S0 S1 : surface) (lam A B : R) (k : d3) : R := c k + along S0 S1 lam A B * ray d A B k.
Definition norm3 (v : d3 -> R) : R := sqrt (S3 (fun k => v k * v k)).
(** the point p lies in the pyramid of domain d, in direction (A,B) *)
Definition in_pyramid (d : nat) (v : d3 -> R) (A B : R) : Prop := exists t, 0 < t /\ forall k, v k = t * ray d A B k.
Definition within (A lo hi : R) : Prop := lo <= A <= hi.
(** (x,y,z) as a function of the direction *)
Definition vec (p : R * R * R) (k : d3) : R := match k with D1 => fst (fst p) | D2 => snd (fst p) | D3 => snd p end.
