(** Solutions of wave equations, as functions of (t,x,y,z). *)
From Verif Require Import Rutil Coord_model Coord_spec.
Local Open Scope R_scope.
Definition fn4 := R -> fn3.
(** derivative in time *)
Definition pt (f : fn4) (t x y z l : R) : Prop := derivable_pt_lim (fun s => f s x y z) t l.
Definition radius (x y z : R) : R := sqrt (x * x + y * y + z * z).
(** l is the sum of the second derivatives of f at (x,y,z), where f has first derivatives near the point *)
Definition laplacian (f : fn3) (x y z l1 l2 l3 : R) : Prop :=
  exists e (d : d3 -> fn3), 0 < e /\ (forall k a b c, Rabs (a - x) < e -> Rabs (b - y) < e -> Rabs (c - z) < e -> pd f k a b c (d k a b c)) /\ pd (d D1) D1 x y z l1 /\ pd (d D2) D2 x y z l2 /\ pd (d D3) D3 x y z l3.
(** an ingoing spherical wave with a Gaussian profile *)
Definition sph_wave (A sigma r0 : R) : fn4 := fun t x y z => A * exp (- (radius x y z + t - r0) ^ 2 / (2 * sigma ^ 2)) / radius x y z.
(** a Gaussian that moves to the right *)
Definition tw_sol : fn4 := fun t x y z => exp (-10 * ((x - 2 / 10 - t) ^ 2 + y ^ 2 + z ^ 2)).
(** a Gaussian round 1.2 on the x-axis that moves inwards along the rays: |X - 1.2 e_x|^2 for the point X at distance r+t in the direction of (x,y,z) *)
Definition ct_sol : fn4 := fun t x y z => exp (-10 * ((radius x y z + t) ^ 2 - 24 / 10 * (radius x y z + t) * (x / radius x y z) + (12 / 10) ^ 2)).
