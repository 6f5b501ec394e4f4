(** The Kerr-Schild form of the metric of a spinning black hole, as in textbooks.  a is the spin per mass. *)
From Verif Require Import Rutil Coord_model Coord_spec.
Local Open Scope R_scope.
(** x is not on the disc of radius |a| that is perpendicular to a *)
Definition outside_disc (a b c x y z : R) : Prop := a * x + b * y + c * z <> 0 \/ a * a + b * b + c * c < x * x + y * y + z * z.
(** the Kerr radius: the positive root of  r^4 - (x^2 - a^2) r^2 - (a.x)^2 = 0 *)
Definition kerr_radius (a b c x y z r : R) : Prop := 0 < r /\ r ^ 4 - (x * x + y * y + z * z - (a * a + b * b + c * c)) * r ^ 2 - (a * x + b * y + c * z) ^ 2 = 0.
Definition kerr_H (M a b c x y z r : R) : R := M * r ^ 3 / (r ^ 4 + (a * x + b * y + c * z) ^ 2).
(** l = (r^2 x - r (a cross x) + (a.x) a) / (r (r^2 + a^2)) *)
Definition kerr_l (a b c x y z r : R) (i : d3) : R :=
  let w := a * x + b * y + c * z in
  match i with D1 => r ^ 2 * x - r * (b * z - c * y) + w * a | D2 => r ^ 2 * y - r * (c * x - a * z) + w * b | D3 => r ^ 2 * z - r * (a * y - b * x) + w * c end
  / (r * (r ^ 2 + (a * a + b * b + c * c))).
(** a spatial metric g, a lapse alpha and a shift beta (with upper index) are those of the space-time metric  eta + 2 H (1, l) (1, l) *)
Definition kerr_schild (H : R) (l : d3 -> R) (g : d3 -> d3 -> R) (alpha : R) (beta : d3 -> R) : Prop :=
  (forall i j, g i j = delta i j + 2 * H * l i * l j) /\ (forall i, S3 (fun j => g i j * beta j) = 2 * H * l i) /\ - (alpha * alpha) + S3 (fun i => S3 (fun j => g i j * beta i * beta j)) = - 1 + 2 * H /\ 0 < alpha.
(** the extrinsic curvature of a slice of a metric that does not depend on time:  K_ij = (beta^k d_k g_ij + g_kj d_i beta^k + g_ik d_j beta^k) / (2 alpha) *)
Definition stationary_K (g : d3 -> d3 -> R) (alpha : R) (beta : d3 -> R) (dg : d3 -> d3 -> d3 -> R) (db : d3 -> d3 -> R) (i j : d3) : R :=
  S3 (fun k => beta k * dg k i j + g k j * db i k + g i k * db j k) / (2 * alpha).
