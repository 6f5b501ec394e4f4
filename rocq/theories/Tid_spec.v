(** Travelling waves, as in the comments of the code, and what a slice of a spacetime is. *)
From Verif Require Import Rutil Coord_model Coord_spec.
Local Open Scope R_scope.
(** A sin(2 pi (x-t)/L) *)
Definition wave (A L t x : R) : R := A * sin (2 * PI * (x - t) / L).
(** For a metric without shift: K = - (d g / dt) / (2 alpha), for a diagonal component g and the lapse alpha as functions of time *)
Definition slice_K (g alpha : R -> R) (t K : R) : Prop := exists d, derivable_pt_lim g t d /\ K = - d / (2 * alpha t).
(** the metric - f dt^2 + f dx^2 is the metric - dT^2 + dX^2 of flat spacetime in the coordinates (t,x) *)
Definition flat_2d (f : R -> R -> R) : Prop :=
  exists T X Tt Tx Xt Xx : R -> R -> R,
    (forall t x, derivable_pt_lim (fun t => T t x) t (Tt t x) /\ derivable_pt_lim (fun x => T t x) x (Tx t x) /\ derivable_pt_lim (fun t => X t x) t (Xt t x) /\ derivable_pt_lim (fun x => X t x) x (Xx t x)) /\
    (forall t x, - Tt t x ^ 2 + Xt t x ^ 2 = - f t x /\ - Tt t x * Tx t x + Xt t x * Xx t x = 0 /\ - Tx t x ^ 2 + Xx t x ^ 2 = f t x).
(** a positive definite symmetric matrix *)
Definition positive (h : d3 -> d3 -> R) : Prop := forall v, (exists i, v i <> 0) -> 0 < S3 (fun i => S3 (fun j => h i j * v i * v j)).
