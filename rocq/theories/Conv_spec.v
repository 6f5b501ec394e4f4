(** What is meant by a conformal metric, a trace-free tensor, and the conformal connection functions. *)
From Verif Require Import Rutil Coord_model Coord_spec Adm_spec.
Local Open Scope R_scope.
(** a symmetric tensor from its six stored components *)
Definition sym (f : nat -> R) (i j : d3) : R := f (s6 i j).
Definition det (h : d3 -> d3 -> R) : R := h D1 D1 * (h D2 D2 * h D3 D3 - h D2 D3 * h D3 D2) - h D1 D2 * (h D2 D1 * h D3 D3 - h D2 D3 * h D3 D1) + h D1 D3 * (h D2 D1 * h D3 D2 - h D2 D2 * h D3 D1).
(** T has no trace with respect to the metric h *)
Definition tracefree (h T : d3 -> d3 -> R) : Prop := exists hi, inverse h hi /\ trace hi T = 0.
(** h and k are the same metric up to a positive factor *)
Definition conformal (h k : d3 -> d3 -> R) : Prop := exists c, 0 < c /\ forall i j, h i j = c * k i j.
(** A metric given by functions near (X,Y,Z), symmetric, with inverse and derivatives *)
Definition metric_near (e X Y Z : R) (h hi : d3 -> d3 -> fn3) (dh : d3 -> d3 -> d3 -> R) : Prop :=
  0 < e /\ (forall x y z, near e X Y Z x y z -> (forall i j, h i j x y z = h j i x y z) /\ inverse (fun i j => h i j x y z) (fun i j => hi i j x y z)) /\ forall k i j, pd (h i j) k X Y Z (dh k i j).
