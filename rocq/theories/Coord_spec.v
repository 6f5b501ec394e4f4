(** Specification of coordinate derivatives: what it means for tables of first and second derivatives to belong to a coordinate map x(X), y(X), z(X). *)
From Verif Require Import Rutil Coord_model.
Local Open Scope R_scope.
(** sum over the three directions, Kronecker delta, and order of directions *)
Definition S3 (f : d3 -> R) : R := f D1 + f D2 + f D3.
Definition delta (i j : d3) : R := match i, j with D1, D1 | D2, D2 | D3, D3 => 1 | _, _ => 0 end.
Definition d3_nat (i : d3) : nat := match i with D1 => 1%nat | D2 => 2%nat | D3 => 3%nat end.
Definition d3_le (i j : d3) : Prop := (d3_nat i <= d3_nat j)%nat.
(** l is the partial derivative of f in direction j at (X,Y,Z) *)
Definition pd (f : fn3) (j : d3) (X Y Z l : R) : Prop :=
  match j with D1 => derivable_pt_lim (fun t => f t Y Z) X l | D2 => derivable_pt_lim (fun t => f X t Z) Y l | D3 => derivable_pt_lim (fun t => f X Y t) Z l end.
(** the table dX_dx is the inverse of the Jacobian matrix of the coordinate map: for each box direction j the partial derivatives of x,y,z exist, and  sum_k dX_i/dx_k dx_k/dX_j = delta_ij *)
Definition inverse_jacobian (C : coords) (X Y Z : R) : Prop :=
  forall j, exists J : d3 -> R, (forall k, pd (x_of_X C k) j X Y Z (J k)) /\ (forall i, S3 (fun k => dX_dx C i k X Y Z * J k) = delta i j).
(** the table ddX_dxdx holds the second derivatives: the entries of dX_dx are differentiable, and by the chain rule  d/dx_n (dX_i/dx_m) = sum_j d(dX_i/dx_m)/dX_j dX_j/dx_n *)
Definition second_derivs (C : coords) (X Y Z : R) : Prop :=
  forall i m n, d3_le m n -> exists F G, ddX_dxdx C i m n = Some F /\ (forall j, pd (dX_dx C i m) j X Y Z (G j)) /\ F X Y Z = S3 (fun j => G j * dX_dx C j n X Y Z).
