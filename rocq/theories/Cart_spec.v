(** Specification of Cartesian derivatives in a box: the layout of the stored coordinate derivatives, the linear combinations of box derivatives, and gradient and Hessian of a function of x,y,z. *)
From Verif Require Import Rutil Base Coord_model Coord_spec Cart_model.
Local Open Scope R_scope.
(** variable i has storage for n points *)
Definition len (v : vars) (i n : nat) : Prop := exists a, v i = Some a /\ List.length a = n.
(** value of variable i at point k *)
Definition cell (v : vars) (i k : nat) : R := match v i with Some a => nth k a 0 | None => 0 end.
(** all coordinate variables *)
Definition gvar_list (g : gvars) : list nat :=
  [vX g; vY g; vZ g; vx g; vy g; vz g] ++ map (Nat.add (dXd g)) (seq 0 9) ++ map (Nat.add (ddXdd g)) (seq 0 18).
(** the variables of sgrid_Coordinates.c:20-30 in the order they are declared: nine first and eighteen second derivatives in a row *)
Definition layout (g : gvars) : Prop :=
  (dYd g = dXd g + 3 /\ dZd g = dXd g + 6 /\ ddYdd g = ddXdd g + 6 /\ ddZdd g = ddXdd g + 12)%nat /\ NoDup (gvar_list g).
(** storage needed: X,Y,Z always, the tables if their first variable has storage *)
Definition ready (n : nat) (g : gvars) (v : vars) : Prop :=
  (forall i, In i [vX g; vY g; vZ g] -> len v i n) /\
  (v (dXd g) <> None -> forall k, (k < 9)%nat -> len v (dXd g + k) n) /\ (v (ddXdd g) <> None -> forall k, (k < 18)%nat -> len v (ddXdd g + k) n).
(** coordinate derivatives at a point of the box *)
Definition atX (g : gvars) (v : vars) (F : fn3) (ind : nat) : R := F (cell v (vX g) ind) (cell v (vY g) ind) (cell v (vZ g) ind).
(** place of the pair (m,n) or (n,m) among 11,12,13,22,23,33 *)
Definition pair6 (m n : d3) : nat := (match m, n with D1, D1 => 0 | D1, D2 | D2, D1 => 1 | D1, D3 | D3, D1 => 2 | D2, D2 => 3 | D2, D3 | D3, D2 => 4 | D3, D3 => 5 end)%nat.
(** stored tables agree with the coordinate functions *)
Definition tables_hold (n : nat) (g : gvars) (C : coords) (v : vars) : Prop :=
  (v (dXd g) <> None -> forall i m ind, (ind < n)%nat -> cell v (dXd g + 3 * ix i + ix m) ind = atX g v (dX_dx C i m) ind) /\
  (v (ddXdd g) <> None -> forall i m n' ind F, d3_le m n' -> (ind < n)%nat -> ddX_dxdx C i m n' = Some F -> cell v (ddXdd g + 6 * ix i + pair6 m n') ind = atX g v F ind).
(** Cartesian derivative in direction m as a combination of box derivatives *)
Definition cart_grad (b : tbox) (g : gvars) (v : vars) (D : d3 -> list R -> list R) (u : list R) (m : d3) : list R :=
  match coord b with
  | None => D m u
  | Some C => map (fun ind => S3 (fun i => atX g v (dX_dx C i m) ind * nth ind (D i u) 0)) (seq 0 (nnodes b))
  end.
(** second Cartesian derivatives *)
Definition cart_hess (b : tbox) (g : gvars) (v : vars) (D : d3 -> list R -> list R) (DD : d3 -> d3 -> list R -> list R) (u : list R) (m n : d3) : list R :=
  match coord b with
  | None => DD m n u
  | Some C => map (fun ind =>
      S3 (fun i => match ddX_dxdx C i m n with Some F => atX g v F ind | None => 0 end * nth ind (D i u) 0) +
      S3 (fun i => S3 (fun j => atX g v (dX_dx C i m) ind * atX g v (dX_dx C j n) ind * nth ind (if (d3_nat i <=? d3_nat j)%nat then DD i j u else DD j i u) 0))) (seq 0 (nnodes b))
  end.
(** all second derivatives of the coordinates are provided *)
Definition has_second (C : coords) : Prop := forall i m n, d3_le m n -> ddX_dxdx C i m n <> None.
(** f is (Frechet) differentiable at (x,y,z) with gradient gr *)
Definition diff3 (f : fn3) (x y z : R) (gr : d3 -> R) : Prop :=
  forall eps, 0 < eps -> exists del, 0 < del /\ forall a b c, Rabs a < del -> Rabs b < del -> Rabs c < del ->
  Rabs (f (x + a) (y + b) (z + c) - f x y z - (gr D1 * a + gr D2 * b + gr D3 * c)) <= eps * (Rabs a + Rabs b + Rabs c).
(** f as a function of the box coordinates *)
Definition pull (C : coords) (f : fn3) : fn3 := fun X Y Z => f (x_of_X C D1 X Y Z) (x_of_X C D2 X Y Z) (x_of_X C D3 X Y Z).
(** P holds at all points near (X,Y,Z) *)
Definition near (P : R -> R -> R -> Prop) (X Y Z : R) : Prop :=
  exists del, 0 < del /\ forall X' Y' Z', Rabs (X' - X) < del -> Rabs (Y' - Y) < del -> Rabs (Z' - Z) < del -> P X' Y' Z'.
