(** The constraints of general relativity for a metric psi^4 g and an extrinsic curvature K, as in textbooks, from functions of (x,y,z) and their true partial derivatives. *)
From Verif Require Import Rutil Coord_model Coord_spec Adm_model.
Local Open Scope R_scope.
(** ** storage: a symmetric tensor has the components 11,12,13,22,23,33 in this order *)
Definition s6 (i j : d3) : nat := match i, j with D1, D1 => 0 | D1, D2 | D2, D1 => 1 | D1, D3 | D3, D1 => 2 | D2, D2 => 3 | D2, D3 | D3, D2 => 4 | D3, D3 => 5 end%nat.
Definition n3 (i : d3) : nat := match i with D1 => 0 | D2 => 1 | D3 => 2 end%nat.
Definition near (e X Y Z x y z : R) : Prop := Rabs (x - X) < e /\ Rabs (y - Y) < e /\ Rabs (z - Z) < e.
(** ** geometry at one point *)
Definition SS (f : d3 -> d3 -> R) : R := S3 (fun i => S3 (fun j => f i j)).
(** hi is the inverse of the matrix h *)
Definition inverse (h hi : d3 -> d3 -> R) : Prop := forall i j, S3 (fun k => hi i k * h k j) = delta i j.
(** Christoffel symbols  Gamma^i_jk, where dh k i j is the derivative of h_ij in direction k *)
Definition christoffel (hi : d3 -> d3 -> R) (dh : d3 -> d3 -> d3 -> R) (i j k : d3) : R := 1 / 2 * S3 (fun l => hi i l * (dh j l k + dh k l j - dh l j k)).
(** Ricci tensor  d_i Gamma^i_jk - d_k Gamma^i_ij + Gamma^i_il Gamma^l_jk - Gamma^i_kl Gamma^l_ij, where dG l i j k is the derivative of Gamma^i_jk in direction l *)
Definition ricci (G : d3 -> d3 -> d3 -> R) (dG : d3 -> d3 -> d3 -> d3 -> R) (j k : d3) : R := S3 (fun i => dG i i j k - dG k i i j) + SS (fun i l => G i i l * G l j k - G i k l * G l i j).
Definition trace (hi : d3 -> d3 -> R) (T : d3 -> d3 -> R) : R := SS (fun i j => hi i j * T i j).
(** K_ij K^ij *)
Definition square (hi T : d3 -> d3 -> R) : R := SS (fun i j => T i j * SS (fun k l => hi i k * hi j l * T k l)).
(** covariant derivative D_k T_ij *)
Definition cov (G : d3 -> d3 -> d3 -> R) (T : d3 -> d3 -> R) (dT : d3 -> d3 -> d3 -> R) (k i j : d3) : R := dT k i j - S3 (fun l => G l k i * T l j + G l k j * T i l).
(** D^j K_ij - D_i (trace K) *)
Definition momentum (hi : d3 -> d3 -> R) (DT : d3 -> d3 -> d3 -> R) (i : d3) : R := SS (fun j k => hi j k * DT j i k) - SS (fun j k => hi j k * DT i j k).
(** the covariant derivatives D_i D_j of a scalar *)
Definition hessian (G : d3 -> d3 -> d3 -> R) (da : d3 -> R) (dda : d3 -> d3 -> R) (i j : d3) : R := dda i j - S3 (fun k => G k i j * da k).
(** ** functions of (x,y,z) *)
(** the functions psi, g_ij, K_ij, alpha with their first derivatives near a point (X,Y,Z), and second derivatives there *)
Record geometry := MkGeo {
  Fpsi : fn3; Fg : d3 -> d3 -> fn3; FK : d3 -> d3 -> fn3; Falpha : fn3;
  dpsi : d3 -> fn3; dg : d3 -> d3 -> d3 -> fn3; dalpha : d3 -> fn3 }.
(** the derivatives are what they are called *)
Definition derivatives_near (e X Y Z : R) (F : geometry) : Prop :=
  forall x y z, near e X Y Z x y z ->
    (forall k, pd (Fpsi F) k x y z (dpsi F k x y z)) /\ (forall k i j, pd (Fg F i j) k x y z (dg F k i j x y z)) /\ (forall k, pd (Falpha F) k x y z (dalpha F k x y z)).
Definition symmetric_near (e X Y Z : R) (F : geometry) : Prop := forall x y z, near e X Y Z x y z -> forall i j, Fg F i j x y z = Fg F j i x y z /\ FK F i j x y z = FK F j i x y z.
(** the physical metric *)
Definition metric (F : geometry) (i j : d3) : fn3 := fun x y z => (Fpsi F x y z) ^ 4 * Fg F i j x y z.
(** what the code is given at (X,Y,Z): the values and their derivatives; psi comes with its derivatives divided by psi *)
Definition sampled (a : adm_in) (X Y Z : R) (F : geometry) : Prop :=
  a_psi a 0 = Fpsi F X Y Z /\ (forall k, a_psi a (1 + n3 k) * Fpsi F X Y Z = dpsi F k X Y Z) /\ (forall k l, pd (dpsi F k) l X Y Z (a_psi a (4 + s6 k l) * Fpsi F X Y Z)) /\
  (forall i j, a_u a (s6 i j) = Fg F i j X Y Z) /\ (forall k i j, a_dg a (3 * s6 i j + n3 k) = dg F k i j X Y Z) /\ (forall k l i j, pd (dg F k i j) l X Y Z (a_ddg a (6 * s6 i j + s6 k l))) /\
  (forall i j, a_u a (6 + s6 i j) = FK F i j X Y Z) /\ (forall k i j, pd (FK F i j) k X Y Z (a_dK a (3 * s6 i j + n3 k))) /\
  a_u a 12 = Falpha F X Y Z /\ (forall k, a_dalp a (n3 k) = dalpha F k X Y Z) /\ (forall k l, pd (dalpha F k) l X Y Z (a_ddalp a (s6 k l))).
