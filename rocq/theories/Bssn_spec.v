(** The physical metric and extrinsic curvature of BSSN variables, and the ADM evolution equations. *)
From Verif Require Import Rutil Coord_model Coord_spec Adm_spec Bssn_model.
Local Open Scope R_scope.
(** ** the physical fields: h_ij = psi^4 e^(4 phi) g_ij and K_ij = psi^4 e^(4 phi) (A_ij + K g_ij / 3) *)
Definition phys_metric (psi phi g : R) : R := psi ^ 4 * exp (4 * phi) * g.
Definition phys_curv (psi phi g A K : R) : R := psi ^ 4 * exp (4 * phi) * (A + K / 3 * g).
(** ** the ADM equations in vacuum *)
(** Lie derivative of a symmetric tensor along beta; [db i k] is the derivative of beta^k in direction i *)
Definition lie (b : d3 -> R) (db : d3 -> d3 -> R) (T : d3 -> d3 -> R) (dT : d3 -> d3 -> d3 -> R) (i j : d3) : R := S3 (fun k => b k * dT k i j + T k j * db i k + T i k * db j k).
(** d/dt h_ij = -2 alpha K_ij + L_beta h_ij *)
Definition adm_dt_h (al : R) (b : d3 -> R) db (h K : d3 -> d3 -> R) dh (i j : d3) : R := - 2 * al * K i j + lie b db h dh i j.
(** d/dt K_ij = - D_i D_j alpha + alpha (R_ij + K K_ij - 2 K_ik K^k_j) + L_beta K_ij *)
Definition adm_dt_K (al : R) (b : d3 -> R) db (hi K : d3 -> d3 -> R) dK (DDa Ric : d3 -> d3 -> R) (i j : d3) : R :=
  - DDa i j + al * (Ric i j + trace hi K * K i j - 2 * SS (fun k l => K i k * hi k l * K l j)) + lie b db K dK i j.
(** d/dt K = - D^i D_i alpha + alpha K_ij K^ij + beta^k d_k K *)
Definition adm_dt_trK (al : R) (b : d3 -> R) (hi K : d3 -> d3 -> R) (dtr : d3 -> R) (DDa : d3 -> d3 -> R) : R := - trace hi DDa + al * square hi K + S3 (fun k => b k * dtr k).
Definition hamiltonian (hi K Ric : d3 -> d3 -> R) : R := trace hi Ric + trace hi K ^ 2 - square hi K.
(** ** the variables as functions of (x,y,z) near a point, the inverse of the conformal metric, and some first derivatives *)
Record bfields := MkBF { Bpsi : fn3; Bphi : fn3; BK : fn3; Bal : fn3; Bg : d3 -> d3 -> fn3; BA : d3 -> d3 -> fn3; Bgi : d3 -> d3 -> fn3; BG : d3 -> fn3; Bbe : d3 -> fn3;
  Dpsi : d3 -> fn3; Dphi : d3 -> fn3; Dal : d3 -> fn3; Dg : d3 -> d3 -> d3 -> fn3 }.
Definition Bh (F : bfields) (i j : d3) : fn3 := fun x y z => phys_metric (Bpsi F x y z) (Bphi F x y z) (Bg F i j x y z).
Definition BKij (F : bfields) (i j : d3) : fn3 := fun x y z => phys_curv (Bpsi F x y z) (Bphi F x y z) (Bg F i j x y z) (BA F i j x y z) (BK F x y z).
(** near the point: the derivatives are what they are called, g_ij and A_ij are symmetric, and the BSSN variable G^i is the contracted Christoffel symbol of g_ij *)
Definition bssn_near (e X Y Z : R) (F : bfields) : Prop := forall x y z, near e X Y Z x y z ->
  0 < Bpsi F x y z /\ (forall k, pd (Bpsi F) k x y z (Dpsi F k x y z)) /\ (forall k, pd (Bphi F) k x y z (Dphi F k x y z)) /\ (forall k, pd (Bal F) k x y z (Dal F k x y z)) /\ (forall k i j, pd (Bg F i j) k x y z (Dg F k i j x y z)) /\
  (forall i j, Bg F i j x y z = Bg F j i x y z) /\ (forall i j, BA F i j x y z = BA F j i x y z) /\ inverse (fun i j => Bg F i j x y z) (fun i j => Bgi F i j x y z) /\
  forall k, BG F k x y z = SS (fun i j => Bgi F i j x y z * christoffel (fun i j => Bgi F i j x y z) (fun k i j => Dg F k i j x y z) k i j).
(** what the code is given at the point: the values and their derivatives; psi comes with its derivatives divided by psi *)
Definition bssn_sampled (a : bs_in) (X Y Z : R) (F : bfields) : Prop :=
  s_psi a 0 = Bpsi F X Y Z /\ (forall k, s_psi a (1 + n3 k) * Bpsi F X Y Z = Dpsi F k X Y Z) /\ (forall k l, pd (Dpsi F k) l X Y Z (s_psi a (4 + s6 k l) * Bpsi F X Y Z)) /\
  (forall i j, s_u a (s6 i j) = Bg F i j X Y Z) /\ s_u a 6 = Bphi F X Y Z /\ (forall i j, s_u a (7 + s6 i j) = BA F i j X Y Z) /\ s_u a 13 = BK F X Y Z /\ (forall k, s_u a (14 + n3 k) = BG F k X Y Z) /\ s_u a 17 = Bal F X Y Z /\ (forall k, s_u a (18 + n3 k) = Bbe F k X Y Z) /\
  (forall k i j, s_dg a (3 * s6 i j + n3 k) = Dg F k i j X Y Z) /\ (forall k l i j, pd (Dg F k i j) l X Y Z (s_ddg a (6 * s6 i j + s6 k l))) /\ (forall k i j, pd (BA F i j) k X Y Z (s_dA a (3 * s6 i j + n3 k))) /\
  (forall k, s_dphi a (n3 k) = Dphi F k X Y Z) /\ (forall k l, pd (Dphi F k) l X Y Z (s_ddphi a (s6 k l))) /\ (forall k i, pd (BG F i) k X Y Z (s_dG a (3 * n3 i + n3 k))) /\ (forall k, pd (BK F) k X Y Z (s_dK a (n3 k))) /\
  (forall k, s_dalp a (n3 k) = Dal F k X Y Z) /\ (forall k l, pd (Dal F k) l X Y Z (s_ddalp a (s6 k l))) /\ (forall k i, pd (Bbe F i) k X Y Z (s_dbeta a (3 * n3 i + n3 k))).
