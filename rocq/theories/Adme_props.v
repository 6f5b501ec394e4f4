(** C115: the ADM energy. *)
From Verif Require Import Rutil Base Rsum Coord_model Coord_spec Adm_model Adm_spec Adm2_proofs.
From Verif Require Import Adme_model.
From Coq Require Import Lra.
Local Open Scope R_scope.
(** determinant *)
Definition det3 (h : d3 -> d3 -> R) : R :=
  h D1 D1 * (h D2 D2 * h D3 D3 - h D2 D3 * h D3 D2) - h D1 D2 * (h D2 D1 * h D3 D3 - h D2 D3 * h D3 D1) + h D1 D3 * (h D2 D1 * h D3 D2 - h D2 D2 * h D3 D1).
(** the integrand of the surface integral for the energy of a metric h with inverse hi, derivatives dh k i j of h_ij in direction k, and direction nu:
    det(h) h^ij h^kl (d_l h_jk - d_j h_kl) nu_i / 16 pi *)
Definition energy_flux (h hi : d3 -> d3 -> R) (dh : d3 -> d3 -> d3 -> R) (nu : d3 -> R) : R :=
  det3 h / (16 * PI) * SS (fun i j => SS (fun k l => hi i j * hi k l * (dh l j k - dh j k l) * nu i)).
(** the point a holds the values of psi, g and their derivatives at (X,Y,Z); psi comes with its derivatives divided by psi *)
Definition holds (a : adme_in) (X Y Z : R) (psi : fn3) (g : d3 -> d3 -> fn3) : Prop :=
  e_x a 0 = X /\ e_x a 1 = Y /\ e_x a 2 = Z /\ e_psi a = psi X Y Z /\ (forall k, pd psi k X Y Z (e_dpop a (n3 k) * psi X Y Z)) /\
  (forall i j, e_gb a (s6 i j) = g i j X Y Z) /\ (forall k i j, pd (g i j) k X Y Z (e_dgb a (3 * s6 i j + n3 k))).
Definition position (X Y Z : R) (i : d3) : R := match i with D1 => X | D2 => Y | D3 => Z end.
Lemma inverse_unique : forall h hi, (forall i j, h i j = h j i) -> inverse h hi -> det3 h <> 0 ->
  hi D1 D1 = (h D2 D2 * h D3 D3 - h D2 D3 * h D2 D3) / det3 h /\ hi D1 D2 = (h D1 D3 * h D2 D3 - h D1 D2 * h D3 D3) / det3 h /\ hi D1 D3 = (- (h D1 D3 * h D2 D2) + h D1 D2 * h D2 D3) / det3 h /\
  hi D2 D2 = (h D1 D1 * h D3 D3 - h D1 D3 * h D1 D3) / det3 h /\ hi D2 D3 = (h D1 D2 * h D1 D3 - h D1 D1 * h D2 D3) / det3 h /\ hi D3 D3 = (h D1 D1 * h D2 D2 - h D1 D2 * h D1 D2) / det3 h /\
  hi D2 D1 = hi D1 D2 /\ hi D3 D1 = hi D1 D3 /\ hi D3 D2 = hi D2 D3.
Proof.
  intros h hi Hs Hi Hd. unfold inverse, S3 in Hi.
  assert (E : forall a, hi a D1 = (delta a D1 * (h D2 D2 * h D3 D3 - h D2 D3 * h D2 D3) + delta a D2 * (h D1 D3 * h D2 D3 - h D1 D2 * h D3 D3) + delta a D3 * (- (h D1 D3 * h D2 D2) + h D1 D2 * h D2 D3)) / det3 h /\
                        hi a D2 = (delta a D1 * (h D1 D3 * h D2 D3 - h D1 D2 * h D3 D3) + delta a D2 * (h D1 D1 * h D3 D3 - h D1 D3 * h D1 D3) + delta a D3 * (h D1 D2 * h D1 D3 - h D1 D1 * h D2 D3)) / det3 h /\
                        hi a D3 = (delta a D1 * (- (h D1 D3 * h D2 D2) + h D1 D2 * h D2 D3) + delta a D2 * (h D1 D2 * h D1 D3 - h D1 D1 * h D2 D3) + delta a D3 * (h D1 D1 * h D2 D2 - h D1 D2 * h D1 D2)) / det3 h).
  { intro a. rewrite <- (Hi a D1), <- (Hi a D2), <- (Hi a D3). unfold det3 in *. rewrite (Hs D2 D1), (Hs D3 D1), (Hs D3 D2) in *. repeat split; field; exact Hd. }
  destruct (E D1) as (A1 & A2 & A3). destruct (E D2) as (B1 & B2 & B3). destruct (E D3) as (C1 & C2 & C3). cbn [delta] in *.
  rewrite A1, A2, A3, B1, B2, B3, C1, C2, C3. repeat split; field; exact Hd.
Qed.
Lemma pd_conformal : forall (psi g : fn3) k X Y Z p q, pd psi k X Y Z (p * psi X Y Z) -> pd g k X Y Z q -> pd (fun x y z => psi x y z ^ 4 * g x y z) k X Y Z (psi X Y Z ^ 4 * (4 * p * g X Y Z + q)).
Proof.
  intros psi g k X Y Z p q Hp Hg. cbn [pow].
  refine (pd_val _ _ _ _ _ _ _ _ (pd_mult _ _ k X Y Z _ _ (pd_mult _ _ k X Y Z _ _ Hp (pd_mult _ _ k X Y Z _ _ Hp (pd_mult _ _ k X Y Z _ _ Hp (pd_mult _ _ k X Y Z _ _ Hp (pd_const 1 k X Y Z))))) Hg)). ring.
Qed.
Lemma flux_ring : forall dt (hi : d3 -> d3 -> R) (dh : d3 -> d3 -> d3 -> R) (nu : d3 -> R), hi D2 D1 = hi D1 D2 -> hi D3 D1 = hi D1 D3 -> hi D3 D2 = hi D2 D3 ->
  (forall k i j, dh k i j = dh k j i) ->
  flux_expr dt (hi D1 D1) (hi D1 D2) (hi D1 D3) (hi D2 D2) (hi D2 D3) (hi D3 D3) (dh D1 D1 D1) (dh D1 D1 D2) (dh D1 D1 D3) (dh D1 D2 D2) (dh D1 D2 D3) (dh D1 D3 D3) (dh D2 D1 D1) (dh D2 D1 D2) (dh D2 D1 D3) (dh D2 D2 D2) (dh D2 D2 D3) (dh D2 D3 D3) (dh D3 D1 D1) (dh D3 D1 D2) (dh D3 D1 D3) (dh D3 D2 D2) (dh D3 D2 D3) (dh D3 D3 D3) (nu D1) (nu D2) (nu D3) = dt / (16 * PI) * SS (fun i j => SS (fun k l => hi i j * hi k l * (dh l j k - dh j k l) * nu i)).
Proof.
  intros dt hi dh nu H21 H31 H32 Hd. unfold flux_expr, SS, S3, pow2. rewrite H21, H31, H32.
  rewrite (Hd D1 D2 D1), (Hd D1 D3 D1), (Hd D1 D3 D2), (Hd D2 D2 D1), (Hd D2 D3 D1), (Hd D2 D3 D2), (Hd D3 D2 D1), (Hd D3 D3 D1), (Hd D3 D3 D2).
  replace 0.0625 with (1 / 16) by lra. replace 0.125 with (1 / 8) by lra. replace (-0.0625) with (- (1 / 16)) by lra. replace (-0.125) with (- (1 / 8)) by lra. field. apply PI_neq0.
Qed.
(** the integrand at a point is that of the metric psi^4 g, with its true inverse and its true derivatives *)
Theorem C115_integrand : forall a X Y Z psi g hi dh, let h i j x y z := psi x y z ^ 4 * g i j x y z in
  holds a X Y Z psi g -> (forall i j, g i j X Y Z = g j i X Y Z) -> 0 < X * X + Y * Y + Z * Z -> det3 (fun i j => h i j X Y Z) <> 0 ->
  inverse (fun i j => h i j X Y Z) hi -> (forall k i j, pd (h i j) k X Y Z (dh k i j)) ->
  integrand_at a = energy_flux (fun i j => h i j X Y Z) hi dh (fun i => position X Y Z i / sqrt (X * X + Y * Y + Z * Z)).
Proof.
  intros a X Y Z psi g hi dh h (Hx & Hy & Hz & Hpsi & Hdp & Hg & Hdg) Hsym Hr Hdet Hinv Hdh.
  assert (Hdv : forall k i j, dh k i j = psi X Y Z ^ 4 * (4 * e_dpop a (n3 k) * g i j X Y Z + e_dgb a (3 * s6 i j + n3 k))).
  { intros k i j. apply (pd_unique (h i j) k X Y Z); [apply Hdh|]. unfold h. apply pd_conformal; [apply Hdp|apply Hdg]. }
  assert (Hhs : forall i j, (fun i j => h i j X Y Z) i j = (fun i j => h i j X Y Z) j i) by (intros i j; unfold h; cbv beta; rewrite Hsym; reflexivity).
  destruct (inverse_unique (fun i j => h i j X Y Z) hi Hhs Hinv Hdet) as (I11 & I12 & I13 & I22 & I23 & I33 & I21 & I31 & I32).
  set (f := psi X Y Z ^ 4) in *.
  set (db := det3 (fun i j => g i j X Y Z)).
  assert (Hdetf : det3 (fun i j => h i j X Y Z) = f ^ 3 * db) by (unfold det3, db, det3, h; fold f; ring).
  assert (Hf : f <> 0). { intro Q. apply Hdet. rewrite Hdetf, Q. ring. } assert (Hdb : db <> 0). { intro Q. apply Hdet. rewrite Hdetf, Q. ring. }
  assert (G11 : e_gb a 0 = g D1 D1 X Y Z) by apply (Hg D1 D1). assert (G12 : e_gb a 1 = g D1 D2 X Y Z) by apply (Hg D1 D2). assert (G13 : e_gb a 2 = g D1 D3 X Y Z) by apply (Hg D1 D3).
  assert (G22 : e_gb a 3 = g D2 D2 X Y Z) by apply (Hg D2 D2). assert (G23 : e_gb a 4 = g D2 D3 X Y Z) by apply (Hg D2 D3). assert (G33 : e_gb a 5 = g D3 D3 X Y Z) by apply (Hg D3 D3).
  unfold energy_flux. rewrite <- flux_ring; [|assumption|assumption|assumption|].
  2:{ intros k i j. rewrite !Hdv, (Hsym i j). replace (s6 i j) with (s6 j i) by (destruct i, j; reflexivity). reflexivity. }
  unfold integrand_at. cbv zeta. rewrite Hpsi. fold f. rewrite Hx, Hy, Hz, G11, G12, G13, G22, G23, G33.
  match goal with |- context [Req_EM_T ?r 0] => replace r with (X * X + Y * Y + Z * Z) by (unfold pow2; ring) end.
  destruct (Req_EM_T _ 0) as [Q|_]; [lra|].
  assert (Hdb2 : 2 * g D1 D2 X Y Z * g D1 D3 X Y Z * g D2 D3 X Y Z + g D1 D1 X Y Z * g D2 D2 X Y Z * g D3 D3 X Y Z - g D3 D3 X Y Z * pow2 (g D1 D2 X Y Z) - g D2 D2 X Y Z * pow2 (g D1 D3 X Y Z) - g D1 D1 X Y Z * pow2 (g D2 D3 X Y Z) = db).
  { unfold db, det3, pow2. rewrite (Hsym D2 D1), (Hsym D3 D1), (Hsym D3 D2). ring. }
  rewrite Hdb2, I11, I12, I13, I22, I23, I33, !Hdv, Hdetf. unfold h. fold f. cbn [n3 s6 Nat.mul Nat.add]. unfold position, pow2.
  f_equal; try reflexivity; try ring; try (field; split; assumption).
Qed.
