(** C63: the derivative tables of the coordinate systems belong to their coordinate maps. *)
From Verif Require Import Rutil Coord_model Coord_spec Atten_props.
From Coquelicot Require Import Coquelicot.
Local Open Scope R_scope.

(** *** tools *)
Lemma inv_intro C X Y Z j a b c : pd (x_of_X C D1) j X Y Z a -> pd (x_of_X C D2) j X Y Z b -> pd (x_of_X C D3) j X Y Z c ->
  (forall i, dX_dx C i D1 X Y Z * a + dX_dx C i D2 X Y Z * b + dX_dx C i D3 X Y Z * c = delta i j) ->
  exists J : d3 -> R, (forall k, pd (x_of_X C k) j X Y Z (J k)) /\ (forall i, S3 (fun k => dX_dx C i k X Y Z * J k) = delta i j).
Proof. intros. exists (tab a b c). split; auto. now intros []. Qed.
Lemma sec_intro C X Y Z i m a b c : pd (dX_dx C i m) D1 X Y Z a -> pd (dX_dx C i m) D2 X Y Z b -> pd (dX_dx C i m) D3 X Y Z c ->
  (forall n, d3_le m n -> exists F, ddX_dxdx C i m n = Some F /\ F X Y Z = a * dX_dx C D1 n X Y Z + b * dX_dx C D2 n X Y Z + c * dX_dx C D3 n X Y Z) ->
  forall n, d3_le m n -> exists F G, ddX_dxdx C i m n = Some F /\ (forall j, pd (dX_dx C i m) j X Y Z (G j)) /\ F X Y Z = S3 (fun j => G j * dX_dx C j n X Y Z).
Proof. intros A B D E n L. destruct (E n L) as (F & E1 & E2). exists F, (tab a b c). repeat split; auto. now intros []. Qed.
Lemma dlim_locally (f g : R -> R) x l : locally x (fun y => f y = g y) -> derivable_pt_lim g x l -> derivable_pt_lim f x l.
Proof. intros E D. apply is_derive_Reals. apply is_derive_Reals in D. apply is_derive_ext_loc with (2 := D). destruct E as [d E]. exists d. intros y B. symmetry. auto. Qed.
(** tables that agree near the point *)
Lemma inverse_ext C C' X Y Z : (forall k x y z, x_of_X C k x y z = x_of_X C' k x y z) -> (forall i m, dX_dx C i m X Y Z = dX_dx C' i m X Y Z) -> inverse_jacobian C' X Y Z -> inverse_jacobian C X Y Z.
Proof.
  intros E1 E2 H j. destruct (H j) as (J & A & B). exists J. split.
  - intros k. specialize (A k). destruct j; cbn in *; (eapply dlim_locally; [|exact A]); exists (mkposreal 1 Rlt_0_1); intros; apply E1.
  - intros i. rewrite <- (B i). unfold S3. now rewrite !E2.
Qed.
Lemma second_ext C C' X Y Z : (forall i m, locally X (fun x => dX_dx C i m x Y Z = dX_dx C' i m x Y Z)) -> (forall i m, locally Y (fun y => dX_dx C i m X y Z = dX_dx C' i m X y Z)) ->
  (forall i m, locally Z (fun z => dX_dx C i m X Y z = dX_dx C' i m X Y z)) -> (forall i m n, d3_le m n -> exists F F', ddX_dxdx C i m n = Some F /\ ddX_dxdx C' i m n = Some F' /\ F X Y Z = F' X Y Z) -> second_derivs C' X Y Z -> second_derivs C X Y Z.
Proof.
  intros L1 L2 L3 E H i m n L. destruct (H i m n L) as (F & G & A & B & D). destruct (E i m n L) as (F1 & F2 & A1 & A2 & A3). exists F1, G. split; [auto|]. split.
  - intros j. specialize (B j). destruct j; cbn in *; (eapply dlim_locally; [|exact B]); [exact (L1 i m)|exact (L2 i m)|exact (L3 i m)].
  - rewrite A3. rewrite A in A2. injection A2 as <-. rewrite D. unfold S3. now rewrite (locally_singleton _ _ (L1 D1 n)), (locally_singleton _ _ (L1 D2 n)), (locally_singleton _ _ (L1 D3 n)).
Qed.
Lemma loc_all x (P : R -> Prop) : (forall y, P y) -> locally x P. Proof. intros H. exists (mkposreal 1 Rlt_0_1). auto. Qed.
Lemma loc_open x (P : R -> Prop) a b : a < x < b -> (forall y, a < y < b -> P y) -> locally x P.
Proof. intros H E. apply (locally_open (fun u => a < u /\ u < b)); [apply open_and; [apply open_gt|apply open_lt]|auto|auto]. Qed.
Lemma guard_lt a (u v : R) : 0 < a -> (if Rlt_dec 0 a then u else v) = u.
Proof. intros. destruct (Rlt_dec 0 a); [auto|lra]. Qed.
Lemma cc t : cos t * cos t = 1 - sin t * sin t. Proof. generalize (sin2_cos2 t). unfold Rsqr. lra. Qed.
Lemma c2 t : cos (2 * t) = 1 - 2 * (sin t * sin t). Proof. rewrite cos_2a_sin. ring. Qed.
Lemma const_d a x : derivable_pt_lim (fun _ => a) x 0. Proof. apply (derivable_pt_lim_const a x). Qed.
Lemma near_g (u v : R -> R) x l : 0 < x -> derivable_pt_lim u x l -> derivable_pt_lim (fun t => if Rlt_dec 0 t then u t else v t) x l.
Proof. intros H D. apply dlim_locally with (2 := D). apply loc_open with (a := 0) (b := x + 1); [lra|]. intros y Hy. now apply guard_lt. Qed.
Lemma guard_c r (u v : R -> R) x l : 0 < r -> derivable_pt_lim u x l -> derivable_pt_lim (fun t => if Rlt_dec 0 r then u t else v t) x l.
Proof. intros. destruct (Rlt_dec 0 r); [auto|lra]. Qed.
(** one derivative: the value is left to unification *)
Ltac gd := match goal with |- derivable_pt_lim (fun t => if Rlt_dec 0 t then @?u t else @?v t) _ _ => apply (near_g u v); [assumption|cbv beta] | |- derivable_pt_lim (fun t => if Rlt_dec 0 ?r then @?u t else @?v t) _ _ => apply (guard_c r u v); [assumption|cbv beta] | _ => idtac end.
Ltac dv := first [apply const_d | apply is_derive_Reals; auto_derive; [|reflexivity]].
Ltac side := repeat split; auto; try lra; try nra.
Ltac unf := cbv [pd x_of_X dX_dx ddX_dxdx init_Coord tab tab6 delta S3 zero_of_xyz one_of_xyz x_equals_X y_equals_Y z_equals_Z].

#[global] Instance UD_sinh : UnaryDiff sinh.
Proof. exists cosh. intros x. apply is_derive_Reals. apply derivable_pt_lim_sinh. Defined.
#[global] Instance UD_cosh : UnaryDiff cosh.
Proof. exists sinh. intros x. apply is_derive_Reals. apply derivable_pt_lim_cosh. Defined.
#[global] Instance UD_tan : UnaryDiff' tan.
Proof. exists (fun x => 1 + tan x * tan x) (fun x => - PI / 2 < x < PI / 2). intros x H. apply is_derive_Reals. replace (1 + tan x * tan x) with (1 + tan x ^ 2) by ring. now apply tan_deriv. Defined.

(** *** Polar *)
Ltac dp := unfold x_ofPolar, y_ofPolar, z_ofPolar, drho_dx, drho_dy, dphi_dx, dphi_dy.
(** the Polar table inverts the Jacobian wherever rho > 0 *)
Theorem C63_polar p rho phi Z : 0 < rho -> inverse_jacobian (init_Coord p Polar) rho phi Z.
Proof.
  intros Hr j. generalize (cc phi). intros C1.
  destruct j; (eapply inv_intro; [unf; dp; dv; side| unf; dp; dv; side| unf; dp; dv; side|]); intros i; destruct i; unf; dp; rewrite ?guard_lt by auto; field [C1]; repeat split; lra.
Qed.
Print Assumptions C63_polar.
Example C63_polar_ex : inverse_jacobian (init_Coord (CPars 4 0 0 0) Polar) 2 (PI / 6) 5.
Proof. apply C63_polar. lra. Qed.

(** *** Spherical *)
Ltac ds := unfold x_ofSpherical, y_ofSpherical, z_ofSpherical, drSpherical_dx, drSpherical_dy, drSpherical_dz, dthetaSpherical_dx, dthetaSpherical_dy, dthetaSpherical_dz, dphiSpherical_dx, dphiSpherical_dy.
#[local] Hint Unfold ddr_Spherical_dxdx ddr_Spherical_dxdy ddr_Spherical_dxdz ddr_Spherical_dydy ddr_Spherical_dydz ddr_Spherical_dzdz ddtheta_Spherical_dxdx ddtheta_Spherical_dxdy ddtheta_Spherical_dxdz ddtheta_Spherical_dydy ddtheta_Spherical_dydz ddtheta_Spherical_dzdz ddphi_Spherical_dxdx ddphi_Spherical_dxdy ddphi_Spherical_dxdz ddphi_Spherical_dydy ddphi_Spherical_dydz ddphi_Spherical_dzdz : dd.
(** Spherical: first and second derivatives, off the axis *)
Theorem C63_spherical p r theta phi : 0 < r -> sin theta <> 0 -> inverse_jacobian (init_Coord p Spherical) r theta phi /\ second_derivs (init_Coord p Spherical) r theta phi.
Proof.
  intros Hr Hs. generalize (cc theta) (cc phi). intros C1 C2. split.
  - intros j. destruct j; (eapply inv_intro; [unf; ds; dv; side| unf; ds; dv; side| unf; ds; dv; side|]); intros i; destruct i; unf; ds; rewrite ?guard_lt by auto; field [C1 C2]; repeat split; lra.
  - intros i m. destruct i, m; (eapply sec_intro; [unf; ds; gd; dv; side| unf; ds; gd; dv; side| unf; ds; gd; dv; side|]);
    intros n; destruct n; unfold d3_le; intros L; cbn in L; try lia; eexists; (split; [unf; reflexivity|]); unf; ds; rewrite ?guard_lt by auto;
    autounfold with dd; unfold Cot, Csc; rewrite ?c2, ?sin_2a; field [C1 C2]; repeat split; lra.
Qed.
Print Assumptions C63_spherical.
Example C63_spherical_ex : second_derivs (init_Coord (CPars 4 0 0 0) Spherical) 2 (PI / 2) 5.
Proof. apply C63_spherical; [lra|]. rewrite sin_PI2. lra. Qed.

(** *** SphericalDF *)
Ltac df := unfold x_ofSphericalDF, y_ofSphericalDF, z_ofSphericalDF, dr_dx, dr_dy, dr_dz, dthm_dx, dthm_dy, dthm_dz, dphiSphericalDF_dx, dphiSphericalDF_dy; cbv zeta.
#[local] Hint Unfold ddr_SphericalDF_dxdx ddr_SphericalDF_dxdy ddr_SphericalDF_dxdz ddr_SphericalDF_dydy ddr_SphericalDF_dydz ddr_SphericalDF_dzdz ddthm_SphericalDF_dxdx ddthm_SphericalDF_dxdy ddthm_SphericalDF_dxdz ddthm_SphericalDF_dydy ddthm_SphericalDF_dydz ddthm_SphericalDF_dzdz ddphi_SphericalDF_dxdx ddphi_SphericalDF_dxdy ddphi_SphericalDF_dxdz ddphi_SphericalDF_dydy ddphi_SphericalDF_dydz ddphi_SphericalDF_dzdz : dd.
(** SphericalDF: first and second derivatives, off the axis; theta_DF is the angle of the point *)
Theorem C63_sphericalDF p r thm phi : 0 < r -> sin (theta_DF p thm) <> 0 -> inverse_jacobian (init_Coord p SphericalDF) r thm phi /\ second_derivs (init_Coord p SphericalDF) r thm phi.
Proof.
  intros Hr. unfold init_Coord, theta_DF. set (k := PI / INR _). intros Hs. generalize (cc (thm + k)) (cc phi). intros C1 C2. 
  split.
  - intros j. destruct j; (eapply inv_intro; [unf; df; unfold theta_DF; fold k; dv; side| unf; df; unfold theta_DF; fold k; dv; side| unf; df; unfold theta_DF; fold k; dv; side|]); intros i; destruct i; unf; df; unfold theta_DF; fold k; rewrite ?guard_lt by auto; field [C1 C2]; repeat split; lra.
  - intros i m. destruct i, m; (eapply sec_intro; [unf; df; unfold theta_DF; fold k; gd; dv; side| unf; df; unfold theta_DF; fold k; gd; dv; side| unf; df; unfold theta_DF; fold k; gd; dv; side|]);
    intros n; destruct n; unfold d3_le; intros L; cbn in L; try lia; eexists; (split; [unf; reflexivity|]); unf; df; autounfold with dd; cbv zeta; unfold theta_DF; fold k; rewrite ?guard_lt by auto;
    unfold Cot, Csc; rewrite ?c2, ?sin_2a; field [C1 C2]; repeat split; lra.
Qed.
Print Assumptions C63_sphericalDF.
Example C63_sphericalDF_ex : second_derivs (init_Coord (CPars 4 0 0 0) SphericalDF) 2 (PI / 4) 5.
Proof. apply C63_sphericalDF; [lra|]. unfold theta_DF. cbn. replace (PI / 4 + _) with (PI / 2) by field. rewrite sin_PI2. lra. Qed.
