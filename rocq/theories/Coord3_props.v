(** C63 continued: compactSphericalDF and Spherical3. *)
From Verif Require Import Rutil Coord_model Coord_spec Atten_props Coord_props Coord2_props.
From Coquelicot Require Import Coquelicot.
Local Open Scope R_scope.

(** *** compactSphericalDF: the same table without guards, with t = tan(xi PI/2) *)
Definition tn (xi : R) : R := tan (xi * PI / 2).
Definition compact_cl (p : cpars) : coords :=
  let th x := theta_DF p x in
  Coords (tab (fun xi y f => (tn xi + r0_par p) * cos f * sin (th y)) (fun xi y f => (tn xi + r0_par p) * sin f * sin (th y)) (fun xi y f => (tn xi + r0_par p) * cos (th y)))
    (tab (tab (fun xi y f => 2 / PI / (1 + tn xi * tn xi) * (cos f * sin (th y))) (fun xi y f => 2 / PI / (1 + tn xi * tn xi) * (sin f * sin (th y))) (fun xi y f => 2 / PI / (1 + tn xi * tn xi) * cos (th y)))
         (tab (fun xi y f => cos (th y) * cos f / (tn xi + r0_par p)) (fun xi y f => cos (th y) * sin f / (tn xi + r0_par p)) (fun xi y f => - sin (th y) / (tn xi + r0_par p)))
         (tab (fun xi y f => - sin f / ((tn xi + r0_par p) * sin (th y))) (fun xi y f => cos f / ((tn xi + r0_par p) * sin (th y))) zero_of_xyz))
    (ddX_dxdx (init_Coord p compactSphericalDF)).
Lemma cl_eq p xi y f i m : xi <> 1 -> 0 < tn xi + r0_par p -> dX_dx (init_Coord p compactSphericalDF) i m xi y f = dX_dx (compact_cl p) i m xi y f.
Proof.
  intros H1 H2. destruct i, m; cbn; unfold dxi_dx, dxi_dy, dxi_dz, dthmcompactSphericalDF_dx, dthmcompactSphericalDF_dy, dthmcompactSphericalDF_dz, dphicompactSphericalDF_dx, dphicompactSphericalDF_dy, dxi_dr, r_of_xi, dr_dx, dr_dy, dr_dz, dthm_dx, dthm_dy, dthm_dz, dphiSphericalDF_dx, dphiSphericalDF_dy; cbv zeta; fold (tn xi);
  destruct (Req_EM_T xi 1); try lra; rewrite ?guard_lt by auto; auto; replace (tn xi + r0_par p - r0_par p) with (tn xi) by ring; reflexivity.
Qed.
Lemma tn_range xi : -1 < xi < 1 -> - PI / 2 < xi * PI / 2 < PI / 2.
Proof. intros H. assert (P := PI_RGT_0). split; nra. Qed.
Lemma tn_d xi : -1 < xi < 1 -> derivable_pt_lim tn xi (PI / 2 * (1 + tn xi * tn xi)).
Proof. intros H. apply tn_range in H. unfold tn. eapply dlim_eq; [dv; repeat split; apply H|]. unfold Rdiv. ring. Qed.
Definition dom (x : R) : Prop := -1 < x < 1.
#[local] Instance UD_tn : UnaryDiff' tn.
Proof. exists (fun xi => PI / 2 * (1 + tn xi * tn xi)) dom. intros x H. apply is_derive_Reals. now apply tn_d. Defined.
(** the trigonometric functions of the second derivatives in terms of t *)
Lemma tn_cos xi : -1 < xi < 1 -> let a := 1 / 2 * PI * xi in cos a ^ 2 = / (1 + tn xi * tn xi) /\ tan a = tn xi /\ cos (PI * xi) = (1 - tn xi * tn xi) / (1 + tn xi * tn xi) /\ sin (PI * xi) = 2 * tn xi / (1 + tn xi * tn xi) /\ sin a = tn xi * cos a.
Proof.
  intros H a. assert (E : a = xi * PI / 2) by (unfold a; field). apply tn_range in H. rewrite <- E in H. unfold tn. rewrite <- E. assert (C : 0 < cos a) by (apply cos_gt_0; lra).
  assert (S : sin a = tan a * cos a) by (unfold tan; field; lra). assert (C2 : cos a ^ 2 = / (1 + tan a * tan a)).
  { apply Rmult_eq_reg_r with (1 + tan a * tan a); [|nra]. rewrite Rinv_l by nra. assert (Q := sin2_cos2 a). unfold Rsqr in Q. rewrite S in Q. lra. }
  replace (PI * xi) with (2 * a) by (unfold a; field). rewrite cos_2a_sin, sin_2a, S. repeat split; auto.
  - transitivity (1 - 2 * (tan a * tan a) * cos a ^ 2); [ring|]. rewrite C2. field. nra.
  - transitivity (2 * tan a * cos a ^ 2); [ring|]. rewrite C2. field. nra.
Qed.
Ltac dc := unfold x_ofcompactSphericalDF, y_ofcompactSphericalDF, z_ofcompactSphericalDF, r_of_xi, x_ofSphericalDF, y_ofSphericalDF, z_ofSphericalDF; cbv zeta.
#[local] Hint Unfold ddxi_compactSphericalDF_dxdx ddxi_compactSphericalDF_dxdy ddxi_compactSphericalDF_dxdz ddxi_compactSphericalDF_dydy ddxi_compactSphericalDF_dydz ddxi_compactSphericalDF_dzdz ddthm_compactSphericalDF_dxdx ddthm_compactSphericalDF_dxdy ddthm_compactSphericalDF_dxdz ddthm_compactSphericalDF_dydy ddthm_compactSphericalDF_dydz ddthm_compactSphericalDF_dzdz ddphi_compactSphericalDF_dxdx ddphi_compactSphericalDF_dxdy ddphi_compactSphericalDF_dxdz ddphi_compactSphericalDF_dydy ddphi_compactSphericalDF_dydz ddphi_compactSphericalDF_dzdz : dd.
(** compactSphericalDF: first and second derivatives at every point with -1 < xi < 1, r > 0 that is not on the axis *)
Theorem C63_compactSphericalDF p xi thm phi : -1 < xi < 1 -> 0 < r_of_xi p xi -> sin (theta_DF p thm) <> 0 -> inverse_jacobian (init_Coord p compactSphericalDF) xi thm phi /\ second_derivs (init_Coord p compactSphericalDF) xi thm phi.
Proof.
  intros Hx Hr Hs. assert (Hr' : 0 < tn xi + r0_par p) by exact Hr. assert (P := PI_RGT_0). assert (H1 : xi <> 1) by lra.
  assert (K : inverse_jacobian (compact_cl p) xi thm phi /\ second_derivs (compact_cl p) xi thm phi).
  { clear Hr. revert Hs. unfold compact_cl, theta_DF. cbv zeta. set (k := PI / INR _). intros Hs. generalize (cc (thm + k)) (cc phi). intros C1 C2.
    assert (T : 1 + tn xi * tn xi <> 0) by nra. split.
    - intros j. destruct j; (eapply inv_intro; [unf; unfold theta_DF; fold k; dv; side| unf; unfold theta_DF; fold k; dv; side| unf; unfold theta_DF; fold k; dv; side|]); intros i; destruct i; unf; field [C1 C2]; repeat split; lra.
    - destruct (tn_cos xi Hx) as (K1 & K2 & K3 & K4 & K5). intros i m. destruct i, m; (eapply sec_intro; [unf; dv; side| unf; dv; side| unf; dv; side|]);
      intros n; destruct n; unfold d3_le; intros L; cbn in L; try lia; eexists; (split; [unf; reflexivity|]); unf; autounfold with dd; cbv zeta; unfold theta_DF; fold k;
      unfold Cot, Csc; rewrite ?c2, ?sin_2a; set (a := 1 / 2 * PI * xi) in *;
      rewrite ?K2, ?K3, ?K4; replace (cos a ^ 4) with ((cos a ^ 2) ^ 2) by ring; replace ((r0_par p * cos a + sin a) ^ 2) with ((r0_par p + tn xi) ^ 2 * cos a ^ 2) by (rewrite K5; ring); rewrite ?K1; field [C1 C2]; repeat split; lra. }
  destruct K as [K1 K2]. split.
  - eapply inverse_ext; [| |exact K1]; [intros []; reflexivity|]. intros i m. now apply cl_eq.
  - eapply second_ext; [| | | |exact K2].
    + intros i m. assert (L : locally xi (fun y => 0 < tn y + r0_par p)). { apply (loc_pos (fun y => tn y + r0_par p)); auto. apply continuity_pt_plus; [|apply continuity_pt_const; now intros ? ?]. apply derivable_continuous_pt. exists (PI / 2 * (1 + tn xi * tn xi)). now apply tn_d. }
      assert (L' : locally xi (fun y => y <> 1)) by (apply loc_open with (a := -1) (b := 1); auto; intros; lra). generalize (filter_and _ _ L L'). apply filter_imp. intros y [A B]. now apply cl_eq.
    + intros i m. apply loc_all. intros y. now apply cl_eq.
    + intros i m. apply loc_all. intros y. now apply cl_eq.
    + intros i m n L. destruct i, m, n; unfold d3_le in L; cbn in L; try lia; eexists; eexists; (split; [reflexivity|split; reflexivity]).
Qed.
Print Assumptions C63_compactSphericalDF.
Example C63_compactSphericalDF_ex : second_derivs (init_Coord (CPars 4 1 0 0) compactSphericalDF) (1 / 2) (PI / 4) 5.
Proof.
  apply C63_compactSphericalDF; [lra| |].
  - unfold r_of_xi. cbn. replace (1 / 2 * PI / 2) with (PI / 4) by field. rewrite tan_PI4. lra.
  - unfold theta_DF. cbn. replace (PI / 4 + _) with (PI / 2) by field. rewrite sin_PI2. lra.
Qed.

(** *** Spherical3: the same table with the square roots resolved *)
Definition vv (c U : R) : R := PI / 2 * (1 / sinh c) * sinh (c * U).
Definition S3_cl (p : cpars) : coords :=
  let c := c_par p in
  Coords (tab (fun r U f => r * cos f * cos (vv c U)) (fun r U f => r * cos (vv c U) * sin f) (fun r U f => r * sin (vv c U)))
    (tab (tab (fun r U f => cos f * cos (vv c U)) (fun r U f => cos (vv c U) * sin f) (fun r U f => sin (vv c U)))
         (tab (fun r U f => - (2 / PI) * cos f * sin (vv c U) * sinh c / (c * r * cosh (c * U))) (fun r U f => - (2 / PI) * sin f * sin (vv c U) * sinh c / (c * r * cosh (c * U))) (fun r U f => 2 / PI * cos (vv c U) * sinh c / (c * r * cosh (c * U))))
         (tab (fun r U f => - (1 / cos (vv c U) * sin f / r)) (fun r U f => cos f * (1 / cos (vv c U)) / r) zero_of_xyz))
    (ddX_dxdx (init_Coord p Spherical3)).
Lemma cosh_p x : 0 < cosh x. Proof. unfold cosh. assert (A := exp_pos x). assert (B := exp_pos (- x)). lra. Qed.
Lemma sinh_incr x y : x < y -> sinh x < sinh y.
Proof. intros H. unfold sinh. assert (exp x < exp y) by now apply exp_increasing. assert (exp (- y) < exp (- x)) by (apply exp_increasing; lra). lra. Qed.
Lemma sinh_opp x : sinh (- x) = - sinh x. Proof. unfold sinh. rewrite Ropp_involutive. field. Qed.
Lemma sinh_nz c : c <> 0 -> sinh c <> 0.
Proof. intros H. destruct (Rtotal_order c 0) as [L|[E|L]]; [|lra|]; apply sinh_incr in L; rewrite sinh_0 in L; lra. Qed.
Lemma vv_range c U : c <> 0 -> -1 < U < 1 -> - (PI / 2) < vv c U < PI / 2.
Proof.
  intros Hc HU. assert (P := PI_RGT_0). assert (B : -1 < sinh (c * U) / sinh c < 1).
  { assert (W : forall c, 0 < c -> -1 < sinh (c * U) / sinh c < 1).
    { clear c Hc. intros c Hc. assert (S : 0 < sinh c) by (rewrite <- sinh_0; now apply sinh_incr). assert (sinh (c * U) < sinh c) by (apply sinh_incr; nra). assert (sinh (- c) < sinh (c * U)) by (apply sinh_incr; nra). rewrite sinh_opp in *.
      split; apply Rmult_lt_reg_r with (sinh c); auto; unfold Rdiv; rewrite Rmult_assoc, Rinv_l; lra. }
    destruct (Rlt_dec 0 c); [now apply W|]. assert (G : 0 < - c) by lra. apply W in G. replace (- c * U) with (- (c * U)) in G by ring. rewrite !sinh_opp in G. replace (- sinh (c * U) / - sinh c) with (sinh (c * U) / sinh c) in G; auto. field. now apply sinh_nz. }
  unfold vv. replace (PI / 2 * (1 / sinh c) * sinh (c * U)) with (PI / 2 * (sinh (c * U) / sinh c)) by (field; now apply sinh_nz). split; nra.
Qed.
Lemma cos_vv c U : c <> 0 -> -1 < U < 1 -> 0 < cos (vv c U).
Proof. intros. assert (H1 := vv_range c U). apply cos_gt_0; apply H1; auto. Qed.
Lemma sqrt_ch x : sqrt (cosh x ^ 2) = cosh x. Proof. apply sqrt_pow2. left. apply cosh_p. Qed.
Lemma pow_ch x : Power (cosh x ^ 2) (3 / 2) = cosh x ^ 3.
Proof. unfold Power. assert (P := cosh_p x). rewrite <- (Rpower_pow 2), Rpower_mult by auto. rewrite <- (Rpower_pow 3) by auto. f_equal. cbn. field. Qed.
Lemma sqrt_cv c U : c <> 0 -> -1 < U < 1 -> sqrt (1 + cos (vv c U) ^ 2 - sin (vv c U) ^ 2) = sqrt 2 * cos (vv c U).
Proof. intros. assert (P := cos_vv c U). assert (C := cc (vv c U)). replace (1 + _ - _) with (2 * (cos (vv c U) ^ 2)) by lra. rewrite sqrt_mult by nra. f_equal. apply sqrt_pow2. left. now apply P. Qed.
Lemma sqrt22 : sqrt 2 * sqrt 2 = 2. Proof. apply sqrt_sqrt. lra. Qed.
Ltac d3c := unfold x_ofSpherical3, y_ofSpherical3, z_ofSpherical3, dr_Spherical3_dx, dr_Spherical3_dy, dr_Spherical3_dz, dU_Spherical3_dx, dU_Spherical3_dy, dU_Spherical3_dz, dphi_Spherical3_dx, dphi_Spherical3_dy; cbv zeta.
Lemma S3_eq p r U f i m : c_par p <> 0 -> -1 < U < 1 -> dX_dx (init_Coord p Spherical3) i m r U f = dX_dx (S3_cl p) i m r U f.
Proof.
  intros Hc HU. destruct i, m; unf; unfold S3_cl; unf; d3c; unfold Csch, Sec; fold (vv (c_par p) U); rewrite ?sqrt_ch, ?sqrt_cv by auto; auto.
  replace (sqrt 2 / PI * (sqrt 2 * cos (vv (c_par p) U))) with (sqrt 2 * sqrt 2 / PI * cos (vv (c_par p) U)) by (unfold Rdiv; ring). now rewrite sqrt22.
Qed.
Lemma vv_d c U : c <> 0 -> is_derive (vv c) U (PI / 2 * (c * cosh (c * U)) / sinh c).
Proof. intros H. apply is_derive_Reals. unfold vv. eapply dlim_eq; [dv; auto|]. field. now apply sinh_nz. Qed.
#[local] Hint Unfold ddr_Spherical3_dxdx ddr_Spherical3_dxdy ddr_Spherical3_dxdz ddr_Spherical3_dydy ddr_Spherical3_dydz ddr_Spherical3_dzdz ddU_Spherical3_dxdx ddU_Spherical3_dxdy ddU_Spherical3_dxdz ddU_Spherical3_dydy ddU_Spherical3_dydz ddU_Spherical3_dzdz ddphi_Spherical3_dxdx ddphi_Spherical3_dxdy ddphi_Spherical3_dxdz ddphi_Spherical3_dydy ddphi_Spherical3_dydz ddphi_Spherical3_dzdz : dd.
Ltac sid := repeat split; auto; try lra; repeat match goal with |- _ * _ <> 0 => apply Rmult_integral_contrapositive_currified end; auto; try lra; try (apply Rgt_not_eq; assumption).
(** Spherical3: first derivatives at every point with r <> 0 and -1 < U < 1; second derivatives where cos phi <> 0 too, because ddphi_dxdy is written with tan phi *)
Theorem C63_spherical3 p r U phi : c_par p <> 0 -> r <> 0 -> -1 < U < 1 -> inverse_jacobian (init_Coord p Spherical3) r U phi /\ (cos phi <> 0 -> second_derivs (init_Coord p Spherical3) r U phi).
Proof.
  intros Hc Hr HU. assert (P := PI_RGT_0). assert (S := sinh_nz _ Hc). assert (Hv := cos_vv _ _ Hc HU).
  assert (K : inverse_jacobian (S3_cl p) r U phi /\ (cos phi <> 0 -> second_derivs (S3_cl p) r U phi)).
  { revert Hv. unfold S3_cl, init_Coord. set (c := c_par p) in *. cbv zeta. unfold vv, Rdiv. set (v := PI * / 2 * (1 * / sinh c) * sinh (c * U)). intros Hv. assert (Hh := cosh_p (c * U)).
    generalize (cc v) (cc phi). intros C1 C2. assert (C3 : cosh (c * U) * cosh (c * U) = 1 + sinh (c * U) * sinh (c * U)). { unfold cosh, sinh. assert (M : exp (c * U) * exp (- (c * U)) = 1) by (rewrite <- exp_plus, Rplus_opp_r; apply exp_0). field [M]. } split.
    - intros j. destruct j; (eapply inv_intro; [unf; dv; side| unf; dv; side| unf; dv; side|]); intros i; destruct i; unf; fold v; field [C1 C2 C3]; repeat split; lra.
    - intros Hp i m. destruct i, m; (eapply sec_intro; [unf; dv; sid| unf; dv; sid| unf; dv; sid|]);
      intros n; destruct n; unfold d3_le; intros L; cbn in L; try lia; eexists; (split; [unf; reflexivity|]); unf; autounfold with dd; cbv zeta; fold c; rewrite ?sqrt_ch, ?pow_ch;
      unfold Csch, Sec, Sech, tan, tanh, Rdiv; fold v; field [C1 C2 C3]; repeat split; lra. }
  destruct K as [K1 K2]. split; [|intros Hp; specialize (K2 Hp)].
  - eapply inverse_ext; [| |exact K1]; [intros [] x y z; unf; unfold S3_cl; unf; d3c; unfold Csch; replace (PI * (1 / sinh (c_par p)) * sinh (c_par p * y) / 2) with (vv (c_par p) y) by (unfold vv; field; auto); reflexivity|]. intros i m. now apply S3_eq.
  - eapply second_ext; [| | | |exact K2].
    + intros i m. apply loc_all. intros y. now apply S3_eq.
    + intros i m. apply loc_open with (a := -1) (b := 1); auto. intros y Hy. now apply S3_eq.
    + intros i m. apply loc_all. intros y. now apply S3_eq.
    + intros i m n L. destruct i, m, n; unfold d3_le in L; cbn in L; try lia; eexists; eexists; (split; [reflexivity|split; reflexivity]).
Qed.
Print Assumptions C63_spherical3.
Example C63_spherical3_ex : second_derivs (init_Coord (CPars 4 0 2 0) Spherical3) 3 (1 / 2) 0.
Proof. apply C63_spherical3; cbn; try lra. rewrite cos_0. lra. Qed.
