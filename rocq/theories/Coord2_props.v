(** C63 continued: Spherical2, Spherical3, compactSphericalDF, tan_stretch and PolarCE. *)
From Verif Require Import Rutil Coord_model Coord_spec Atten_props Coord_props.
From Coquelicot Require Import Coquelicot.
Local Open Scope R_scope.

(** *** Spherical2 *)
Ltac d2 := unfold x_ofSpherical2, y_ofSpherical2, z_ofSpherical2, dr_Spherical2_dx, dr_Spherical2_dy, dr_Spherical2_dz, dU_Spherical2_dx, dU_Spherical2_dy, dU_Spherical2_dz, dphi_Spherical2_dx, dphi_Spherical2_dy; cbv zeta.
#[local] Hint Unfold ddr_Spherical2_dxdx ddr_Spherical2_dxdy ddr_Spherical2_dxdz ddr_Spherical2_dydy ddr_Spherical2_dydz ddr_Spherical2_dzdz ddU_Spherical2_dxdx ddU_Spherical2_dxdy ddU_Spherical2_dxdz ddU_Spherical2_dydy ddU_Spherical2_dydz ddU_Spherical2_dzdz ddphi_Spherical2_dxdx ddphi_Spherical2_dxdy ddphi_Spherical2_dxdz ddphi_Spherical2_dydy ddphi_Spherical2_dydz ddphi_Spherical2_dzdz : dd.
(** Spherical2: first and second derivatives, off the axis *)
Theorem C63_spherical2 p r U phi : r <> 0 -> -1 < U < 1 -> inverse_jacobian (init_Coord p Spherical2) r U phi /\ second_derivs (init_Coord p Spherical2) r U phi.
Proof.
  intros Hr HU. assert (P : 0 < 1 - U * U) by nra. generalize (cc phi) (sqrt_sqrt _ (Rlt_le _ _ P)). intros C1 C2. assert (P' : 0 < 1 + - (U * U)) by nra.
  assert (Hw := sqrt_lt_R0 _ P). assert (Hw' : sqrt (1 - U * U) <> 0) by lra. 
  assert (HU' : U * U - 1 <> 0) by lra.
  split.
  - intros j. destruct j; (eapply inv_intro; [unf; d2; dv; side| unf; d2; dv; side| unf; d2; dv; side|]); intros i; destruct i; unf; d2; change (1 + - (U * U)) with (1 - U * U); field [C1 C2]; repeat split; auto.
  - intros i m. destruct i, m; (eapply sec_intro; [unf; d2; gd; dv; side| unf; d2; gd; dv; side| unf; d2; gd; dv; side|]);
    intros n; destruct n; unfold d3_le; intros L; cbn in L; try lia; eexists; (split; [unf; reflexivity|]); unf; d2; autounfold with dd; cbv zeta; change (1 + - (U * U)) with (1 - U * U);
    rewrite ?c2, ?sin_2a; field [C1 C2]; repeat split; auto; lra.
Qed.
Print Assumptions C63_spherical2.
Example C63_spherical2_ex : second_derivs (init_Coord (CPars 4 0 0 0) Spherical2) 2 (1 / 2) 5.
Proof. apply C63_spherical2; lra. Qed.

(** *** tan_stretch *)
Lemma loc_pos f x : continuity_pt f x -> 0 < f x -> locally x (fun y => 0 < f y).
Proof. intros C H. apply continuity_pt_locally with (eps := mkposreal _ H) in C. destruct C as [d C]. exists d. intros y B. specialize (C y B). cbn in C. apply Rabs_def2 in C. lra. Qed.
(** the same table without the guards, s <> 0 *)
Definition cl1 (s t : R) : R := 1 / (1 + tan (t * s * PI / 2) * tan (t * s * PI / 2)).
Definition cl2 (s t : R) : R := - PI * s * tan (t * s * PI / 2) * (1 / (1 + tan (t * s * PI / 2) * tan (t * s * PI / 2))) * (1 / (1 + tan (t * s * PI / 2) * tan (t * s * PI / 2))).
Lemma dxs_cl p t : Rabs (t * s_par p) < 1 -> dxs_dx p t = cl1 (s_par p) t /\ ddxs_dxdx p t = cl2 (s_par p) t.
Proof. intros H. unfold dxs_dx, ddxs_dxdx, cl1, cl2. destruct (Rle_dec 1 (Rabs (t * s_par p))); [lra|]. split; reflexivity. Qed.
Lemma dxs_loc p t : Rabs (t * s_par p) < 1 -> locally t (fun y => dxs_dx p y = cl1 (s_par p) y).
Proof.
  intros H. destruct (loc_pos (fun y => 1 - Rabs (y * s_par p)) t) as [d D]; [|lra|exists d; intros y B; apply dxs_cl; specialize (D y B); cbn beta in D; lra].
  apply continuity_pt_minus; [apply continuity_pt_const; now intros ? ?|]. apply (continuity_pt_comp (fun y => y * s_par p) Rabs); [|apply Rcontinuity_abs].
  apply continuity_pt_mult; [apply derivable_continuous_pt; apply derivable_pt_id|apply continuity_pt_const; now intros ? ?].
Qed.
Lemma pi_range s t : Rabs (t * s) < 1 -> - PI / 2 < t * s * PI / 2 < PI / 2.
Proof. intros H. apply Rabs_def2 in H. assert (P := PI_RGT_0). split; nra. Qed.
Lemma x_of_d p t : Rabs (t * s_par p) < 1 -> derivable_pt_lim (x_of_xs p) t (1 + tan (t * s_par p * PI / 2) * tan (t * s_par p * PI / 2)).
Proof.
  intros H. unfold x_of_xs. assert (P := PI_RGT_0). destruct (Req_EM_T (s_par p) 0) as [E|E].
  - rewrite E. replace (t * 0 * PI / 2) with 0 by field. rewrite tan_0. replace (1 + 0 * 0) with 1 by ring. apply derivable_pt_lim_id.
  - apply pi_range in H. eapply dlim_eq; [dv; exact H|]. unfold Rdiv; field. lra.
Qed.
Lemma dxs_d p t : Rabs (t * s_par p) < 1 -> derivable_pt_lim (dxs_dx p) t (- PI * s_par p * tan (t * s_par p * PI / 2) * (1 / (1 + tan (t * s_par p * PI / 2) * tan (t * s_par p * PI / 2)))).
Proof.
  intros H. eapply dlim_locally; [now apply dxs_loc|]. unfold cl1. apply pi_range in H. 
  assert (Q : 1 + tan (t * s_par p * PI / 2) * tan (t * s_par p * PI / 2) <> 0) by nra.
  eapply dlim_eq; [dv; repeat split; auto; try apply H; try exact Q|]. unfold Rdiv in *; field. auto.
Qed.
(** tan_stretch: first and second derivatives, wherever |xs s| < 1 *)
Theorem C63_tan_stretch p X Y Z : Rabs (X * s_par p) < 1 -> Rabs (Y * s_par p) < 1 -> Rabs (Z * s_par p) < 1 -> inverse_jacobian (init_Coord p tan_stretch) X Y Z /\ second_derivs (init_Coord p tan_stretch) X Y Z.
Proof.
  intros HX HY HZ. assert (Q : forall t, 1 + tan t * tan t <> 0) by (intros; nra).
  assert (DX := proj1 (dxs_cl p X HX)). assert (DY := proj1 (dxs_cl p Y HY)). assert (DZ := proj1 (dxs_cl p Z HZ)).
  assert (EX := proj2 (dxs_cl p X HX)). assert (EY := proj2 (dxs_cl p Y HY)). assert (EZ := proj2 (dxs_cl p Z HZ)).
  split.
  - intros j. destruct j; (eapply inv_intro; [unf; unfold x_of_tan_stretch, y_of_tan_stretch, z_of_tan_stretch; first [apply const_d|now apply (x_of_d p)] ..|]); intros i; destruct i; unf; unfold dxs_dx_tan_stretch, dys_dy_tan_stretch, dzs_dz_tan_stretch; rewrite ?DX, ?DY, ?DZ; unfold cl1; field; auto.
  - intros i m. destruct i, m; (eapply sec_intro; [unf; unfold dxs_dx_tan_stretch, dys_dy_tan_stretch, dzs_dz_tan_stretch; first [apply const_d|now apply (dxs_d p)] ..|]);
    intros n; destruct n; unfold d3_le; intros L; cbn in L; try lia; eexists; (split; [unf; reflexivity|]); unf;
    unfold dxs_dx_tan_stretch, dys_dy_tan_stretch, dzs_dz_tan_stretch, ddxs_dxdx_tan_stretch, ddys_dydy_tan_stretch, ddzs_dzdz_tan_stretch; rewrite ?DX, ?DY, ?DZ, ?EX, ?EY, ?EZ; unfold cl1, cl2; field; auto.
Qed.
Print Assumptions C63_tan_stretch.
Example C63_tan_stretch_ex : second_derivs (init_Coord (CPars 4 0 0 1) tan_stretch) (1 / 2) 0 (- 1 / 3).
Proof. apply C63_tan_stretch; cbn; apply Rabs_def1; lra. Qed.

(** *** PolarCE *)
Lemma acos_d x : -1 < x < 1 -> derivable_pt_lim acos x (- 1 / sqrt (1 - x * x)).
Proof. intros H. change (x * x) with (Rsqr x). rewrite <- (derive_pt_acos x H). apply derive_pt_eq_1 with (derivable_pt_acos x H). reflexivity. Qed.
#[global] Instance UD_acos : UnaryDiff' acos.
Proof. exists (fun x => - 1 / sqrt (1 - x * x)) (fun x => -1 < x < 1). intros x H. apply is_derive_Reals. now apply acos_d. Defined.
(** PolarCE: the rows of Y and Z are right for 0 < Y < 2 PI and at least 3 points *)
Theorem C63_polarCE_partial p rho Y Z : (3 <= n2 p)%nat -> 0 < rho -> 0 < Y < 2 * PI ->
  forall j, exists J : d3 -> R, (forall k, pd (x_of_X (init_Coord p PolarCE) k) j rho Y Z (J k)) /\
    forall i, i <> D1 -> S3 (fun k => dX_dx (init_Coord p PolarCE) i k rho Y Z * J k) = delta i j.
Proof.
  intros Hn Hr HY j. assert (P := PI_RGT_0). assert (N : 2 <= N_CE p). { unfold N_CE. apply le_INR in Hn. cbn in Hn. lra. }
  assert (R : -1 < 1 - Y / PI < 1). { split; [assert (Y / PI < 2)|assert (0 < Y / PI)]; try lra; [apply Rmult_lt_reg_r with PI; auto; unfold Rdiv; rewrite Rmult_assoc, Rinv_l; lra|]. apply Rdiv_lt_0_compat; lra. }
  set (y := 1 - Y / PI) in *. assert (P1 : 0 < 1 - y * y) by nra. assert (W := sqrt_lt_R0 _ P1). assert (C2 := sqrt_sqrt _ (Rlt_le _ _ P1)).
  assert (SA : sin (acos y) = sqrt (1 - y * y)) by (apply sin_acos; lra).
  set (u := N_CE p) in *. assert (Hd : u - 1 <> 0 /\ u <> 0) by lra. assert (E : phi_CE p Y = 2 * u / (u - 1) * acos y) by reflexivity.
  assert (S : (u - 1) / (2 * u) * phi_CE p Y = acos y) by (rewrite E; field; lra). assert (C1 := cc (phi_CE p Y)).
  destruct j.
  - exists (tab (cos (phi_CE p Y)) (sin (phi_CE p Y)) 0). split; [intros []; unf|].
    + unfold x_ofPolarCE. eapply dlim_eq; [dv; auto|ring].
    + unfold y_ofPolarCE. eapply dlim_eq; [dv; auto|ring].
    + apply const_d.
    + intros [] Hi; [congruence| |]; unf; unfold dYPolarCE_dx, dYPolarCE_dy, dphi_dx, dphi_dy; rewrite ?guard_lt by auto; field; lra.
  - set (q := 2 * u / (u - 1) * / PI * / sqrt (1 - y * y)).
    assert (Dp : derivable_pt_lim (phi_CE p) Y q).
    { unfold phi_CE. fold u. eapply dlim_eq; [dv; repeat split; auto; apply R|]. change (1 + - (Y * / PI)) with y. unfold q. change (1 - Y / PI) with y. field. repeat split; lra. }
    exists (tab (- rho * sin (phi_CE p Y) * q) (rho * cos (phi_CE p Y) * q) 0). split; [intros []; unf|].
    + unfold x_ofPolarCE. eapply dlim_eq; [apply (derivable_pt_lim_scal (fun t => cos (phi_CE p t))); apply (derivable_pt_lim_comp (phi_CE p) cos); [exact Dp|apply derivable_pt_lim_cos]|ring].
    + unfold y_ofPolarCE. eapply dlim_eq; [apply (derivable_pt_lim_scal (fun t => sin (phi_CE p t))); apply (derivable_pt_lim_comp (phi_CE p) sin); [exact Dp|apply derivable_pt_lim_sin]|ring].
    + apply const_d.
    + intros [] Hi; [congruence| |]; unf; unfold dYPolarCE_dx, dYPolarCE_dy, dphi_dx, dphi_dy; rewrite ?guard_lt by auto; [|ring].
      unfold dY_dphi_CE. fold u. rewrite S, SA. unfold q. field [C1]. repeat split; lra.
  - exists (tab 0 0 1). split; [intros []; unf; unfold x_ofPolarCE, y_ofPolarCE; [apply const_d|apply const_d|exact (derivable_pt_lim_id Z)]|]. intros [] Hi; [congruence| |]; unf; ring.
Qed.
Print Assumptions C63_polarCE_partial.
Example C63_polarCE_partial_ex : (3 <= n2 (CPars 4 0 0 0))%nat /\ 0 < 1 /\ 0 < PI < 2 * PI.
Proof. assert (P := PI_RGT_0). cbn. repeat split; lra || lia. Qed.
(** The row of rho is not: the table uses drho_dx and drho_dy, which take the cosine and sine of Y and not of phi.  With n2 = 4, at Y = PI, the derivative of rho in the radial direction comes out as 0, not 1. *)
Theorem C63_polarCE_refuted : exists p rho Y Z, (3 <= n2 p)%nat /\ 0 < rho /\ 0 < Y < 2 * PI /\ ~ inverse_jacobian (init_Coord p PolarCE) rho Y Z.
Proof.
  assert (P := PI_RGT_0). exists (CPars 4 0 0 0), 1, PI, 0. split; [cbn; lia|]. split; [lra|]. split; [lra|]. intros H. destruct (H D1) as (J & A & B).
  assert (E : phi_CE (CPars 4 0 0 0) PI = PI + PI / 2). { unfold phi_CE, N_CE. cbn. replace (1 - PI / PI) with 0 by (field; lra). rewrite acos_0. field. }
  assert (J1 : J D1 = cos (PI + PI / 2)). { assert (A1 := A D1). revert A1. unf. unfold x_ofPolarCE. rewrite E. intros A1. eapply uniqueness_limite; [exact A1|]. eapply dlim_eq; [dv; auto|ring]. }
  assert (J2 : J D2 = sin (PI + PI / 2)). { assert (A1 := A D2). revert A1. unf. unfold y_ofPolarCE. rewrite E. intros A1. eapply uniqueness_limite; [exact A1|]. eapply dlim_eq; [dv; auto|ring]. }
  specialize (B D1). revert B. unf. unfold drho_dx, drho_dy. rewrite J1, J2. replace (cos (PI + PI / 2)) with 0; [|rewrite cos_plus, cos_PI2, sin_PI; ring]. rewrite sin_PI. lra.
Qed.
Print Assumptions C63_polarCE_refuted.
