(** C91: what the choices of lapse and shift in BSSN_rhs keep constant. *)
From Verif Require Import Rutil Coord_model Coord_spec Bssn_model Bssn_props.
Local Open Scope R_scope.
Local Ltac fl := repeat match goal with H : s_flag _ _ = _ |- _ => rewrite H; clear H end.
Lemma flat a : s_dt a = 0 -> bs_addlinear a = false.
Proof. intros H. unfold bs_addlinear. destruct (Req_EM_T (s_dt a) 0); auto. contradiction. Qed.
(** the lapse and log of the conformal factor, moved along the rates the code returns *)
Definition lapse_at (a : bs_in) (t : R) : R := s_u a 17 + t * bs_new a 17.
Definition phi_at (a : bs_in) (t : R) : R := s_u a 6 + t * bs_new a 6.
Lemma rates a : s_dt a = 0 -> s_flag a FdensitizedLapse = false -> s_flag a FGentlePhiRHS = false -> bs_new a 17 = bs_ralpha a /\ bs_new a 6 = bs_rphi a.
Proof. intros D H G. pose proof (flat a D) as L. cbn [bs_new]. unfold bs_nalpha_7, bs_nalpha_6, bs_nalpha_5, bs_nphi_3, bs_nphi_2, bs_rphi_3. rewrite L, H, G. split; reflexivity. Qed.
(** with a 1+log or harmonic lapse whose equation includes the shift, a function of the lapse and of the volume element stays constant in time *)
Theorem C91_lapse a : s_dt a = 0 -> s_flag a FdensitizedLapse = false -> s_flag a FGentlePhiRHS = false ->
  s_flag a Fnonconstantlapse = true -> s_flag a Foplogwithshift = true -> s_flag a FsubtractK0 = false -> s_flag a Faddliealpha = false -> s_flag a FaddalphaRHSterm = false -> s_par a Plapsepsipower = 0 -> 0 < s_psi a 0 ->
  (s_flag a Foploglapse = true -> s_flag a Foploglapse2 = false -> s_flag a Fharmoniclapse = false ->
     derivable_pt_lim (fun t => lapse_at a t - s_par a Plapseharmonicf * ln (exp (6 * phi_at a t))) 0 0) /\
  (s_flag a Foploglapse = false -> s_flag a Foploglapse2 = true -> s_flag a Fharmoniclapse = false -> s_u a 17 <> 3 ->
     derivable_pt_lim (fun t => 9 / 8 * lapse_at a t - 3 / 16 * lapse_at a t ^ 2 - ln (exp (6 * phi_at a t))) 0 0) /\
  (s_flag a Foploglapse = false -> s_flag a Foploglapse2 = false -> s_flag a Fharmoniclapse = true ->
     derivable_pt_lim (fun t => lapse_at a t / exp (6 * phi_at a t)) 0 0).
Proof.
  intros D DL GP NL OS SK AL AR LP PS. destruct (rates a D DL GP) as (E1 & E2).
  assert (R0 : bs_ralpha0 a = 6 * bs_rphi a). { unfold bs_ralpha0, bs_rphi, bs_oplogwithshift, bs_subtractK0, bs_lapsepsipower. rewrite OS, SK, LP, Rpower_O by exact PS. field. }
  assert (RA : bs_ralpha a = 6 * bs_rphi a * ((bs_lapseharmonicf a) * (bs_oploglapse a) + (8 * (bs_oploglapse2 a)) / (9 - 3 * (bs_alpha a)) + (bs_harmoniclapse a) * (bs_alpha a))). { unfold bs_ralpha, bs_addliealpha, bs_nonconstantlapse, bs_addalphaRHSterm. rewrite AL, NL, AR, R0. ring. }
  assert (HA : derivable_pt_lim (lapse_at a) 0 (bs_ralpha a)). { unfold lapse_at. rewrite E1. apply dl_line. }
  assert (HP : derivable_pt_lim (fun t => 6 * phi_at a t) 0 (6 * bs_rphi a)). { apply (derivable_pt_lim_scal (phi_at a)). unfold phi_at. rewrite E2. apply dl_line. }
  assert (HL : derivable_pt_lim (fun t => ln (exp (6 * phi_at a t))) 0 (6 * bs_rphi a)). { apply (derivable_pt_lim_ext (fun t => 6 * phi_at a t)); [|exact HP]. intros t. now rewrite ln_exp. }
  assert (L0 : lapse_at a 0 = bs_alpha a) by (unfold lapse_at, bs_alpha; ring).
  split; [|split].
  - intros O1 O2 O3. eapply dl_val; [|apply (derivable_pt_lim_minus (lapse_at a) (fun t => s_par a Plapseharmonicf * ln (exp (6 * phi_at a t)))); [exact HA|apply (derivable_pt_lim_scal (fun t => ln (exp (6 * phi_at a t)))), HL]].
    rewrite RA. unfold bs_oploglapse, bs_oploglapse2, bs_harmoniclapse, bs_lapseharmonicf. rewrite O1, O2, O3. unfold Rdiv. ring.
  - intros O1 O2 O3 N3. assert (N : 9 - 3 * bs_alpha a <> 0) by (unfold bs_alpha; lra). eapply dl_val; [|apply (derivable_pt_lim_minus (fun t => 9 / 8 * lapse_at a t - 3 / 16 * lapse_at a t ^ 2) (fun t => ln (exp (6 * phi_at a t)))); [apply (derivable_pt_lim_minus (fun t => 9 / 8 * lapse_at a t) (fun t => 3 / 16 * lapse_at a t ^ 2)); [apply (derivable_pt_lim_scal (lapse_at a)), HA|apply (derivable_pt_lim_scal (fun t => lapse_at a t ^ 2)); apply (derivable_pt_lim_comp (lapse_at a) (fun x => x ^ 2)); [exact HA|apply derivable_pt_lim_pow]]|exact HL]].
    rewrite RA, L0. unfold bs_oploglapse, bs_oploglapse2, bs_harmoniclapse. rewrite O1, O2, O3. cbn [INR pred pow]. field. exact N.
  - intros O1 O2 O3. apply (derivable_pt_lim_ext (fun t => lapse_at a t * exp (- (6 * phi_at a t)))). { intros t. unfold Rdiv. now rewrite exp_Ropp. }
    eapply dl_val; [|apply (derivable_pt_lim_mult (lapse_at a) (fun t => exp (- (6 * phi_at a t)))); [exact HA|apply (derivable_pt_lim_comp (fun t => - (6 * phi_at a t)) exp); [apply (derivable_pt_lim_opp (fun t => 6 * phi_at a t)), HP|apply derivable_pt_lim_exp]]].
    rewrite RA, L0. unfold bs_oploglapse, bs_oploglapse2, bs_harmoniclapse. rewrite O1, O2, O3. unfold Rdiv. ring.
Qed.
(** the lapse and the shift are left alone if they are not to be evolved; with the Gamma driver the shift follows B, and B minus the connection function decays *)
Theorem C91_shift a i : s_dt a = 0 -> (i < 3)%nat ->
  (s_flag a FdensitizedLapse = false -> s_flag a Fnonconstantlapse = false -> s_flag a Faddliealpha = false -> s_flag a FaddalphaRHSterm = false -> bs_new a 17 = 0) /\
  (s_flag a Fevolveshift = false -> bs_new a (18 + i) = 0 /\ bs_new a (21 + i) = 0) /\
  (s_flag a Fevolveshift = true -> s_flag a Fgamma0factor = true -> s_flag a Fgamma2factor = false ->
     bs_new a (18 + i) = s_par a Pshiftgammacoeff * Rpower (s_u a 17) (s_par a Pshiftalphapower) / Rpower (s_psi a 0) (s_par a Pshiftpsipower) * s_u a (21 + i) /\
     forall f, derivable_pt_lim (fun t => f + t * bs_new a (21 + i) - (t * bs_new a (14 + i))) 0 (- s_par a Pshiftdriver * s_u a (21 + i))) /\
  (s_flag a Fevolveshift = true -> s_flag a Fgamma0factor = false -> s_flag a Fgamma2factor = true ->
     bs_new a (18 + i) = s_u a (21 + i) /\
     bs_new a (21 + i) = s_par a Pshiftgammacoeff * Rpower (s_u a 17) (s_par a Pshiftalphapower) / Rpower (s_psi a 0) (s_par a Pshiftpsipower) * bs_new a (14 + i) - s_par a Pshiftdriver * s_u a (21 + i)).
Proof.
  intros D Li. pose proof (flat a D) as L.
  assert (NB : bs_new a (18 + i) = bs_evolveshift a * (bs_betaF a * bs_gamma0factor a + bs_gamma2factor a) * s_u a (21 + i)).
  { do 3 (destruct i as [|i]; [cbn [Nat.add bs_new]; unfold bs_nbeta1_3, bs_nbeta2_3, bs_nbeta3_3; rewrite L; reflexivity|]). lia. }
  assert (NN : bs_new a (21 + i) = bs_evolveshift a * ((bs_gamma0factor a + bs_betaF a * bs_gamma2factor a) * bs_new a (14 + i) - bs_shiftdriver a * s_u a (21 + i))).
  { do 3 (destruct i as [|i]; [cbn [Nat.add bs_new]; unfold bs_nB1_3, bs_nB2_3, bs_nB3_3, bs_nG1_3, bs_nG2_3, bs_nG3_3; rewrite L; reflexivity|]). lia. }
  split; [|split; [|split]].
  - intros DL F1 F2 F3. cbn [bs_new]. unfold bs_nalpha_7, bs_nalpha_6, bs_nalpha_5. rewrite L, DL. unfold bs_nalpha_5, bs_ralpha, bs_addliealpha, bs_nonconstantlapse, bs_addalphaRHSterm. rewrite F1, F2, F3. ring.
  - intros F. rewrite NB, NN. unfold bs_evolveshift. rewrite F. split; ring.
  - intros F G0 G2. rewrite NB, NN. unfold bs_evolveshift, bs_gamma0factor, bs_gamma2factor. rewrite F, G0, G2. split; [unfold bs_betaF, bs_shiftgammacoeff, bs_shiftalphapower, bs_shiftpsipower, bs_alpha, bs_psi; ring|].
    intros f. set (g := bs_new a (14 + i)). apply (derivable_pt_lim_ext (fun t => f + t * (- s_par a Pshiftdriver * s_u a (21 + i)))); [intros t; unfold bs_shiftdriver; ring|apply dl_line].
  - intros F G0 G2. rewrite NB, NN. unfold bs_evolveshift, bs_gamma0factor, bs_gamma2factor. rewrite F, G0, G2. split; [ring|]. unfold bs_betaF, bs_shiftgammacoeff, bs_shiftalphapower, bs_shiftpsipower, bs_alpha, bs_psi, bs_shiftdriver; ring.
Qed.
Print Assumptions C91_lapse.
Print Assumptions C91_shift.
(** a case with a collapsing lapse, alpha = 2, K = 3 and no shift *)
Definition in91 : bs_in := MkBs 0 (fun n => if (n =? 0)%nat then 1 else 0) (fun n => if (n =? 17)%nat then 2 else if (n =? 13)%nat then 3 else 0) (fun _ => 0) (fun _ => 0) (fun _ => 0) (fun _ => 0) (fun _ => 0) (fun _ => 0) (fun _ => 0) (fun _ => 0) (fun _ => 0) (fun _ => 0) (fun _ => 0) (fun _ => 0) 0 0
  (fun f => match f with FforceKzerofactor | Fnonconstantlapse | Foplogwithshift | Foploglapse => true | _ => false end) (fun p => match p with Plapseharmonicf => 2 | _ => 0 end).
Example C91_case : s_dt in91 = 0 /\ s_flag in91 FdensitizedLapse = false /\ s_flag in91 FGentlePhiRHS = false /\
  s_flag in91 Fnonconstantlapse = true /\ s_flag in91 Foplogwithshift = true /\ s_flag in91 FsubtractK0 = false /\ s_flag in91 Faddliealpha = false /\ s_flag in91 FaddalphaRHSterm = false /\ s_par in91 Plapsepsipower = 0 /\ 0 < s_psi in91 0 /\
  s_flag in91 Foploglapse = true /\ bs_new in91 17 = - 12.
Proof.
  repeat split; try reflexivity; [cbn; lra|]. destruct (rates in91 eq_refl eq_refl eq_refl) as (-> & _). unfold bs_ralpha, bs_ralpha0, bs_liephi, bs_betadf_2, bs_betadf, bs_divbeta. cbv beta delta [bs_addliealpha bs_nonconstantlapse bs_addalphaRHSterm bs_oplogwithshift bs_subtractK0 bs_oploglapse bs_oploglapse2 bs_harmoniclapse bs_lapsepsipower bs_lapseharmonicf bs_K_2 bs_forceKzerofactor bs_K bs_alpha bs_psi bs_K0 bs_alphaRHS bs_db11 bs_db22 bs_db33 bs_dbeta11 bs_dbeta22 bs_dbeta33 bs_beta1 bs_beta2 bs_beta3 bs_dphi1 bs_dphi2 bs_dphi3 bs_dpop1 bs_dpop2 bs_dpop3 bs_betadalp]. cbn. rewrite Rpower_O by lra. field.
Qed.
