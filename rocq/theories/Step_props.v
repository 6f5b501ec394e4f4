(** C89: one time step of the BSSN variables. *)
From Verif Require Import Rutil Coord_model Coord_spec Adm_model Adm_spec Adm2_proofs Conv_spec Conv_props Bssn_model.
Local Open Scope R_scope.
(** the same input with another time step, or with some switches off *)
Definition set_dt (a : bs_in) (t : R) : bs_in := MkBs (s_K0 a) (s_psi a) (s_u a) (s_pre a) (s_dg a) (s_ddg a) (s_dA a) (s_dphi a) (s_ddphi a) (s_dG a) (s_dK a) (s_dalp a) (s_ddalp a) (s_dbeta a) (s_ddbeta a) (s_rhs a) t (s_flag a) (s_par a).
Definition set_flags (a : bs_in) (f : bflag -> bool) : bs_in := MkBs (s_K0 a) (s_psi a) (s_u a) (s_pre a) (s_dg a) (s_ddg a) (s_dA a) (s_dphi a) (s_ddphi a) (s_dG a) (s_dK a) (s_dalp a) (s_ddalp a) (s_dbeta a) (s_ddbeta a) (s_rhs a) (s_dt a) f (s_par a).
Definition not_normalised (a : bs_in) : bs_in := set_flags a (fun f => match f with Fnormalizedetg => false | f => s_flag a f end).
Lemma add_t a : s_dt a <> 0 -> bs_addlinear a = true. Proof. unfold bs_addlinear. destruct (Req_EM_T (s_dt a) 0); [contradiction|reflexivity]. Qed.
Lemma add_0 a : bs_addlinear (set_dt a 0) = false. Proof. unfold bs_addlinear. cbn [set_dt s_dt]. destruct (Req_EM_T 0 0); [reflexivity|contradiction]. Qed.
Lemma cases24 (P : nat -> Prop) : P 0%nat -> P 1%nat -> P 2%nat -> P 3%nat -> P 4%nat -> P 5%nat -> P 6%nat -> P 7%nat -> P 8%nat -> P 9%nat -> P 10%nat -> P 11%nat -> P 12%nat -> P 13%nat -> P 14%nat -> P 15%nat -> P 16%nat -> P 17%nat -> P 18%nat -> P 19%nat -> P 20%nat -> P 21%nat -> P 22%nat -> P 23%nat -> forall n, (n < 24)%nat -> P n.
Proof. intros. do 24 (destruct n as [|n]; [assumption|]). lia. Qed.
Ltac step_K F6 := match goal with |- bs_nK ?a = _ => unfold bs_nK, bs_nK_2, bs_forceKzerofactor; cbn [set_dt s_flag]; rewrite F6; rewrite !Rmult_1_l; change (bs_rK (set_dt a 0)) with (bs_rK a); unfold bs_dt, bs_pK; ring end.
Ltac step_lin := match goal with |- _ = ?p + ?d * ?r (set_dt ?a 0) => unfold r; match goal with |- ?l ?a = _ + _ * ?q (set_dt ?a 0) => change (q (set_dt a 0)) with (q a); unfold l; rewrite Rplus_comm; reflexivity end end.
(** ** a step adds dt times the right hand side to the previous values *)
Theorem C89_step a n : s_dt a <> 0 -> s_flag a FrecomputeAzz = false -> s_flag a Frecomputegzz = false -> s_flag a FsubtractA = false -> s_flag a Fnormalizedetg = false -> s_flag a FdensitizedLapse = false -> s_flag a FforceKzerofactor = true ->
  (n < 24)%nat -> bs_new a n = s_pre a n + s_dt a * bs_new (set_dt a 0) n.
Proof.
  intros T F1 F2 F3 F4 F5 F6 L. assert (A1 := add_t a T). assert (A0 := add_0 a). revert n L. apply cases24;
    cbv beta iota delta [bs_new bs_ng11_5 bs_ng12_5 bs_ng13_5 bs_ng22_5 bs_ng23_5 bs_ng33_7 bs_nphi_3 bs_nA11_5 bs_nA12_5 bs_nA13_5 bs_nA22_5 bs_nA23_5 bs_nA33_7 bs_nK_3 bs_nG1_3 bs_nG2_3 bs_nG3_3 bs_nalpha_7 bs_nbeta1_3 bs_nbeta2_3 bs_nbeta3_3 bs_nB1_3 bs_nB2_3 bs_nB3_3];
    rewrite A1, A0;
    cbv beta iota delta [bs_ng11_3 bs_ng12_3 bs_ng13_3 bs_ng22_3 bs_ng23_3 bs_ng33_5 bs_ng33_3 bs_nA11_3 bs_nA12_3 bs_nA13_3 bs_nA22_3 bs_nA23_3 bs_nA33_5 bs_nA33_3 bs_nalpha_3 bs_nalpha_6]; cbn [set_dt s_flag]; rewrite ?F1, ?F2, ?F3, ?F4, ?F5.
  all: try (step_K F6).
  all: step_lin.
Qed.
Print Assumptions C89_step.
(** ** the algebraic constraints *)
Section A.
Variable a : bs_in.
Hypothesis T : s_dt a <> 0.
Let A1 : bs_addlinear a = true := add_t a T.
Let A2 : bs_addlinear (not_normalised a) = true := add_t (not_normalised a) T.
Definition gl (n : nat) : R := match n with 0 => bs_ng11 a | 1 => bs_ng12 a | 2 => bs_ng13 a | 3 => bs_ng22 a | 4 => bs_ng23 a | _ => bs_ng33_3 a end%nat.
Definition Al (n : nat) : R := match n with 0 => bs_nA11 a | 1 => bs_nA12 a | 2 => bs_nA13 a | 3 => bs_nA22 a | 4 => bs_nA23 a | _ => bs_nA33_3 a end%nat.
Lemma gl_n n : (n < 6)%nat -> bs_new (not_normalised a) n = gl n.
Proof. intros L. do 6 (destruct n as [|n]; [cbn [bs_new gl]; cbv beta iota delta [bs_ng11_5 bs_ng12_5 bs_ng13_5 bs_ng22_5 bs_ng23_5 bs_ng33_7]; rewrite A2; reflexivity|]). lia. Qed.
Lemma gl_s i j : sym (bs_new (not_normalised a)) i j = sym gl i j.
Proof. unfold sym. apply gl_n. destruct i, j; cbn; lia. Qed.
Lemma gl_new n : (n < 6)%nat -> bs_new a n = (if s_flag a Fnormalizedetg then bs_aux_2 a else 1) * gl n.
Proof.
  intros L. do 6 (destruct n as [|n]; [cbn [bs_new gl]; cbv beta iota delta [bs_ng11_5 bs_ng12_5 bs_ng13_5 bs_ng22_5 bs_ng23_5 bs_ng33_7]; rewrite A1; cbv beta iota delta [bs_ng11_3 bs_ng12_3 bs_ng13_3 bs_ng22_3 bs_ng23_3 bs_ng33_5]; destruct (s_flag a Fnormalizedetg); [reflexivity|symmetry; apply Rmult_1_l]|]). lia.
Qed.
Lemma det_gl : bs_detnginv a = / det (sym gl).
Proof. unfold bs_detnginv, Rdiv. rewrite Rmult_1_l. f_equal. unfold det, sym, pow2. cbn [s6 gl]. ring. Qed.
Hypothesis P : 0 < det (sym (bs_new (not_normalised a))).
Lemma P' : 0 < det (sym gl). Proof. revert P. unfold det. now rewrite !gl_s. Qed.
Let c := if s_flag a Fnormalizedetg then bs_aux_2 a else 1.
Lemma c_p : 0 < c /\ (s_flag a Fnormalizedetg = true -> c * c * c * det (sym gl) = 1).
Proof.
  unfold c. destruct (s_flag a Fnormalizedetg); [|split; [lra|discriminate]]. unfold bs_aux_2. rewrite det_gl. pose proof (cube_root _ P') as Q. cbv zeta in Q. assert (E : Rpower (/ det (sym gl)) (1 / 3) = Rpower (det (sym gl)) (- (1 / 3))). { unfold Rpower. f_equal. rewrite ln_Rinv by apply P'. ring. }
  rewrite E. split; intros; apply Q.
Qed.
Lemma new_sym i j : sym (bs_new a) i j = c * sym gl i j.
Proof. unfold sym. apply gl_new. destruct i, j; cbn; lia. Qed.
Lemma step_normal : conformal (sym (bs_new (not_normalised a))) (sym (bs_new a)) /\ (s_flag a Fnormalizedetg = true -> det (sym (bs_new a)) = 1).
Proof.
  destruct c_p as [C1 C2]. split.
  - exists (/ c). split; [now apply Rinv_0_lt_compat|]. intros i j. rewrite gl_s, new_sym. field. lra.
  - intros Q. rewrite <- (C2 Q). rewrite <- det_scale. unfold det. now rewrite !new_sym.
Qed.
Lemma A_new n : (n < 6)%nat -> bs_new a (7 + n) = Al n + (if s_flag a FsubtractA then bs_aux a * gl n else 0).
Proof.
  intros L. do 6 (destruct n as [|n]; [cbn [bs_new gl Al Nat.add]; cbv beta iota delta [bs_nA11_5 bs_nA12_5 bs_nA13_5 bs_nA22_5 bs_nA23_5 bs_nA33_7]; rewrite A1; cbv beta iota delta [bs_nA11_3 bs_nA12_3 bs_nA13_3 bs_nA22_3 bs_nA23_3 bs_nA33_5]; destruct (s_flag a FsubtractA); [reflexivity|symmetry; apply Rplus_0_r]|]). lia.
Qed.
Lemma tr_gl : bs_traceA a = SS (fun i j => adj (sym gl) i j * sym Al i j) / det (sym gl).
Proof. unfold bs_traceA. rewrite det_gl. unfold SS, S3, adj, sym, pow2, Rdiv. cbn [suc s6 gl Al]. ring. Qed.
Lemma Azz : s_flag a FrecomputeAzz = true -> gl 0 * gl 3 - gl 1 * gl 1 <> 0 -> SS (fun i j => adj (sym gl) i j * sym Al i j) = 0.
Proof.
  intros Q N. pose proof P' as PP. unfold SS, S3, adj, sym. cbn [suc s6 gl Al]. unfold bs_nA33_3. rewrite Q. unfold bs_nA33_2, bs_nAdu11, bs_nAdu22, bs_nginv11, bs_nginv12, bs_nginv13, bs_nginv22, bs_nginv23, bs_nginv33. rewrite det_gl. cbn [gl] in N. unfold pow2. set (d := det (sym gl)) in *. clearbody d. field. repeat split; first [lra|exact N].
Qed.
Lemma step_trace : s_flag a FsubtractA = true \/ s_flag a FrecomputeAzz = true /\ bs_new a 0 * bs_new a 3 - bs_new a 1 * bs_new a 1 <> 0 -> tracefree (sym (bs_new a)) (sym (fun n => bs_new a (7 + n))).
Proof.
  intros H. destruct c_p as [C1 C2]. pose proof P' as PP.
  assert (NZ : det (sym (bs_new a)) <> 0). { replace (det (sym (bs_new a))) with (c * c * c * det (sym gl)) by (rewrite <- det_scale; unfold det; now rewrite !new_sym). repeat apply Rmult_integral_contrapositive_currified; lra. }
  apply tracefree_iff; [exact NZ|]. set (s := if s_flag a FsubtractA then bs_aux a else 0).
  assert (EA : forall i j, sym (fun n => bs_new a (7 + n)) i j = sym Al i j + s * sym gl i j). { intros i j. unfold sym. rewrite A_new by (destruct i, j; cbn; lia). unfold s. destruct (s_flag a FsubtractA); ring. }
  transitivity (c * c * (SS (fun i j => adj (sym gl) i j * sym Al i j) + s * (3 * det (sym gl)))).
  { unfold SS, S3. rewrite !EA. unfold adj. rewrite !new_sym. unfold det, sym. cbn [suc s6]. ring. }
  apply Rmult_eq_0_compat_l. unfold s. destruct (s_flag a FsubtractA) eqn:FA.
  - unfold bs_aux. rewrite tr_gl. field. lra.
  - destruct H as [H|[H1 H2]]; [discriminate|]. rewrite Azz; [ring|exact H1|]. intros Q. apply H2. rewrite !gl_new by lia. fold c. transitivity (c * c * (gl 0 * gl 3 - gl 1 * gl 1)); [ring|]. rewrite Q. ring.
Qed.
End A.
(** with normalizedetg the new metric has unit determinant and is conformal to the one without; with subtractA, or with recomputeAzz, the new A is trace free with respect to the new metric *)
Theorem C89_constraints a : s_dt a <> 0 -> 0 < det (sym (bs_new (not_normalised a))) ->
  conformal (sym (bs_new (not_normalised a))) (sym (bs_new a)) /\ (s_flag a Fnormalizedetg = true -> det (sym (bs_new a)) = 1) /\
  (s_flag a FsubtractA = true \/ s_flag a FrecomputeAzz = true /\ bs_new a 0 * bs_new a 3 - bs_new a 1 * bs_new a 1 <> 0 -> tracefree (sym (bs_new a)) (sym (fun n => bs_new a (7 + n)))).
Proof. intros T P. destruct (step_normal a T P) as [S1 S2]. repeat split; auto. now apply step_trace. Qed.
Print Assumptions C89_constraints.
(** ** recomputegzz does not give unit determinant, unless the upper left minor is 1 *)
Theorem C89_gzz_partial a : s_dt a <> 0 -> s_flag a Frecomputegzz = true -> s_flag a Fnormalizedetg = false -> bs_new a 0 * bs_new a 3 - bs_new a 1 * bs_new a 1 <> 0 ->
  det (sym (bs_new a)) = bs_new a 0 * bs_new a 3 - bs_new a 1 * bs_new a 1.
Proof.
  intros T G N M. assert (E : forall n, (n < 6)%nat -> bs_new a n = gl a n) by (intros n L; rewrite gl_new by auto; rewrite N; ring).
  rewrite !E in M by lia. transitivity (det (sym (gl a))); [unfold det, sym; now rewrite !E by (cbn; lia)|]. rewrite !E by lia. unfold det, sym. cbn [s6 gl] in *. unfold bs_ng33_3. rewrite G. unfold bs_ng33_2, pow2. field. exact M.
Qed.
Print Assumptions C89_gzz_partial.
(** the previous values 2, 2, 1 on the diagonal and nothing else *)
Definition in89 (f : bflag -> bool) (pre : nat -> R) : bs_in := MkBs 0 (fun n => match n with 0%nat => 1 | _ => 0 end) (fun n => match n with 0%nat | 3%nat | 5%nat => 1 | _ => 0 end) pre (fun _ => 0) (fun _ => 0) (fun _ => 0) (fun _ => 0) (fun _ => 0) (fun _ => 0) (fun _ => 0) (fun _ => 0) (fun _ => 0) (fun _ => 0) (fun _ => 0) 0 1 f (fun _ => 0).
Definition only (f : bflag) (g : bflag) : bool := match f, g with Frecomputegzz, Frecomputegzz | FsubtractA, FsubtractA | Fnormalizedetg, Fnormalizedetg | FrecomputeAzz, FrecomputeAzz => true | _, _ => false end.
Definition pre89 (n : nat) : R := match n with 0%nat | 3%nat => 2 | 5%nat => 1 | 7%nat => 3 | 8%nat => 1 | _ => 0 end.
Lemma new89 f n : (n < 6)%nat -> gl (in89 f pre89) n = match n with 0%nat | 3%nat => 2 | 5%nat => 1 | _ => 0 end.
Proof.
  intros L. assert (R9 : forall n, (n < 5)%nat -> gl (in89 f pre89) n = match n with 0%nat | 3%nat => 2 | 5%nat => 1 | _ => 0 end).
  { clear n L. intros n L. do 5 (destruct n as [|n]; [cbn [gl]; cbv beta iota delta [bs_ng11 bs_ng12 bs_ng13 bs_ng22 bs_ng23 bs_rg11 bs_rg12 bs_rg13 bs_rg22 bs_rg23 bs_lieg11 bs_lieg12_2 bs_lieg13_2 bs_lieg22 bs_lieg23_2 bs_betadg11 bs_betadg21 bs_betadg31 bs_betadg22 bs_betadg32 bs_totdivbeta bs_divbeta bs_dt bs_pg11 bs_pg12 bs_pg13 bs_pg22 bs_pg23 bs_db11 bs_db12 bs_db13 bs_db21 bs_db22 bs_db23 bs_db31 bs_db32 bs_db33 bs_dbeta11 bs_dbeta12 bs_dbeta13 bs_dbeta21 bs_dbeta22 bs_dbeta23 bs_dbeta31 bs_dbeta32 bs_dbeta33
      bs_beta1 bs_beta2 bs_beta3 bs_A11 bs_A12 bs_A13 bs_A22 bs_A23 bs_alpha in89 s_dt s_pre s_u s_dbeta pre89]; ring|]). lia. }
  destruct (Nat.eq_dec n 5) as [->|N]; [|apply R9; lia]. pose proof (R9 0%nat ltac:(lia)) as Q0. pose proof (R9 1%nat ltac:(lia)) as Q1. pose proof (R9 2%nat ltac:(lia)) as Q2. pose proof (R9 3%nat ltac:(lia)) as Q3. pose proof (R9 4%nat ltac:(lia)) as Q4. cbn [gl] in *. unfold bs_ng33_3. destruct (s_flag (in89 f pre89) Frecomputegzz).
  - unfold bs_ng33_2, pow2. rewrite Q0, Q1, Q2, Q3, Q4. field.
  - cbv beta iota delta [bs_ng33 bs_rg33 bs_lieg33 bs_betadg33 bs_totdivbeta bs_divbeta bs_dt bs_pg33 bs_db11 bs_db12 bs_db13 bs_db21 bs_db22 bs_db23 bs_db31 bs_db32 bs_db33 bs_dbeta11 bs_dbeta12 bs_dbeta13 bs_dbeta21 bs_dbeta22 bs_dbeta23 bs_dbeta31 bs_dbeta32 bs_dbeta33
      bs_beta1 bs_beta2 bs_beta3 bs_A33 bs_alpha in89 s_dt s_pre s_u s_dbeta pre89]; ring.
Qed.
Theorem C89_gzz_refuted : exists a, s_dt a <> 0 /\ s_flag a Frecomputegzz = true /\ bs_error a = false /\ (forall i j, s_u a (s6 i j) = delta i j) /\ det (sym (bs_new a)) = 4.
Proof.
  exists (in89 (only Frecomputegzz) pre89). assert (T : s_dt (in89 (only Frecomputegzz) pre89) <> 0) by (cbn; lra). split; [exact T|]. split; [reflexivity|]. split; [unfold bs_error; now rewrite add_t|]. split; [intros i j; destruct i, j; reflexivity|].
  assert (E : forall n, (n < 6)%nat -> bs_new (in89 (only Frecomputegzz) pre89) n = match n with 0%nat | 3%nat => 2 | 5%nat => 1 | _ => 0 end). { intros n L. rewrite gl_new by auto. cbn [in89 s_flag only]. rewrite Rmult_1_l. now apply new89. }
  unfold det, sym. rewrite !E by (cbn; lia). cbn [s6]. ring.
Qed.
Print Assumptions C89_gzz_refuted.
(** a case for C89_constraints: all three enforcements *)
Example C89_case : exists a, s_dt a <> 0 /\ 0 < det (sym (bs_new (not_normalised a))) /\ s_flag a Fnormalizedetg = true /\ s_flag a FsubtractA = true /\ det (sym (s_pre a)) <> 1.
Proof.
  set (fl := fun f => match f with Fnormalizedetg | FsubtractA => true | _ => false end). exists (in89 fl pre89). assert (T : s_dt (in89 fl pre89) <> 0) by (cbn; lra). split; [exact T|]. split.
  - assert (E : forall n, (n < 6)%nat -> bs_new (not_normalised (in89 fl pre89)) n = match n with 0%nat | 3%nat => 2 | 5%nat => 1 | _ => 0 end) by (intros n L; rewrite gl_n by auto; now apply new89).
    unfold det, sym. rewrite !E by (cbn; lia). cbn [s6]. lra.
  - split; [reflexivity|]. split; [reflexivity|]. unfold det, sym. cbn [s6 in89 s_pre pre89]. lra.
Qed.
(** a case for C89_step: the metric moves with -2 alpha A *)
Definition in89s : bs_in := MkBs 0 (fun n => match n with 0%nat => 1 | _ => 0 end) (fun n => match n with 0%nat | 3%nat | 5%nat | 17%nat | 7%nat => 1 | 10%nat => -1 | _ => 0 end) pre89 (fun _ => 0) (fun _ => 0) (fun _ => 0) (fun _ => 0) (fun _ => 0) (fun _ => 0) (fun _ => 0) (fun _ => 0) (fun _ => 0) (fun _ => 0) (fun _ => 0) 0 (1 / 4) (fun f => match f with FforceKzerofactor => true | _ => false end) (fun _ => 0).
Example C89_case_step : s_dt in89s <> 0 /\ (forall f, f <> FforceKzerofactor -> s_flag in89s f = false) /\ s_flag in89s FforceKzerofactor = true /\ bs_new in89s 0 = 3 / 2.
Proof.
  assert (T : s_dt in89s <> 0) by (cbn; lra). split; [exact T|]. split; [intros f N; destruct f; try reflexivity; contradiction|]. split; [reflexivity|].
  rewrite gl_new by (auto; lia). cbn [gl].  cbv beta iota delta [in89s s_flag]. cbv beta iota delta [bs_ng11 bs_rg11 bs_lieg11 bs_betadg11 bs_totdivbeta bs_divbeta bs_dt bs_pg11 bs_db11 bs_db12 bs_db13 bs_db22 bs_db33 bs_dbeta11 bs_dbeta21 bs_dbeta31 bs_dbeta22 bs_dbeta33 bs_beta1 bs_beta2 bs_beta3 bs_A11 bs_alpha bs_g11 bs_g12 bs_g13 bs_dgt111 bs_dgt112 bs_dgt113 s_dt s_pre s_u s_dbeta s_dg pre89]. field.
Qed.
(** ** the densitised lapse: the new lapse is the new density times sqrt (det h) ^ w, for the new physical metric;
    and the density moves such that the lapse has the same rate as without the density, except with densitizedoplogWithoutShift *)
Theorem C89_density a : s_dt a <> 0 -> s_flag a FdensitizedLapse = true -> 0 < s_psi a 0 ->
  let w := s_par a PalphaDensityWeight in let plain := set_dt (set_flags a (fun f => match f with FdensitizedLapse => false | f => s_flag a f end)) 0 in
  bs_new a 17 = Rpower (s_psi a 0) (6 * w) * exp (6 * w * bs_new a 6) * bs_nalphaDensity_out a (s_u a 24) /\
  exists r, bs_nalphaDensity_out a (s_u a 24) = s_pre a 24 + s_dt a * r /\
    (s_flag a FdensitizedoplogWithoutShift = false -> s_flag a Fnonconstantlapse = true ->
     derivable_pt_lim (fun t => Rpower (s_psi a 0) (6 * w) * exp (6 * w * (s_u a 6 + t * bs_new plain 6)) * (s_u a 24 + t * r)) 0 (bs_new plain 17)).
Proof.
  intros T D P w plain. assert (A1 := add_t a T). split.
  - cbn [bs_new]. unfold bs_nalpha_7, bs_nphi_3, bs_nalphaDensity_out, bs_nalphaDensity_3. rewrite A1, D. unfold bs_nalpha_3. rewrite D. unfold bs_nalpha, bs_nf, bs_alphaDensityWeight. fold w. rewrite <- (Rmult_comm (bs_nalphaDensity a)), <- (Rmult_comm (bs_nalphaDensity a)). f_equal. unfold bs_logpsi_2, bs_psi, Rpower. rewrite <- exp_plus. f_equal. ring.
  - exists (bs_ralphaDensity_4 a). split; [unfold bs_nalphaDensity_out, bs_nalphaDensity_3; rewrite A1, D; unfold bs_nalphaDensity, bs_dt, bs_palphaDensity; ring|]. intros W N.
    assert (A0 : bs_addlinear plain = false) by apply add_0. cbn [bs_new]. unfold bs_nphi_3, bs_nalpha_7. rewrite A0. unfold bs_nalpha_6. change (s_flag plain FdensitizedLapse) with false. cbv iota. unfold bs_nphi_2, bs_nalpha_5. change (bs_rphi_3 plain) with (bs_rphi_3 a). change (bs_ralpha plain) with (bs_ralpha a).
    assert (R4 : bs_ralphaDensity_4 a = bs_ooE6alphaDensityWeightf a * bs_ralpha a - 6 * w * bs_rphi_3 a * s_u a 24). { unfold bs_ralphaDensity_4, bs_nonconstantlapse, bs_ralphaDensity_3. rewrite N, W. unfold bs_ralphaDensity, bs_alphaDensityWeight, bs_alphaDensity. fold w. ring. }
    assert (E6 : bs_ooE6alphaDensityWeightf a * (Rpower (s_psi a 0) (6 * w) * exp (6 * w * s_u a 6)) = 1). { unfold bs_ooE6alphaDensityWeightf, bs_E6alphaDensityWeightf, bs_f_2, bs_f, bs_logpsi_2, bs_alphaDensityWeight, bs_psi, bs_phi, Rpower. fold w. rewrite <- exp_plus. replace (6 * w * ln (s_psi a 0) + 6 * w * s_u a 6) with (6 * w * (s_u a 6 + ln (s_psi a 0))) by ring. field. apply Rgt_not_eq, exp_pos. }
    set (r := bs_ralphaDensity_4 a) in *. set (q := bs_rphi_3 a) in *. set (c := Rpower (s_psi a 0) (6 * w)) in *.
    assert (L : forall c d x, derivable_pt_lim (fun t => c + t * d) x d). { intros u v x. assert (Q : derivable_pt_lim (fun t => u + t * v) x (0 + (1 * v + x * 0))) by (apply (derivable_pt_lim_plus (fun _ => u) (fun t => t * v)); [apply derivable_pt_lim_const|apply (derivable_pt_lim_mult id (fun _ => v)); [apply derivable_pt_lim_id|apply derivable_pt_lim_const]]). rewrite Rmult_0_r, Rplus_0_r, Rmult_1_l, Rplus_0_l in Q. exact Q. }
    assert (Q : derivable_pt_lim (fun t => c * exp (6 * w * (s_u a 6 + t * q)) * (s_u a 24 + t * r)) 0 (c * (exp (6 * w * (s_u a 6 + 0 * q)) * (6 * w * q)) * (s_u a 24 + 0 * r) + c * exp (6 * w * (s_u a 6 + 0 * q)) * r)).
    { apply (derivable_pt_lim_mult (fun t => c * exp (6 * w * (s_u a 6 + t * q))) (fun t => s_u a 24 + t * r)); [|apply L]. apply derivable_pt_lim_scal. apply (derivable_pt_lim_comp (fun t => 6 * w * (s_u a 6 + t * q)) exp 0 (6 * w * q)); [apply derivable_pt_lim_scal, L|apply derivable_pt_lim_exp]. }
    replace (bs_ralpha a) with (c * (exp (6 * w * (s_u a 6 + 0 * q)) * (6 * w * q)) * (s_u a 24 + 0 * r) + c * exp (6 * w * (s_u a 6 + 0 * q)) * r); [exact Q|]. rewrite !Rmult_0_l, !Rplus_0_r, R4.
    transitivity (bs_ooE6alphaDensityWeightf a * (c * exp (6 * w * s_u a 6)) * bs_ralpha a); [ring|]. rewrite E6. ring.
Qed.
Print Assumptions C89_density.
Example C89_case_density : exists a, s_dt a <> 0 /\ s_flag a FdensitizedLapse = true /\ 0 < s_psi a 0 /\ s_flag a FdensitizedoplogWithoutShift = false /\ s_flag a Fnonconstantlapse = true.
Proof. exists (in89 (fun f => match f with FdensitizedLapse | Fnonconstantlapse => true | _ => false end) pre89). cbn. repeat split; lra. Qed.
